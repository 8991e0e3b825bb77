From Coq Require Import List ZArith Lia Reals Permutation.
From Flocq Require Import Core IEEE754.BinarySingleNaN.
From Verif Require Import F64 RunMean_Proofs EdgesF_Proofs GridF_Model GridF_Spec.
From Coq Require Import Lra.
Import ListNotations.
Local Open Scope R_scope.

Notation vals l := (map B2R (l : list f64)).
Lemma sum_app a b : sum (a ++ b) = sum a + sum b.
Proof. induction a as [|x a IH]; cbn; [unfold sum; lra|]. unfold sum in *. rewrite IH. lra. Qed.
Lemma sum_abs_app a b : sum_abs (a ++ b) = sum_abs a + sum_abs b.
Proof. unfold sum_abs. rewrite map_app. apply sum_app. Qed.
Lemma sum_abs_pos l : 0 <= sum_abs l.
Proof. induction l as [|x l IH]; unfold sum_abs, sum in *; cbn; [lra|]. pose proof (Rabs_pos x). lra. Qed.
Lemma sum_le_abs l : Rabs (sum l) <= sum_abs l.
Proof. induction l as [|x l IH]; unfold sum_abs, sum in *; cbn; [rewrite Rabs_R0; lra|]. pose proof (Rabs_triang x (fold_right Rplus 0 l)). lra. Qed.
Lemma sum_perm a b : Permutation a b -> sum a = sum b.
Proof. induction 1; unfold sum in *; cbn; lra. Qed.

(** ** Rounding errors of the sums *)
Section Sums.
Context (A : R) (HA : A <= bpow radix2 1021).
Definition near (m : nat) (s : f64) (S0 : R) : Prop := fin s /\ Rabs (B2R s - S0) <= INR m * (2 * u53) * A.
Lemma near_add m m' s t S0 T : near m s S0 -> near m' t T -> Rabs (S0 + T) <= A -> INR (m + m') <= 4503599627370496 ->
  near (S (m + m')) (fadd s t) (S0 + T).
Proof.
  intros [F1 E1] [F2 E2] B L. pose proof u53_val as U. assert (A0 : 0 <= A) by (apply Rle_trans with (2 := B), Rabs_pos).
  assert (E : Rabs (B2R s + B2R t - (S0 + T)) <= INR (m + m') * (2 * u53) * A).
  { rewrite plus_INR. replace (B2R s + B2R t - (S0 + T)) with ((B2R s - S0) + (B2R t - T)) by ring. pose proof (Rabs_triang (B2R s - S0) (B2R t - T)). lra. }
  assert (E' : INR (m + m') * (2 * u53) * A <= A).
  { apply Rle_trans with (1 * A); [|lra]. apply Rmult_le_compat_r; [exact A0|]. rewrite U. lra. }
  assert (B2 : Rabs (B2R s + B2R t) <= 2 * A).
  { replace (B2R s + B2R t) with ((B2R s + B2R t - (S0 + T)) + (S0 + T)) by ring. pose proof (Rabs_triang (B2R s + B2R t - (S0 + T)) (S0 + T)). lra. }
  assert (P : 2 * A <= bpow radix2 1022). { replace (bpow radix2 1022) with (2 * bpow radix2 1021) by (change 2 with (bpow radix2 1); rewrite <- bpow_plus; reflexivity). lra. }
  destruct (fadd_ok s t F1 F2) as [G1 G2].
  { apply oe_bounded. pose proof (bpow_gt_0 radix2 1022). lra. }
  split; [exact G2|]. rewrite G1. pose proof (rnd_rel_sum _ _ (B2R_format s) (B2R_format t)) as R'.
  assert (u53 * Rabs (B2R s + B2R t) <= u53 * (2 * A)) by (apply Rmult_le_compat_l; [rewrite U|]; lra).
  rewrite S_INR. replace (rnd (B2R s + B2R t) - (S0 + T)) with ((rnd (B2R s + B2R t) - (B2R s + B2R t)) + (B2R s + B2R t - (S0 + T))) by ring.
  pose proof (Rabs_triang (rnd (B2R s + B2R t) - (B2R s + B2R t)) (B2R s + B2R t - (S0 + T))). lra.
Qed.
Lemma near_exact x : fin x -> near 0 x (B2R x).
Proof. intros F. split; [exact F|]. rewrite Rminus_diag_eq, Rabs_R0 by reflexivity. cbn. lra. Qed.
Lemma near_fold vs : forall m s S0, near m s S0 -> Forall (fun x => fin x) vs -> Rabs S0 + sum_abs (vals vs) <= A -> INR (m + length vs) <= 4503599627370496 ->
  near (m + length vs) (fold_left fadd vs s) (S0 + sum (vals vs)).
Proof.
  induction vs as [|x vs IH]; intros m s S0 N F B L.
  - cbn. rewrite Nat.add_0_r, Rplus_0_r. exact N.
  - inversion F as [|? ? Fx F']; subst. cbn [map length fold_left] in *. unfold sum_abs in B. cbn [map sum fold_right] in B. change (fold_right Rplus 0 (map Rabs (vals vs))) with (sum_abs (vals vs)) in B.
    replace (m + S (length vs))%nat with (S (m + 0) + length vs)%nat in * by lia. unfold sum. cbn [fold_right]. change (fold_right Rplus 0 (vals vs)) with (sum (vals vs)). rewrite <- Rplus_assoc.
    pose proof (sum_abs_pos (vals vs)). pose proof (Rabs_triang S0 (B2R x)). apply IH; [|exact F'|lra|exact L].
    apply near_add; [exact N|apply near_exact, Fx|lra|]. apply Rle_trans with (2 := L). apply le_INR. lia.
Qed.
Lemma near_thread vs : Forall (fun x => fin x) vs -> sum_abs (vals vs) <= A -> INR (length vs) <= 4503599627370496 -> near (length vs) (thread_sum vs) (sum (vals vs)).
Proof.
  intros F B L. unfold thread_sum. pose proof (near_fold vs 0 fzero 0) as H. rewrite Rplus_0_l in H. cbn [Nat.add] in H. apply H; try assumption; [apply (near_exact fzero); reflexivity|rewrite Rabs_R0; lra].
Qed.
Lemma near_gather chunks : forall m s S0, near m s S0 -> Forall (fun x => fin x) (concat chunks) -> Rabs S0 + sum_abs (vals (concat chunks)) <= A ->
  INR (m + length (concat chunks) + length chunks) <= 4503599627370496 ->
  near (m + length (concat chunks) + length chunks) (fold_left fadd (map thread_sum chunks) s) (S0 + sum (vals (concat chunks))).
Proof.
  induction chunks as [|c chunks IH]; intros m s S0 N F B L.
  - cbn. rewrite !Nat.add_0_r, Rplus_0_r. exact N.
  - cbn [concat map length fold_left] in *. apply Forall_app in F as [F1 F2]. rewrite map_app, sum_abs_app in B. rewrite map_app, sum_app, <- Rplus_assoc. rewrite app_length in *.
    replace (m + (length c + length (concat chunks)) + S (length chunks))%nat with (S (m + length c) + length (concat chunks) + length chunks)%nat in * by lia.
    pose proof (sum_abs_pos (vals c)). pose proof (sum_abs_pos (vals (concat chunks))). pose proof (Rabs_triang S0 (sum (vals c))). pose proof (sum_le_abs (vals c)). pose proof (Rabs_pos S0).
    apply IH; [|exact F2|lra|exact L]. apply near_add; [exact N| |lra|apply Rle_trans with (2 := L); apply le_INR; lia].
    apply near_thread; [exact F1|lra|apply Rle_trans with (2 := L); apply le_INR; lia].
Qed.
Lemma zero_plus s : fin s -> fin (fadd fzero s) /\ B2R (fadd fzero s) = B2R s.
Proof.
  intros F. destruct (fadd_ok fzero s eq_refl F) as [E G].
  - change (B2R fzero) with 0. rewrite Rplus_0_l, (rnd_id _ (B2R_format s)). apply abs_B2R_lt_emax.
  - split; [exact G|]. rewrite E. change (B2R fzero) with 0. rewrite Rplus_0_l. apply rnd_id, B2R_format.
Qed.
Lemma near_total chunks : Forall (fun x => fin x) (concat chunks) -> sum_abs (vals (concat chunks)) <= A ->
  INR (length (concat chunks) + length chunks) <= 4503599627370496 ->
  near (length (concat chunks) + length chunks) (total chunks) (sum (vals (concat chunks))).
Proof.
  intros F B L. assert (N : near (length (concat chunks) + length chunks) (gathered (map thread_sum chunks)) (sum (vals (concat chunks)))).
  { destruct chunks as [|c chunks]; [exact (near_exact fzero eq_refl)|]. cbn [map gathered concat] in *. apply Forall_app in F as [F1 F2]. rewrite map_app, sum_abs_app in B. rewrite map_app, sum_app. rewrite app_length in *. cbn [length] in *.
    pose proof (sum_abs_pos (vals c)). pose proof (sum_abs_pos (vals (concat chunks))). pose proof (sum_le_abs (vals c)).
    destruct (near_gather chunks (length c) (thread_sum c) (sum (vals c))) as [G1 G2]; try assumption; [|lra|apply Rle_trans with (2 := L); apply le_INR; lia|].
    - apply near_thread; [exact F1|lra|apply Rle_trans with (2 := L); apply le_INR; lia].
    - split; [exact G1|]. apply Rle_trans with (1 := G2). apply Rmult_le_compat_r; [lra|]. apply Rmult_le_compat_r; [rewrite u53_val; lra|]. apply le_INR. lia. }
  destruct N as [N1 N2]. destruct (zero_plus _ N1) as [Z1 Z2]. unfold total. split; [exact Z1|]. rewrite Z2. exact N2.
Qed.
End Sums.

(** the sum of the squares is the sum of the rounded squares *)
Lemma total2_total chunks : total2 chunks = total (map (map (fun v => fmul v v)) chunks).
Proof.
  unfold total2, total. do 2 f_equal. rewrite map_map. apply map_ext. intros c. unfold thread_sum2, thread_sum. generalize fzero. induction c as [|v c IH]; intros z; [reflexivity|cbn; apply IH].
Qed.
Lemma occupancy_ok chunks : occupancy chunks = Z.of_nat (length (concat chunks)).
Proof.
  unfold occupancy. assert (H : forall z, fold_left (fun s c => (s + Z.of_nat (length c))%Z) chunks z = (z + Z.of_nat (length (concat chunks)))%Z); [|apply H].
  induction chunks as [|c r IH]; intros z; cbn [fold_left concat]; [cbn; lia|]. rewrite IH, app_length. lia.
Qed.

(** ** Whole numbers: nothing is rounded in the sums *)
Lemma zsum_app a b : zsum (a ++ b) = (zsum a + zsum b)%Z. Proof. induction a as [|x a IH]; cbn; [reflexivity|]. unfold zsum in *. rewrite IH. lia. Qed.
Definition zabs (l : list Z) : Z := zsum (map Z.abs l).
Lemma zabs_app a b : zabs (a ++ b) = (zabs a + zabs b)%Z. Proof. unfold zabs. rewrite map_app. apply zsum_app. Qed.
Lemma zabs_le l : (Z.abs (zsum l) <= zabs l)%Z. Proof. induction l as [|x l IH]; unfold zabs, zsum in *; cbn; lia. Qed.
Lemma zabs_pos l : (0 <= zabs l)%Z. Proof. pose proof (zabs_le l). lia. Qed.
Lemma whole_add x y a b : whole x a -> whole y b -> (Z.abs (a + b) <= 2 ^ 53)%Z -> whole (fadd x y) (a + b).
Proof.
  intros [F1 E1] [F2 E2] B. assert (R' : rnd (B2R x + B2R y) = IZR (a + b)) by (rewrite E1, E2, <- plus_IZR; apply rnd_id, Z_format, B).
  destruct (fadd_ok x y F1 F2) as [G1 G2].
  - rewrite R', <- abs_IZR. apply Rle_lt_trans with (1 := IZR_le _ _ B). rewrite <- bpow_IZR by lia. apply bpow_lt. lia.
  - split; [exact G2|congruence].
Qed.
Lemma whole_fold vs zs : Forall2 whole vs zs -> forall s a, whole s a -> (Z.abs a + zabs zs <= 2 ^ 53)%Z -> whole (fold_left fadd vs s) (a + zsum zs).
Proof.
  induction 1 as [|x z vs zs W H IH]; intros s a Ws B.
  - cbn. rewrite Z.add_0_r. exact Ws.
  - cbn [fold_left]. unfold zabs, zsum in *. cbn [map fold_right] in *. rewrite Z.add_assoc. pose proof (zabs_pos zs) as P. unfold zabs, zsum in P. apply IH; [apply whole_add; [exact Ws|exact W|lia]|lia].
Qed.
Lemma whole_zero : whole fzero 0. Proof. split; reflexivity. Qed.
Lemma whole_thread vs zs : Forall2 whole vs zs -> (zabs zs <= 2 ^ 53)%Z -> whole (thread_sum vs) (zsum zs).
Proof. intros H B. change (zsum zs) with (0 + zsum zs)%Z. apply whole_fold; [exact H|exact whole_zero|exact B]. Qed.
Lemma whole_gather chunks zss : Forall2 (Forall2 whole) chunks zss -> forall s a, whole s a -> (Z.abs a + zabs (concat zss) <= 2 ^ 53)%Z ->
  whole (fold_left fadd (map thread_sum chunks) s) (a + zsum (concat zss)).
Proof.
  induction 1 as [|c zs chunks zss W H IH]; intros s a Ws B.
  - cbn. rewrite Z.add_0_r. exact Ws.
  - cbn [map fold_left concat] in *. rewrite zabs_app in B. rewrite zsum_app, Z.add_assoc. pose proof (zabs_pos zs). pose proof (zabs_pos (concat zss)). pose proof (zabs_le zs).
    apply IH; [apply whole_add; [exact Ws|apply whole_thread; [exact W|lia]|lia]|lia].
Qed.
Lemma whole_total chunks zss : Forall2 (Forall2 whole) chunks zss -> (zabs (concat zss) <= 2 ^ 53)%Z -> whole (total chunks) (zsum (concat zss)).
Proof.
  intros H B. assert (W : whole (gathered (map thread_sum chunks)) (zsum (concat zss))).
  { destruct H as [|c zs chunks zss W H]; [exact whole_zero|]. cbn [map gathered concat] in *. rewrite zabs_app in B. rewrite zsum_app.
    pose proof (zabs_pos zs). pose proof (zabs_pos (concat zss)). pose proof (zabs_le zs). apply whole_gather; [exact H|apply whole_thread; [exact W|lia]|lia]. }
  destruct W as [W1 W2]. destruct (zero_plus _ W1) as [Z1 Z2]. unfold total. split; [exact Z1|congruence].
Qed.
Lemma whole_mul x y a b : whole x a -> whole y b -> (Z.abs (a * b) <= 2 ^ 53)%Z -> whole (fmul x y) (a * b).
Proof.
  intros [F1 E1] [F2 E2] B. assert (R' : rnd (B2R x * B2R y) = IZR (a * b)) by (rewrite E1, E2, <- mult_IZR; apply rnd_id, Z_format, B).
  destruct (fmul_ok x y F1 F2) as [G1 G2].
  - rewrite R', <- abs_IZR. apply Rle_lt_trans with (1 := IZR_le _ _ B). rewrite <- bpow_IZR by lia. apply bpow_lt. lia.
  - split; [exact G2|congruence].
Qed.
Lemma zsq_app a b : zsq (a ++ b) = (zsq a + zsq b)%Z. Proof. unfold zsq. rewrite map_app. apply zsum_app. Qed.
Lemma zsq_pos l : (0 <= zsq l)%Z. Proof. induction l as [|x l IH]; unfold zsq, zsum in *; cbn; [lia|nia]. Qed.
Lemma zabs_sq l : (zabs l <= zsq l)%Z. Proof. induction l as [|x l IH]; unfold zabs, zsq, zsum in *; cbn; [lia|nia]. Qed.
Lemma zabs_zsq l : zabs (map (fun z => z * z)%Z l) = zsq l.
Proof. unfold zabs, zsq. f_equal. rewrite map_map. apply map_ext. intros. nia. Qed.
Lemma zsq_in z l : In z l -> (z * z <= zsq l)%Z.
Proof. induction l as [|x l IH]; [intros []|]. intros [->|I]; unfold zsq, zsum in *; cbn; pose proof (zsq_pos l) as P; unfold zsq, zsum in P; [lia|]. specialize (IH I). nia. Qed.
Lemma cauchy l : (zsum l * zsum l <= Z.of_nat (length l) * zsq l)%Z.
Proof.
  induction l as [|x l IH]; [cbn; lia|]. assert (D : (0 <= Z.of_nat (length l) * (x * x) + zsq l - 2 * x * zsum l)%Z).
  { clear IH. induction l as [|y l IH]; [cbn; lia|]. cbn [length]. unfold zsq, zsum in *. cbn [map fold_right]. rewrite Nat2Z.inj_succ. set (q := fold_right Z.add 0%Z (map _ l)) in *. set (t := fold_right Z.add 0%Z l) in *.
    pose proof (Z.square_nonneg (x - y)) as P. replace (Z.succ (Z.of_nat (length l)) * (x * x) + (y * y + q) - 2 * x * (y + t))%Z with ((Z.of_nat (length l) * (x * x) + q - 2 * x * t) + (x - y) * (x - y))%Z by ring. lia. }
  cbn [length]. unfold zsq, zsum in *. cbn [map fold_right]. rewrite Nat2Z.inj_succ. set (q := fold_right Z.add 0%Z (map _ l)) in *. set (t := fold_right Z.add 0%Z l) in *.
  replace ((x + t) * (x + t))%Z with (x * x + 2 * x * t + t * t)%Z by ring.
  replace (Z.succ (Z.of_nat (length l)) * (x * x + q))%Z with (Z.of_nat (length l) * (x * x) + Z.of_nat (length l) * q + x * x + q)%Z by ring. lia.
Qed.
Lemma whole_total2 chunks zss : Forall2 (Forall2 whole) chunks zss -> (zsq (concat zss) <= 2 ^ 53)%Z -> whole (total2 chunks) (zsq (concat zss)).
Proof.
  intros H B. rewrite total2_total. assert (E : zsq (concat zss) = zsum (concat (map (map (fun z => z * z)%Z) zss))) by (unfold zsq; rewrite concat_map; reflexivity).
  rewrite E. apply whole_total; [|rewrite <- concat_map, zabs_zsq; exact B]. assert (I : forall z, In z (concat zss) -> (z * z <= 2 ^ 53)%Z) by (intros z Iz; pose proof (zsq_in z _ Iz); lia). clear B E.
  induction H as [|c zs chunks zss W H IH]; [constructor|]. cbn [map concat] in *. constructor; [|apply IH; intros; apply I, in_app_iff; auto].
  assert (I' : forall z, In z zs -> (z * z <= 2 ^ 53)%Z) by (intros; apply I, in_app_iff; auto). clear I IH H.
  induction W as [|x z c zs W0 W IH]; [constructor|]. cbn [map]. constructor; [|apply IH; intros; apply I'; right; assumption]. apply whole_mul; [exact W0|exact W0|]. specialize (I' z (or_introl eq_refl)). nia.
Qed.

(** ** Standard error *)
Lemma fsqrt_ok x : fin x -> 0 <= B2R x -> fin (fsqrt x) /\ B2R (fsqrt x) = rnd (sqrt (B2R x)).
Proof.
  intros F P. destruct (Bsqrt_correct 53 1024 prec53 max1024 mode_NE x) as (E & G & _). split; [|exact E]. unfold fsqrt. rewrite G.
  destruct x as [|s| |s m e]; try discriminate F; [reflexivity|]. destruct s; [|reflexivity]. exfalso. apply Rle_not_lt in P. apply P. cbn. apply F2R_lt_0. reflexivity.
Qed.
Lemma se_ok chunks : (0 < occupancy chunks <= 2 ^ 53)%Z -> fin (variance chunks) -> 0 <= B2R (variance chunks) ->
  fin (std_error chunks) /\ 0 <= B2R (std_error chunks) /\ B2R (std_error chunks) = rnd (rnd (sqrt (B2R (variance chunks))) / rnd (sqrt (IZR (occupancy chunks)))).
Proof.
  intros O F P. unfold std_error. destruct (Z.eqb_spec (occupancy chunks) 0); [lia|]. destruct (f64_of_Z_ok (occupancy chunks)) as [N1 N2]; [lia|].
  assert (N0 : 1 <= IZR (occupancy chunks)) by (apply IZR_le; lia). destruct (fsqrt_ok _ F P) as [S1 S2]. destruct (fsqrt_ok (f64_of_Z (occupancy chunks)) N2) as [T1 T2]; [rewrite N1; lra|]. rewrite N1 in T2.
  assert (T : 1 <= rnd (sqrt (IZR (occupancy chunks)))) by (apply rnd_ge; [exact F64_1|]; rewrite <- sqrt_1 at 1; apply sqrt_le_1_alt; lra).
  assert (S0 : 0 <= rnd (sqrt (B2R (variance chunks)))) by (apply rnd_pos, sqrt_pos).
  assert (Q : 0 <= rnd (sqrt (B2R (variance chunks))) / rnd (sqrt (IZR (occupancy chunks))) <= rnd (sqrt (B2R (variance chunks)))).
  { split; [apply Rmult_le_pos; [exact S0|left; apply Rinv_0_lt_compat; lra]|]. apply (Rmult_le_reg_r (rnd (sqrt (IZR (occupancy chunks))))); [lra|].
    replace (rnd (sqrt (B2R (variance chunks))) / rnd (sqrt (IZR (occupancy chunks))) * rnd (sqrt (IZR (occupancy chunks)))) with (rnd (sqrt (B2R (variance chunks)))) by (field; lra). nra. }
  destruct (fdiv_ok (fsqrt (variance chunks)) (fsqrt (f64_of_Z (occupancy chunks))) S1) as [D1 D2]; [rewrite T2; lra| |].
  - rewrite S2, T2, Rabs_pos_eq by (apply rnd_pos; lra). apply Rle_lt_trans with (B2R (fsqrt (variance chunks))).
    + apply rnd_le_g; [apply B2R_format|rewrite S2; lra].
    + rewrite <- (Rabs_pos_eq (B2R _)) by (rewrite S2; exact S0). apply abs_B2R_lt_emax.
  - rewrite S2, T2 in D1. split; [exact D2|]. split; [rewrite D1; apply rnd_pos; lra|exact D1].
Qed.

(** whole numbers *)
Lemma whole_length chunks zss : Forall2 (Forall2 whole) chunks zss -> length (concat chunks) = length (concat zss).
Proof.
  induction 1 as [|c zs chunks zss W H IH]; [reflexivity|]. cbn. rewrite !app_length, IH. f_equal. clear -W. induction W; [reflexivity|cbn; congruence].
Qed.
Lemma whole_variance chunks zss : Forall2 (Forall2 whole) chunks zss -> let l := concat zss in let n := Z.of_nat (length l) in
  (0 < n <= 2 ^ 53)%Z -> (n * zsq l <= 2 ^ 53)%Z ->
  fin (variance chunks) /\ 0 <= B2R (variance chunks) /\
  B2R (variance chunks) = rnd (rnd (IZR (zsq l) - rnd (IZR (zsum l * zsum l) / IZR n)) / IZR n) /\
  Rabs (B2R (variance chunks) - (IZR (zsq l) - IZR (zsum l * zsum l) / IZR n) / IZR n) <= bpow radix2 (-51) * (IZR (zsq l) / IZR n).
Proof.
  intros H l n Hn B. pose proof (whole_length chunks zss H) as L. fold l in L.
  pose proof (zsq_pos l) as Qp. pose proof (cauchy l) as CS. fold n in CS. assert (Q53 : (zsq l <= 2 ^ 53)%Z) by nia.
  destruct (whole_total chunks zss H) as [T1 T2]; [fold l; pose proof (zabs_sq l); lia|]. destruct (whole_total2 chunks zss H Q53) as [U1 U2]. fold l in T2, U2.
  unfold variance. rewrite occupancy_ok, L. fold n. cbv zeta. destruct (f64_of_Z_ok n) as [N1 N2]; [lia|].
  assert (W2 : whole (fmul (total chunks) (total chunks)) (zsum l * zsum l)).
  { apply whole_mul; [split; assumption|split; assumption|]. pose proof (Z.square_nonneg (zsum l)). lia. }
  destruct W2 as [W1 W2]. set (d2 := (zsum l * zsum l)%Z) in *. assert (D0 : (0 <= d2)%Z) by apply Z.square_nonneg.
  set (q := zsq l) in *. clearbody q d2. clear T1 T2 L H.
  assert (Nr : 1 <= IZR n) by (apply IZR_le; lia). assert (Dr : 0 <= IZR d2) by (apply IZR_le; lia). assert (Qr : 0 <= IZR q <= 9007199254740992) by (split; apply IZR_le; lia).
  assert (C : IZR d2 / IZR n <= IZR q) by (apply (Rmult_le_reg_r (IZR n)); [lra|]; replace (IZR d2 / IZR n * IZR n) with (IZR d2) by (field; lra); rewrite <- mult_IZR; apply IZR_le; lia).
  assert (Y0 : 0 <= IZR d2 / IZR n) by (apply Rmult_le_pos; [lra|left; apply Rinv_0_lt_compat; lra]).
  assert (Fq : F64 (IZR q)) by (apply Z_format; lia). assert (P : 0 <= rnd (IZR d2 / IZR n) <= IZR q) by (split; [apply rnd_pos, Y0|apply rnd_le_g; assumption]).
  assert (B1 : forall y, 0 <= y <= IZR q -> Rabs (rnd y) < bpow radix2 1024).
  { intros y Y. rewrite Rabs_pos_eq by (apply rnd_pos; lra). apply Rle_lt_trans with (bpow radix2 53); [|apply bpow_lt; lia]. apply rnd_le_g; [apply generic_format_bpow; cbv; discriminate|]. change (bpow radix2 53) with 9007199254740992. lra. }
  destruct (fdiv_ok _ (f64_of_Z n) W1) as [E1 E2]; [rewrite N1; lra|rewrite W2, N1; apply B1; lra|]. rewrite W2, N1 in E1.
  destruct (fsub_ok (total2 chunks) _ U1 E2) as (E3 & E4 & _); [rewrite U2, E1; apply B1; lra|]. rewrite U2, E1 in E3.
  set (p := rnd (IZR d2 / IZR n)) in *. assert (V : 0 <= rnd (IZR q - p) <= IZR q) by (split; [apply rnd_pos; lra|apply rnd_le_g; [exact Fq|lra]]).
  assert (Z0 : 0 <= rnd (IZR q - p) / IZR n <= IZR q).
  { split; [apply Rmult_le_pos; [lra|left; apply Rinv_0_lt_compat; lra]|]. apply (Rmult_le_reg_r (IZR n)); [lra|]. replace (rnd (IZR q - p) / IZR n * IZR n) with (rnd (IZR q - p)) by (field; lra). nra. }
  destruct (fdiv_ok _ (f64_of_Z n) E4) as [E5 E6]; [rewrite N1; lra|rewrite E3, N1; apply B1; exact Z0|]. rewrite E3, N1 in E5.
  split; [exact E6|]. split; [rewrite E5; apply rnd_pos; lra|]. split; [exact E5|]. rewrite E5.
  destruct (Z.eq_dec q 0) as [->|Qn].
  { assert (d2 = 0)%Z as -> by nia. unfold p. replace (0 / IZR n) with 0 by (field; lra). rewrite rnd_0, Rminus_0_r, rnd_0. replace (0 / IZR n) with 0 by (field; lra). rewrite rnd_0, Rminus_0_r, Rabs_R0. lra. }
  assert (Q1 : 1 <= IZR q) by (apply IZR_le; lia).
  pose proof (rnd_err (IZR d2 / IZR n)) as R1. rewrite (Rabs_pos_eq (IZR d2 / IZR n)) in R1 by lra. fold p in R1.
  pose proof (rnd_err (IZR q - p)) as R2. rewrite (Rabs_pos_eq (IZR q - p)) in R2 by lra.
  pose proof (rnd_err (rnd (IZR q - p) / IZR n)) as R3. rewrite (Rabs_pos_eq (rnd (IZR q - p) / IZR n)) in R3 by lra.
  set (v := rnd (IZR q - p)) in *. set (y := IZR d2 / IZR n) in *. set (r := rnd (v / IZR n)) in *. clearbody p v y r. apply Rabs_le_inv in R1, R2, R3.
  assert (T : bpow radix2 (-1074) <= bpow radix2 (-120)) by (apply bpow_le; lia). change (bpow radix2 (-120)) with (/ 1329227995784915872903807060280344576) in T. pose proof (bpow_gt_0 radix2 (-1074)) as T0.
  rewrite u51. rewrite u53_val in *. assert (Nu : IZR n <= 9007199254740992) by (apply IZR_le; lia).
  (* multiply by n *)
  assert (X : Rabs ((r - (IZR q - y) / IZR n) * IZR n) <= 4 * / 9007199254740992 * IZR q).
  { replace ((r - (IZR q - y) / IZR n) * IZR n) with ((r - v / IZR n) * IZR n + (v - (IZR q - y))) by (field; lra).
    assert (R4 : Rabs ((r - v / IZR n) * IZR n) <= / 9007199254740992 * v + bpow radix2 (-1074) / 2 * IZR n).
    { rewrite Rabs_mult, (Rabs_pos_eq (IZR n)) by lra. replace (/ 9007199254740992 * v + bpow radix2 (-1074) / 2 * IZR n) with ((/ 9007199254740992 * (v / IZR n) + bpow radix2 (-1074) / 2) * IZR n) by (field; lra). apply Rmult_le_compat_r; [lra|apply Rabs_le; lra]. }
    assert (bpow radix2 (-1074) / 2 * IZR n <= bpow radix2 (-1074) / 2 * 9007199254740992) by (apply Rmult_le_compat_l; lra).
    apply Rabs_le_inv in R4. apply Rabs_le. lra. }
  rewrite Rabs_mult, (Rabs_pos_eq (IZR n)) in X by lra. apply (Rmult_le_reg_r (IZR n)); [lra|]. apply Rle_trans with (1 := X). right. field. lra.
Qed.

(** ** Any values *)
Lemma sum_sq_pos l : 0 <= sum_sq l.
Proof. induction l as [|x l IH]; unfold sum_sq, sum in *; cbn; [lra|nra]. Qed.
Lemma sum_sq_in x l : In x l -> x * x <= sum_sq l.
Proof. induction l as [|y l IH]; [intros []|]. pose proof (sum_sq_pos l) as P. unfold sum_sq, sum in *. cbn. intros [->|I]; [lra|]. specialize (IH I). nra. Qed.
Lemma sum_sq_low l : (forall x, In x l -> x = 0 \/ bpow radix2 (-480) <= Rabs x) -> 0 < sum_sq l -> bpow radix2 (-960) <= sum_sq l.
Proof.
  induction l as [|x l IH]; intros H P; [unfold sum_sq, sum in P; cbn in P; lra|]. pose proof (sum_sq_pos l) as P'. destruct (H x (or_introl eq_refl)) as [->|X].
  - unfold sum_sq, sum in *. cbn [map fold_right] in *. assert (IH' : bpow radix2 (-960) <= fold_right Rplus 0 (map (fun x => x * x) l)) by (apply IH; [intros; apply H; right; assumption|lra]). lra.
  - unfold sum_sq, sum in *. cbn [map fold_right] in *. assert (bpow radix2 (-960) <= x * x); [|lra].
    change (-960)%Z with (-480 + -480)%Z. rewrite bpow_plus. rewrite <- (Rabs_pos_eq (x * x)) by nra. rewrite Rabs_mult. pose proof (bpow_ge_0 radix2 (-480)). apply Rmult_le_compat; assumption.
Qed.
Lemma rcauchy l : sum_abs l * sum_abs l <= INR (length l) * sum_sq l.
Proof.
  induction l as [|x l IH]; [unfold sum_abs, sum_sq, sum; cbn; lra|]. cbn [length]. rewrite S_INR.
  assert (D : 0 <= INR (length l) * (x * x) + sum_sq l - 2 * Rabs x * sum_abs l).
  { clear IH. induction l as [|y l IH]; [unfold sum_abs, sum_sq, sum; cbn; lra|]. cbn [length]. rewrite S_INR. unfold sum_sq, sum_abs, sum in *. cbn [map fold_right]. set (q := fold_right Rplus 0 (map (fun x => x * x) l)) in *. set (t := fold_right Rplus 0 (map Rabs l)) in *.
    pose proof (Rle_0_sqr (Rabs x - Rabs y)) as P. unfold Rsqr in P. assert (X : Rabs x * Rabs x = x * x) by (rewrite <- Rabs_mult; apply Rabs_pos_eq; nra). assert (Y : Rabs y * Rabs y = y * y) by (rewrite <- Rabs_mult; apply Rabs_pos_eq; nra).
    replace ((INR (length l) + 1) * (x * x) + (y * y + q) - 2 * Rabs x * (Rabs y + t)) with ((INR (length l) * (x * x) + q - 2 * Rabs x * t) + (x * x + y * y - 2 * Rabs x * Rabs y)) by ring. lra. }
  unfold sum_sq, sum_abs, sum in *. cbn [map fold_right]. set (q := fold_right Rplus 0 (map (fun x => x * x) l)) in *. set (t := fold_right Rplus 0 (map Rabs l)) in *.
  assert (X : Rabs x * Rabs x = x * x) by (rewrite <- Rabs_mult; apply Rabs_pos_eq; nra).
  replace ((Rabs x + t) * (Rabs x + t)) with (Rabs x * Rabs x + 2 * Rabs x * t + t * t) by ring. rewrite X.
  replace ((INR (length l) + 1) * (x * x + q)) with (INR (length l) * (x * x) + INR (length l) * q + x * x + q) by ring. lra.
Qed.
Lemma squares_ok vs : (forall x, In x vs -> fin x /\ (B2R x = 0 \/ bpow radix2 (-480) <= Rabs (B2R x)) /\ B2R x * B2R x <= bpow radix2 1000) ->
  Forall (fun x => fin x) (map (fun v => fmul v v) vs) /\ sum_abs (vals (map (fun v => fmul v v) vs)) <= (1 + u53) * sum_sq (vals vs) /\
  Rabs (sum (vals (map (fun v => fmul v v) vs)) - sum_sq (vals vs)) <= u53 * sum_sq (vals vs).
Proof.
  induction vs as [|x vs IH]; intros H.
  - unfold sum_abs, sum_sq, sum. cbn. split; [constructor|]. rewrite Rminus_0_r, Rabs_R0. lra.
  - destruct (H x (or_introl eq_refl)) as (Fx & Lx & Ux). destruct IH as (I1 & I2 & I3); [intros; apply H; right; assumption|].
    assert (E : Rabs (rnd (B2R x * B2R x) - B2R x * B2R x) <= u53 * (B2R x * B2R x)).
    { destruct Lx as [->|Lx]; [rewrite Rmult_0_l, rnd_0, Rminus_0_r, Rabs_R0; lra|]. pose proof (rnd_rel (B2R x * B2R x)) as R'. rewrite (Rabs_pos_eq (B2R x * B2R x)) in R' by nra. apply R'.
      rewrite <- (Rabs_pos_eq (B2R x * B2R x)) by nra. rewrite Rabs_mult. pose proof (bpow_ge_0 radix2 (-480)). apply Rle_trans with (bpow radix2 (-480) * bpow radix2 (-480)); [rewrite <- bpow_plus; apply bpow_le; lia|]. apply Rmult_le_compat; assumption. }
    pose proof u53_val as U. assert (X0 : 0 <= B2R x * B2R x) by nra. assert (P0 : 0 <= rnd (B2R x * B2R x)) by (apply rnd_pos, X0).
    destruct (fmul_ok x x Fx Fx) as [M1 M2].
    { apply oe_bounded. rewrite Rabs_pos_eq by lra. pose proof (bpow_gt_0 radix2 1022). assert (bpow radix2 1000 <= bpow radix2 1022) by (apply bpow_le; lia). lra. }
    unfold sum_abs, sum_sq, sum in *. cbn [map fold_right]. split; [constructor; [exact M2|exact I1]|]. rewrite M1. rewrite (Rabs_pos_eq (rnd (B2R x * B2R x))) by lra.
    apply Rabs_le_inv in E, I3. split; [lra|apply Rabs_le; lra].
Qed.
Lemma concat_sq (chunks : list (list f64)) : concat (map (map (fun v => fmul v v)) chunks) = map (fun v => fmul v v) (concat chunks).
Proof. symmetry. apply concat_map. Qed.

Lemma spread_ok chunks : let l := vals (concat chunks) in let n := length l in let m := (n + length chunks)%nat in
  (forall x, In x (concat chunks) -> fin x /\ (B2R x = 0 \/ bpow radix2 (-480) <= Rabs (B2R x))) -> 0 < sum_sq l -> INR n * sum_sq l <= bpow radix2 1000 ->
  (Z.of_nat m <= 2 ^ 40)%Z ->
  fin (variance chunks) /\ Rabs (B2R (variance chunks) * INR n - spread l) <= INR (7 * m + 8) * u53 * sum_sq l.
Proof.
  intros l n m H P BQ Bm. assert (Ln : n = length (concat chunks)) by (unfold n, l; rewrite map_length; reflexivity).
  assert (Nz : (1 <= n)%nat). { destruct n eqn:E; [|lia]. exfalso. assert (l = []) as El by (destruct l; [reflexivity|discriminate E]). rewrite El in P. unfold sum_sq, sum in P. cbn in P. lra. }
  assert (Mr : INR m <= 1099511627776) by (rewrite INR_IZR_INZ; apply IZR_le; exact Bm). assert (Nr : 1 <= INR n) by (apply (le_INR 1); exact Nz). assert (Nm : INR n <= INR m) by (apply le_INR; lia).
  pose proof (sum_sq_low l) as QL. assert (Q0 : bpow radix2 (-960) <= sum_sq l) by (apply QL; [|exact P]; intros x I; unfold l in I; apply in_map_iff in I; destruct I as (v & <- & I); apply H; exact I). clear QL.
  pose proof (rcauchy l) as CS. fold n in CS. pose proof (sum_le_abs l) as SA. pose proof (sum_abs_pos l) as A0. set (Q := sum_sq l) in *. set (A := sum_abs l) in *. set (S0 := sum l) in *.
  assert (QB : Q <= bpow radix2 1000) by nra.
  assert (AB : A <= bpow radix2 500).
  { destruct (Rle_or_lt A (bpow radix2 500)) as [|G]; [assumption|exfalso]. assert (bpow radix2 500 * bpow radix2 500 < A * A) by (pose proof (bpow_gt_0 radix2 500); nra). rewrite <- bpow_plus in H0. change (500 + 500)%Z with 1000%Z in H0. lra. }
  assert (Fc : Forall (fun x => fin x) (concat chunks)) by (apply Forall_forall; intros x I; apply H, I).
  assert (A21 : A <= bpow radix2 1021) by (apply Rle_trans with (1 := AB), bpow_le; lia).
  destruct (near_total A A21 chunks Fc (Rle_refl _)) as [D1 D2]; [rewrite <- Ln; fold m; lra|]. rewrite <- Ln in D2. fold m l S0 in D2.
  destruct (squares_ok (concat chunks)) as (Y1 & Y2 & Y3).
  { intros x I. destruct (H x I) as [X1 X2]. split; [exact X1|]. split; [exact X2|]. apply Rle_trans with (2 := QB). apply sum_sq_in. unfold l. apply in_map, I. }
  fold l Q in Y2, Y3. pose proof u53_val as U.
  assert (Q21 : (1 + u53) * Q <= bpow radix2 1021) by (apply Rle_trans with (2 * bpow radix2 1000); [rewrite U; lra|]; change 2 with (bpow radix2 1); rewrite <- bpow_plus; apply bpow_le; lia).
  destruct (near_total ((1 + u53) * Q) Q21 (map (map (fun v => fmul v v)) chunks)) as [G1 G2].
  { rewrite concat_sq. exact Y1. } { rewrite concat_sq. exact Y2. } { rewrite concat_sq, !map_length, <- Ln. fold m. lra. }
  rewrite concat_sq in G2. rewrite !map_length, <- Ln in G2. fold m in G2. rewrite <- total2_total in G1, G2.
  unfold variance. rewrite occupancy_ok, <- Ln. cbv zeta. destruct (f64_of_Z_ok (Z.of_nat n)) as [N1 N2]; [lia|]. rewrite <- INR_IZR_INZ in N1.
  set (d := B2R (total chunks)) in *. set (d2 := B2R (total2 chunks)) in *. set (sy := sum (vals (map (fun v => fmul v v) (concat chunks)))) in *.
  (* m u is small *)
  set (t := INR m * (2 * u53)) in *. assert (T : 0 <= t <= / 4096) by (unfold t; rewrite U; split; [apply Rmult_le_pos; lra|lra]).
  assert (TA : 0 <= t * A <= A * / 4096) by (split; [apply Rmult_le_pos; lra|rewrite Rmult_comm; apply Rmult_le_compat_l; lra]).
  assert (dA : Rabs d <= A * (1 + / 4096)) by (apply Rabs_le_inv in D2, SA; apply Rabs_le; lra).
  set (W := INR n * Q) in *. assert (W0 : 0 <= A * A <= W) by (split; [nra|exact CS]).
  assert (d2W : 0 <= d * d <= W * (1 + / 1024)).
  { split; [nra|]. rewrite <- (Rabs_pos_eq (d * d)) by nra. rewrite Rabs_mult. apply Rle_trans with (A * (1 + / 4096) * (A * (1 + / 4096))); [apply Rmult_le_compat; try apply Rabs_pos; exact dA|]. nra. }
  assert (DS : Rabs (d * d - S0 * S0) <= t * W * (2 + / 1024)).
  { replace (d * d - S0 * S0) with ((d - S0) * (d + S0)) by ring. rewrite Rabs_mult. apply Rle_trans with (t * A * (A * (2 + / 1024))).
    - apply Rmult_le_compat; [apply Rabs_pos|apply Rabs_pos|exact D2|]. pose proof (Rabs_triang d S0). lra.
    - replace (t * A * (A * (2 + / 1024))) with (t * (A * A) * (2 + / 1024)) by ring. apply Rmult_le_compat_r; [lra|]. apply Rmult_le_compat_l; lra. }
  assert (E0 : bpow radix2 (-1074) <= u53 * Q * / 1000000).
  { apply Rle_trans with (u53 * bpow radix2 (-960) * / 1000000). 2:{ apply Rmult_le_compat_r; [lra|]. apply Rmult_le_compat_l; [rewrite U; lra|exact Q0]. }
    apply Rle_trans with (u53 * bpow radix2 (-960) * bpow radix2 (-20)); [change u53 with (bpow radix2 (-53)); rewrite <- !bpow_plus; apply bpow_le; lia|].
    apply Rmult_le_compat_l; [apply Rmult_le_pos; apply bpow_ge_0|]. change (bpow radix2 (-20)) with (/ 1048576). lra. }
  pose proof (bpow_gt_0 radix2 (-1074)) as E00. assert (QW : Q <= W) by (unfold W; nra).
  assert (BD : forall y, Rabs y <= 4 * bpow radix2 1000 -> Rabs (rnd y) < bpow radix2 1024).
  { intros y Y. apply oe_bounded. apply Rle_trans with (1 := Y). replace (4 * bpow radix2 1000) with (bpow radix2 1002) by (change 4 with (bpow radix2 2); rewrite <- bpow_plus; reflexivity).
    assert (bpow radix2 1002 <= bpow radix2 1022) by (apply bpow_le; lia). pose proof (bpow_gt_0 radix2 1022). lra. }
  destruct (fmul_ok _ _ D1 D1) as [M1 M2]; [fold d; apply BD; rewrite Rabs_pos_eq by lra; lra|]. fold d in M1.
  pose proof rnd_err as RE. change eta with (bpow radix2 (-1074)) in RE. pose proof (RE (d * d)) as R1. rewrite (Rabs_pos_eq (d * d)) in R1 by lra. assert (p0 : 0 <= rnd (d * d)) by (apply rnd_pos; lra). set (p := rnd (d * d)) in *. clearbody p. apply Rabs_le_inv in R1.
  assert (pW : p <= W * (1 + / 512)) by (rewrite U in *; lra).
  assert (pn : 0 <= p / INR n <= Q * (1 + / 512)).
  { split; [apply Rmult_le_pos; [lra|left; apply Rinv_0_lt_compat; lra]|]. apply (Rmult_le_reg_r (INR n)); [lra|]. replace (p / INR n * INR n) with p by (field; lra). unfold W in pW. lra. }
  destruct (fdiv_ok _ (f64_of_Z (Z.of_nat n)) M2) as [E1 E2]; [rewrite N1; lra|rewrite M1, N1; apply BD; rewrite Rabs_pos_eq by lra; lra|]. rewrite M1, N1 in E1.
  pose proof (RE (p / INR n)) as R2. rewrite (Rabs_pos_eq (p / INR n)) in R2 by lra. assert (r0 : 0 <= rnd (p / INR n)) by (apply rnd_pos; lra). set (r := rnd (p / INR n)) in *. clearbody r. apply Rabs_le_inv in R2.
  assert (rQ : r <= Q * (1 + / 256)) by (rewrite U in *; lra).
  assert (d2Q : Rabs (d2 - Q) <= (t * (1 + u53) + u53) * Q).
  { replace (d2 - Q) with ((d2 - sy) + (sy - Q)) by ring. pose proof (Rabs_triang (d2 - sy) (sy - Q)). replace ((t * (1 + u53) + u53) * Q) with (t * ((1 + u53) * Q) + u53 * Q) by ring. lra. }
  assert (tQ : 0 <= t * Q <= Q * / 4096) by (split; [apply Rmult_le_pos; lra|rewrite Rmult_comm; apply Rmult_le_compat_l; lra]).
  assert (utQ : 0 <= u53 * (t * Q) <= t * Q * / 4096) by (split; [apply Rmult_le_pos; [rewrite U|]; lra|rewrite (Rmult_comm u53); apply Rmult_le_compat_l; [lra|rewrite U; lra]]).
  replace ((t * (1 + u53) + u53) * Q) with (t * Q + u53 * (t * Q) + u53 * Q) in d2Q by ring. apply Rabs_le_inv in d2Q.
  assert (SB : Rabs (d2 - r) <= Q * (1 + / 128)) by (apply Rabs_le; rewrite U in *; lra).
  destruct (fsub_ok (total2 chunks) _ G1 E2) as (E3 & E4 & _); [rewrite E1; fold d2; apply BD; lra|]. rewrite E1 in E3. fold d2 in E3.
  pose proof (RE (d2 - r)) as R3. set (v := rnd (d2 - r)) in *. clearbody v. assert (u53 * Rabs (d2 - r) <= u53 * (Q * (1 + / 128))) by (apply Rmult_le_compat_l; [rewrite U|]; lra). apply Rabs_le_inv in R3, SB.
  assert (vQ : Rabs v <= Q * (1 + / 64)) by (apply Rabs_le; rewrite U in *; lra).
  assert (vn : Rabs (v / INR n) * INR n = Rabs v) by (rewrite <- (Rabs_pos_eq (INR n)) at 2 by lra; rewrite <- Rabs_mult; f_equal; field; lra).
  assert (vnQ : Rabs (v / INR n) <= Q * (1 + / 64)) by (pose proof (Rabs_pos (v / INR n)); nra).
  destruct (fdiv_ok _ (f64_of_Z (Z.of_nat n)) E4) as [E5 E6]; [rewrite N1; lra|rewrite E3, N1; apply BD; lra|]. rewrite E3, N1 in E5.
  split; [exact E6|]. rewrite E5. pose proof (RE (v / INR n)) as R4. set (w := rnd (v / INR n)) in *. clearbody w.
  assert (wn : Rabs (w * INR n - v) <= u53 * (Q * (1 + / 64)) + bpow radix2 (-1074) / 2 * INR n).
  { replace (w * INR n - v) with ((w - v / INR n) * INR n) by (field; lra). rewrite Rabs_mult, (Rabs_pos_eq (INR n)) by lra.
    apply Rle_trans with ((u53 * Rabs (v / INR n) + bpow radix2 (-1074) / 2) * INR n); [apply Rmult_le_compat_r; lra|]. rewrite Rmult_plus_distr_r, Rmult_assoc, vn. apply Rplus_le_compat_r. apply Rmult_le_compat_l; [rewrite U|]; lra. }
  assert (en : bpow radix2 (-1074) / 2 * INR n <= u53 * Q * / 100).
  { apply Rle_trans with (bpow radix2 (-1074) / 2 * bpow radix2 40); [apply Rmult_le_compat_l; [lra|]; change (bpow radix2 40) with 1099511627776; lra|].
    apply Rle_trans with (bpow radix2 (-1074) * bpow radix2 40); [pose proof (bpow_gt_0 radix2 40); nra|].
    apply Rle_trans with (u53 * bpow radix2 (-960) * / 100). 2:{ apply Rmult_le_compat_r; [lra|]. apply Rmult_le_compat_l; [rewrite U; lra|exact Q0]. }
    apply Rle_trans with (u53 * bpow radix2 (-960) * bpow radix2 (-10)); [change u53 with (bpow radix2 (-53)); rewrite <- !bpow_plus; apply bpow_le; lia|].
    apply Rmult_le_compat_l; [apply Rmult_le_pos; apply bpow_ge_0|]. change (bpow radix2 (-10)) with (/ 1024). lra. }
  unfold spread. fold S0 Q n. set (sn := S0 * S0 / INR n).
  assert (DSn : Rabs (d * d / INR n - sn) <= t * Q * (2 + / 1024)).
  { unfold sn. replace (d * d / INR n - S0 * S0 / INR n) with ((d * d - S0 * S0) * / INR n) by (field; lra). rewrite Rabs_mult, (Rabs_pos_eq (/ INR n)) by (left; apply Rinv_0_lt_compat; lra).
    apply (Rmult_le_reg_r (INR n)); [lra|]. replace (Rabs (d * d - S0 * S0) * / INR n * INR n) with (Rabs (d * d - S0 * S0)) by (field; lra). apply Rle_trans with (1 := DS). unfold W. right. ring. }
  assert (ddn : 0 <= d * d / INR n <= Q * (1 + / 1024)).
  { split; [apply Rmult_le_pos; [lra|left; apply Rinv_0_lt_compat; lra]|]. apply (Rmult_le_reg_r (INR n)); [lra|]. replace (d * d / INR n * INR n) with (d * d) by (field; lra). unfold W in d2W. lra. }
  assert (pd : Rabs (p / INR n - d * d / INR n) <= u53 * (Q * (1 + / 1024)) + bpow radix2 (-1074) / 2).
  { replace (p / INR n - d * d / INR n) with ((p - d * d) / INR n) by (field; lra). 
    assert (I1 : / INR n <= 1) by (rewrite <- Rinv_1; apply Rinv_le_contravar; lra). assert (I0 : 0 < / INR n) by (apply Rinv_0_lt_compat; lra).
    unfold Rdiv at 1. rewrite Rabs_mult, (Rabs_pos_eq (/ INR n)) by lra. apply Rle_trans with ((u53 * (d * d) + bpow radix2 (-1074) / 2) * / INR n); [apply Rmult_le_compat_r; [lra|apply Rabs_le; lra]|].
    rewrite Rmult_plus_distr_r. apply Rplus_le_compat; [|apply Rle_trans with (bpow radix2 (-1074) / 2 * 1); [apply Rmult_le_compat_l; lra|lra]].
    rewrite Rmult_assoc. apply Rmult_le_compat_l; [rewrite U; lra|]. change (d * d * / INR n) with (d * d / INR n). lra. }
  assert (fin_ : INR (7 * m + 8) * u53 * Q = 7 / 2 * (t * Q) + 8 * (u53 * Q)).
  { rewrite plus_INR, mult_INR. replace (INR 7) with 7 by (cbn; lra). replace (INR 8) with 8 by (cbn; lra). unfold t. field. }
  rewrite fin_. clear fin_. apply Rabs_le_inv in wn, DSn, pd. set (uQ := u53 * Q) in *. replace (u53 * (Q * (1 + / 64))) with (uQ + uQ * / 64) in wn by (unfold uQ; ring).
  replace (u53 * (Q * (1 + / 1024))) with (uQ + uQ * / 1024) in pd by (unfold uQ; ring). replace (u53 * (Q * (1 + / 128))) with (uQ + uQ * / 128) in * by (unfold uQ; ring).
  assert (u53 * (p / INR n) <= uQ + uQ * / 512) by (replace (uQ + uQ * / 512) with (u53 * (Q * (1 + / 512))) by (unfold uQ; ring); apply Rmult_le_compat_l; [rewrite U|]; lra).
  assert (0 <= uQ) by (unfold uQ; apply Rmult_le_pos; [rewrite U|]; lra). set (tq := t * Q) in *. apply Rabs_le. split; lra.
Qed.

Lemma rel_sqrt y : bpow radix2 (-1074) <= y -> Rabs (rnd (sqrt y) - sqrt y) <= u53 * sqrt y.
Proof.
  intros H. pose proof (rnd_rel (sqrt y)) as R'. rewrite (Rabs_pos_eq (sqrt y)) in R' by apply sqrt_pos. apply R'.
  apply Rle_trans with (bpow radix2 (-537)); [apply bpow_le; lia|]. replace (bpow radix2 (-537)) with (sqrt (bpow radix2 (-1074))); [apply sqrt_le_1_alt, H|].
  replace (bpow radix2 (-1074)) with (bpow radix2 (-537) * bpow radix2 (-537)) by (rewrite <- bpow_plus; reflexivity). apply sqrt_square, bpow_ge_0.
Qed.
Lemma se_rel chunks : (0 < occupancy chunks <= 2 ^ 53)%Z -> fin (variance chunks) -> 0 <= B2R (variance chunks) ->
  Rabs (B2R (std_error chunks) - sqrt (B2R (variance chunks) / IZR (occupancy chunks))) <= bpow radix2 (-51) * sqrt (B2R (variance chunks) / IZR (occupancy chunks)).
Proof.
  intros O F P. destruct (se_ok chunks O F P) as (_ & _ & ->). set (n := IZR (occupancy chunks)). assert (N : 1 <= n <= 9007199254740992) by (unfold n; split; apply IZR_le; lia). clearbody n.
  destruct (Req_dec (B2R (variance chunks)) 0) as [Z|NZ].
  - rewrite Z. unfold Rdiv at 2 3. rewrite Rmult_0_l, sqrt_0, rnd_0. unfold Rdiv. rewrite Rmult_0_l, rnd_0, Rminus_0_r, Rabs_R0. lra.
  - assert (V : bpow radix2 (-1074) <= B2R (variance chunks)). { rewrite <- (Rabs_pos_eq (B2R (variance chunks))) by exact P. destruct (variance chunks) as [?|?| |sg m e q]; try (cbn in NZ; lra); try discriminate F. exact (abs_B2R_ge_emin 53 1024 (B754_finite sg m e q) eq_refl). }
    set (v := B2R (variance chunks)) in *. clearbody v. pose proof (rel_sqrt v V) as R1. pose proof (rel_sqrt n) as R2. assert (R2' : Rabs (rnd (sqrt n) - sqrt n) <= u53 * sqrt n) by (apply R2; apply Rle_trans with (bpow radix2 0); [apply bpow_le; lia|cbn; lra]). clear R2.
    rewrite sqrt_div_alt by lra. assert (sv : bpow radix2 (-537) <= sqrt v). { replace (bpow radix2 (-537)) with (sqrt (bpow radix2 (-1074))); [apply sqrt_le_1_alt, V|]. replace (bpow radix2 (-1074)) with (bpow radix2 (-537) * bpow radix2 (-537)) by (rewrite <- bpow_plus; reflexivity). apply sqrt_square, bpow_ge_0. }
    assert (sn : 1 <= sqrt n <= 94906267). { split; [rewrite <- sqrt_1 at 1; apply sqrt_le_1_alt; lra|]. apply Rsqr_incr_0_var; [|lra]. rewrite Rsqr_sqrt by lra. unfold Rsqr. lra. }
    set (a := sqrt v) in *. set (b := sqrt n) in *. clearbody a b. set (ra := rnd a) in *. set (rb := rnd b) in *. clearbody ra rb. pose proof u53_val as U. pose proof (bpow_gt_0 radix2 (-537)) as B0.
    apply Rabs_le_inv in R1, R2'. assert (b0 : 0 < b) by lra. assert (rb0 : 0 < rb) by (rewrite U in *; lra). assert (ab : 0 < a / b) by (apply Rdiv_lt_0_compat; lra).
    assert (q1 : ra / rb <= (a / b) * (1 + 5 / 2 * u53)).
    { apply (Rmult_le_reg_r rb); [exact rb0|]. replace (ra / rb * rb) with ra by (field; lra). apply Rle_trans with (a / b * (1 + 5 / 2 * u53) * (b * (1 - u53))).
      - replace (a / b * (1 + 5 / 2 * u53) * (b * (1 - u53))) with (a * ((1 + 5 / 2 * u53) * (1 - u53))) by (field; lra). apply Rle_trans with (a * (1 + u53)); [lra|]. apply Rmult_le_compat_l; [lra|]. rewrite U. lra.
      - apply Rmult_le_compat_l; [apply Rmult_le_pos; [lra|rewrite U; lra]|lra]. }
    assert (q2 : (a / b) * (1 - 5 / 2 * u53) <= ra / rb).
    { apply (Rmult_le_reg_r rb); [exact rb0|]. replace (ra / rb * rb) with ra by (field; lra). apply Rle_trans with (a / b * (1 - 5 / 2 * u53) * (b * (1 + u53))).
      - apply Rmult_le_compat_l; [apply Rmult_le_pos; [lra|rewrite U; lra]|lra].
      - replace (a / b * (1 - 5 / 2 * u53) * (b * (1 + u53))) with (a * ((1 - 5 / 2 * u53) * (1 + u53))) by (field; lra). apply Rle_trans with (a * (1 - u53)); [|lra]. apply Rmult_le_compat_l; [lra|]. rewrite U. lra. }
    assert (low : bpow radix2 (-600) <= a / b).
    { apply (Rmult_le_reg_r b); [lra|]. replace (a / b * b) with a by (field; lra). apply Rle_trans with (2 := sv). apply Rle_trans with (bpow radix2 (-600) * bpow radix2 30); [apply Rmult_le_compat_l; [apply bpow_ge_0|change (bpow radix2 30) with 1073741824; lra]|]. rewrite <- bpow_plus. apply bpow_le. lia. }
    pose proof (rnd_rel (ra / rb)) as R3. assert (Q0 : 0 < ra / rb) by (apply Rlt_le_trans with (2 := q2); apply Rmult_lt_0_compat; [lra|rewrite U; lra]).
    rewrite (Rabs_pos_eq (ra / rb)) in R3 by lra. assert (low' : bpow radix2 (-1022) <= ra / rb).
    { apply Rle_trans with (2 := q2). apply Rle_trans with (a / b * / 2); [|apply Rmult_le_compat_l; [lra|rewrite U; lra]]. apply Rle_trans with (bpow radix2 (-600) * / 2); [|lra]. change (/ 2) with (bpow radix2 (-1)). rewrite <- bpow_plus. apply bpow_le. lia. }
    specialize (R3 low'). apply Rabs_le_inv in R3. change (bpow radix2 (-51)) with (/ 2251799813685248). set (w := ra / rb) in *. clearbody w. set (c := a / b) in *. clearbody c. rewrite U in *. apply Rabs_le. lra.
Qed.
Lemma whole_sum c zs : Forall2 whole c zs -> sum (vals c) = IZR (zsum zs) /\ sum_sq (vals c) = IZR (zsq zs).
Proof.
  induction 1 as [|x z c zs W H [IH1 IH2]]; [split; reflexivity|]. destruct W as [_ W]. unfold sum_sq, zsq, sum, zsum in *. cbn [map fold_right]. rewrite IH1, IH2, W, !plus_IZR, mult_IZR. split; reflexivity.
Qed.
Lemma zperm a b : Permutation a b -> zsum a = zsum b /\ zsq a = zsq b.
Proof. induction 1; unfold zsq, zsum in *; cbn [map fold_right]; try destruct IHPermutation; try destruct IHPermutation1, IHPermutation2; lia. Qed.
Lemma zsum_rep n a : (zsum (repeat a n) = Z.of_nat n * a /\ zsq (repeat a n) = Z.of_nat n * (a * a))%Z.
Proof. induction n as [|n [IH1 IH2]]; [split; reflexivity|]. unfold zsq, zsum in *. cbn [repeat map fold_right]. rewrite IH1, IH2. lia. Qed.
Lemma integers_ok chunks zss : Forall2 (Forall2 whole) chunks zss -> let l := concat zss in let n := Z.of_nat (length l) in
  (0 < n <= 2 ^ 53)%Z -> (n * zsq l <= 2 ^ 53)%Z ->
  occupancy chunks = n /\ whole (total chunks) (zsum l) /\ fin (mean chunks) /\ B2R (mean chunks) = rnd (IZR (zsum l) / IZR n) /\
  fin (variance chunks) /\ 0 <= B2R (variance chunks) /\
  Rabs (B2R (variance chunks) - (IZR (zsq l) - IZR (zsum l * zsum l) / IZR n) / IZR n) <= bpow radix2 (-51) * (IZR (zsq l) / IZR n) /\
  fin (std_error chunks) /\ 0 <= B2R (std_error chunks) /\
  Rabs (B2R (std_error chunks) - sqrt (B2R (variance chunks) / IZR n)) <= bpow radix2 (-51) * sqrt (B2R (variance chunks) / IZR n).
Proof.
  intros H l n N B. assert (On : occupancy chunks = n) by (rewrite occupancy_ok, (whole_length _ _ H); reflexivity).
  destruct (whole_variance chunks zss H N B) as (V1 & V2 & _ & V4). assert (T : whole (total chunks) (zsum l)).
  { apply whole_total; [exact H|]. pose proof (zabs_sq l). fold l. pose proof (zsq_pos l). nia. }
  destruct (f64_of_Z_ok n) as [N1 N2]; [lia|]. assert (Nr : 1 <= IZR n) by (apply IZR_le; lia).
  destruct T as [T1 T2]. destruct (fdiv_ok (total chunks) (f64_of_Z n) T1) as [M1 M2]; [rewrite N1; lra| |].
  { rewrite T2, N1. apply oe_bounded. pose proof (zabs_le l). pose proof (zabs_sq l). pose proof (zsq_pos l). assert (S0 : Rabs (IZR (zsum l)) <= IZR (2 ^ 53)) by (rewrite <- abs_IZR; apply IZR_le; nia).
    unfold Rdiv. rewrite Rabs_mult, (Rabs_pos_eq (/ IZR n)) by (left; apply Rinv_0_lt_compat; lra). assert (/ IZR n <= 1) by (rewrite <- Rinv_1; apply Rinv_le_contravar; lra). assert (0 < / IZR n) by (apply Rinv_0_lt_compat; lra).
    apply Rle_trans with (IZR (2 ^ 53) * 1); [apply Rmult_le_compat; try lra; apply Rabs_pos|]. rewrite Rmult_1_r. change 2%Z with (radix_val radix2) at 1. rewrite <- bpow_IZR by lia. assert (bpow radix2 53 <= bpow radix2 1022) by (apply bpow_le; lia). pose proof (bpow_gt_0 radix2 1022). lra. }
  assert (Oc : (0 < occupancy chunks <= 2 ^ 53)%Z) by (rewrite On; exact N). destruct (se_ok chunks Oc V1 V2) as (S1 & S2 & _). pose proof (se_rel chunks Oc V1 V2) as S3. rewrite On in S3.
  unfold mean. rewrite On. rewrite T2, N1 in M1. unfold whole. repeat (split; [first [assumption|reflexivity|split; assumption]|]). exact S3.
Qed.
Lemma order_ok chunks zss chunks' zss' : Forall2 (Forall2 whole) chunks zss -> Forall2 (Forall2 whole) chunks' zss' ->
  Permutation (concat zss) (concat zss') -> let l := concat zss in let n := Z.of_nat (length l) in (0 < n <= 2 ^ 53)%Z -> (n * zsq l <= 2 ^ 53)%Z ->
  occupancy chunks = occupancy chunks' /\ B2R (total chunks) = B2R (total chunks') /\ B2R (mean chunks) = B2R (mean chunks') /\
  B2R (std_error chunks) = B2R (std_error chunks').
Proof.
  intros H H' P l n N B. destruct (zperm _ _ P) as [P1 P2]. pose proof (Permutation_length P) as P3.
  destruct (integers_ok chunks zss H N B) as (A1 & A2 & _ & A3 & F & V0 & _ & _). destruct (whole_variance chunks zss H N B) as (_ & _ & V & _).
  subst l n. rewrite P3 in N. rewrite P3, P2 in B. destruct (integers_ok chunks' zss' H' N B) as (A1' & A2' & _ & A3' & F' & V0' & _ & _). destruct (whole_variance chunks' zss' H' N B) as (_ & _ & V' & _).
  rewrite P1, P2, P3 in V. rewrite <- V' in V. rewrite P3 in A1. split; [congruence|]. destruct A2 as [_ A2], A2' as [_ A2']. rewrite A2, A2', A3, A3', P1, P3. split; [reflexivity|]. split; [reflexivity|].
  destruct (se_ok chunks) as (_ & _ & ->); [rewrite A1; exact N|exact F|exact V0|]. destruct (se_ok chunks') as (_ & _ & ->); [rewrite A1'; exact N|exact F'|exact V0'|]. rewrite V, A1, A1'. reflexivity.
Qed.
Lemma equal_ok chunks zss a n : Forall2 (Forall2 whole) chunks zss -> concat zss = repeat a n -> (0 < Z.of_nat n <= 2 ^ 53)%Z ->
  (Z.of_nat n * (Z.of_nat n * (a * a)) <= 2 ^ 53)%Z -> B2R (mean chunks) = IZR a /\ fin (std_error chunks) /\ B2R (std_error chunks) = 0.
Proof.
  intros H E N B. destruct (zsum_rep n a) as [Z1 Z2]. assert (L : length (concat zss) = n) by (rewrite E; apply repeat_length).
  assert (N' : (0 < Z.of_nat (length (concat zss)) <= 2 ^ 53)%Z) by (rewrite L; exact N). assert (B' : (Z.of_nat (length (concat zss)) * zsq (concat zss) <= 2 ^ 53)%Z) by (rewrite L, E, Z2; exact B).
  destruct (integers_ok chunks zss H N' B') as (A1 & _ & _ & A3 & F & V0 & _ & S1 & _ & _). destruct (whole_variance chunks zss H N' B') as (_ & _ & V & _). rewrite L, E in *. rewrite Z1, Z2 in *.
  assert (Nr : 1 <= IZR (Z.of_nat n)) by (apply IZR_le; lia). set (k := Z.of_nat n) in *. clearbody k.
  assert (a2 : (0 <= k * (a * a) <= 2 ^ 53)%Z) by nia.
  split; [|split; [exact S1|]].
  - rewrite A3. replace (IZR (k * a) / IZR k) with (IZR a) by (rewrite mult_IZR; field; lra). apply rnd_id, Z_format. nia.
  - assert (V' : B2R (variance chunks) = 0).
    { rewrite V. replace (IZR (k * a * (k * a)) / IZR k) with (IZR (k * (a * a))) by (rewrite !mult_IZR; field; lra). rewrite (rnd_id (IZR (k * (a * a)))) by (apply Z_format; lia). rewrite Rminus_diag_eq, rnd_0 by reflexivity. unfold Rdiv. rewrite Rmult_0_l. apply rnd_0. }
    destruct (se_ok chunks) as (_ & _ & ->); [rewrite A1; exact N|exact F|exact V0|]. rewrite V', sqrt_0, rnd_0. unfold Rdiv. rewrite Rmult_0_l. apply rnd_0.
Qed.
