From Coq Require Import Permutation Sorted Reals.
From Flocq Require Import Core Relative Plus_error IEEE754.BinarySingleNaN.
From Verif Require Import Common QcArith F64 HistF_Model HistF_Spec.
From Coq Require Import Lra.
Import ListNotations.
Local Open Scope nat_scope.

(** ** Sorted samples *)
Lemma sorted_prefix {A} incl e : forall (s : list (Qc * A)), StronglySorted (fun a b => (fst a <= fst b)%Qc) s ->
  let f := fun x => if incl : bool then Qc_leb x e else Qc_ltb x e in
  filter (fun p => f (fst p)) s = firstn (length (filter f (map fst s))) s.
Proof.
  intros s S f. induction S as [|p s S IH F]; [reflexivity|]. cbn [map filter]. destruct (f (fst p)) eqn:E.
  - cbn [length firstn]. f_equal. exact IH.
  - assert (N : forall q, In q s -> f (fst q) = false).
    { intros q I. rewrite Forall_forall in F. specialize (F q I). unfold f in *. destruct incl.
      - destruct (Qc_leb_spec (fst p) e); [discriminate|]. destruct (Qc_leb_spec (fst q) e); [|reflexivity]. exfalso. qclra.
      - destruct (Qc_ltb_spec (fst p) e); [discriminate|]. destruct (Qc_ltb_spec (fst q) e); [|reflexivity]. exfalso. qclra. }
    assert (L : forall l : list (Qc * A), (forall q, In q l -> f (fst q) = false) -> filter f (map fst l) = [] /\ filter (fun q => f (fst q)) l = []).
    { induction l as [|q l IHl]; intros H; [split; reflexivity|]. cbn [map filter]. rewrite (H q (or_introl eq_refl)). apply IHl. intros r I. apply H. right. exact I. }
    destruct (L s N) as [-> ->]. reflexivity.
Qed.
Lemma filter_perm {A} (f : A -> bool) a b : Permutation a b -> Permutation (filter f a) (filter f b).
Proof.
  induction 1; cbn; [constructor| | |econstructor; eassumption].
  - destruct (f x); [constructor|]; assumption.
  - destruct (f x), (f y); try constructor; try apply Permutation_refl.
Qed.
Lemma blocks_concat {A} block : 0 < block -> forall fuel (l : list A), length l <= fuel -> concat (blocks block fuel l) = l.
Proof.
  intros Hb. induction fuel as [|fuel IH]; intros l L; [destruct l; [reflexivity|cbn in L; lia]|]. destruct l as [|x l]; [reflexivity|].
  cbn [blocks concat]. rewrite IH; [apply firstn_skipn|]. rewrite skipn_length. cbn [length] in *. lia.
Qed.
Lemma blocks_length {A} block : 0 < block -> forall fuel (l : list A), length l <= fuel -> length (blocks block fuel l) = n_blocks block (length l).
Proof.
  intros Hb. induction fuel as [|fuel IH]; intros l L; [destruct l; [|cbn in L; lia]; cbn; unfold n_blocks; rewrite Nat.div_small by lia; reflexivity|]. destruct l as [|x l]; [cbn; unfold n_blocks; rewrite Nat.div_small by lia; reflexivity|].
  cbn [blocks length]. rewrite IH by (rewrite skipn_length; cbn [length] in *; lia). rewrite skipn_length. unfold n_blocks. cbn [length] in *. set (n := S (length l)) in *.
  destruct (Nat.le_gt_cases n block) as [G|G].
  - replace (n - block) with 0 by lia. rewrite (Nat.div_small (0 + block - 1)) by lia. apply (Nat.div_unique _ _ 1 (n - 1)); lia.
  - replace (n + block - 1) with ((n - block + block - 1) + 1 * block) by lia. rewrite Nat.div_add by lia. lia.
Qed.

Section Fmt.
Context (prec emax : Z) {p0 : Prec_gt_0 prec} {p1 : Prec_lt_emax prec emax}.
Local Notation fl := (binary_float prec emax).
Local Notation fe := (SpecFloat.fexp prec emax).
Local Notation rd := (round radix2 fe ZnearestE).
Local Notation Fm := (generic_format radix2 fe).
Local Notation fin x := (is_finite x = true).
Local Notation u := (bpow radix2 (- prec)).
Local Open Scope R_scope.
#[local] Instance fe_valid : Valid_exp fe := FLT_exp_valid (3 - emax - prec) prec.
Lemma emax_big : (2 <= emax)%Z. Proof. unfold Prec_gt_0, Prec_lt_emax in *. lia. Qed.
Lemma fmt_B2R (x : fl) : Fm (B2R x). Proof. apply generic_format_B2R. Qed.
Lemma fmt_bpow : Fm (bpow radix2 (emax - 1)).
Proof. apply generic_format_bpow. unfold SpecFloat.fexp, SpecFloat.emin. unfold Prec_gt_0, Prec_lt_emax in *. lia. Qed.
Lemma rd_id x : Fm x -> rd x = x. Proof. apply round_generic. typeclasses eauto. Qed.
Lemma rd_le x y : x <= y -> rd x <= rd y. Proof. apply round_le; typeclasses eauto. Qed.
Lemma rd_bounded x : Rabs x <= bpow radix2 (emax - 1) -> Rabs (rd x) < bpow radix2 emax.
Proof.
  intros H. apply Rle_lt_trans with (bpow radix2 (emax - 1)); [|apply bpow_lt; lia]. apply Rabs_le_inv in H. apply Rabs_le. split.
  - rewrite <- (rd_id (- bpow radix2 (emax - 1))) by apply generic_format_opp, fmt_bpow. apply rd_le. lra.
  - rewrite <- (rd_id (bpow radix2 (emax - 1))) by apply fmt_bpow. apply rd_le. lra.
Qed.
Lemma add_ok (x y : fl) : fin x -> fin y -> Rabs (B2R x + B2R y) <= bpow radix2 (emax - 1) -> B2R (add prec emax x y) = rd (B2R x + B2R y) /\ fin (add prec emax x y).
Proof.
  intros Hx Hy Hb. pose proof (Bplus_correct prec emax _ _ mode_NE x y Hx Hy) as H. change (round_mode mode_NE) with ZnearestE in H.
  rewrite Rlt_bool_true in H by apply rd_bounded, Hb. tauto.
Qed.
Lemma sub_ok (x y : fl) : fin x -> fin y -> Rabs (B2R x - B2R y) <= bpow radix2 (emax - 1) -> B2R (sub prec emax x y) = rd (B2R x - B2R y) /\ fin (sub prec emax x y).
Proof.
  intros Hx Hy Hb. pose proof (Bminus_correct prec emax _ _ mode_NE x y Hx Hy) as H. change (round_mode mode_NE) with ZnearestE in H.
  rewrite Rlt_bool_true in H by apply rd_bounded, Hb. tauto.
Qed.
Lemma rd_sum x y : Fm x -> Fm y -> Rabs (rd (x + y) - (x + y)) <= u * Rabs (x + y).
Proof.
  intros Fx Fy. destruct (FLT_plus_error_N_ex radix2 (3 - emax - prec) prec (fun z => negb (Z.even z)) x y Fx Fy) as (e & E1 & E2).
  change (round radix2 (FLT_exp (3 - emax - prec) prec) (Znearest (fun z => negb (Z.even z))) (x + y)) with (rd (x + y)) in E2. rewrite E2.
  replace ((x + y) * (1 + e) - (x + y)) with (e * (x + y)) by ring. rewrite Rabs_mult. apply Rmult_le_compat_r; [apply Rabs_pos|]. refine (Rle_trans _ _ _ E1 _).
  assert (U : u_ro radix2 prec = u). { unfold u_ro. change (/ 2) with (bpow radix2 (-1)). rewrite <- bpow_plus. f_equal. lia. }
  rewrite U. assert (0 < u) by apply bpow_gt_0. apply (Rmult_le_reg_r (1 + u)); [lra|]. unfold Rdiv. rewrite Rmult_assoc, Rinv_l by lra. nra.
Qed.
Lemma Z_fmt n : (Z.abs n <= 2 ^ prec)%Z -> Fm (IZR n).
Proof.
  intros H. unfold Prec_gt_0, Prec_lt_emax in *. destruct (Z.eq_dec (Z.abs n) (2 ^ prec)) as [E|E].
  - assert (B : Fm (bpow radix2 prec)) by (apply generic_format_bpow; unfold SpecFloat.fexp, SpecFloat.emin; lia). rewrite bpow_IZR in B by lia. rewrite <- E in B. destruct (Zabs_spec n) as [[_ Q]|[_ Q]]; rewrite Q in B; [exact B|].
    rewrite opp_IZR in B. apply generic_format_opp in B. rewrite Ropp_involutive in B. exact B.
  - apply (generic_format_FLT radix2 (3 - emax - prec) prec). exists (Float radix2 n 0); cbn [Fnum Fexp]; [unfold F2R; cbn; ring| |lia].
    change (Zpower radix2 prec) with (2 ^ prec)%Z. lia.
Qed.

(** ** Sums *)
Definition fsum (l : list fl) : fl := match l with [] => B754_zero false | w :: r => fold_left (add prec emax) r w end.
Lemma running_nth : forall l acc c, (c < length l)%nat -> nth c (running prec emax acc l) B754_nan = fold_left (add prec emax) (firstn (S c) l) acc.
Proof.
  induction l as [|w l IH]; intros acc c H; [cbn in H; lia|]. cbn [running]. destruct c as [|c]; [reflexivity|]. cbn [nth]. rewrite IH by (cbn in H; lia). reflexivity.
Qed.
Lemma cw_nth l c : (c <= length l)%nat -> nth c (B754_zero false :: cumsum prec emax l) B754_nan = fsum (firstn c l).
Proof.
  intros H. destruct c as [|c]; [reflexivity|]. destruct l as [|w l]; [cbn in H; lia|]. cbn [nth cumsum]. destruct c as [|c]; [reflexivity|]. cbn [nth]. rewrite running_nth by (cbn in H; lia). reflexivity.
Qed.
Section Cum.
Context (block : nat) (sort : list (Qc * fl) -> list (Qc * fl)).
Hypothesis Hb : (0 < block)%nat.
Hypothesis Hs : sorts sort.
(** the weights up to edge j *)
Definition below (bins : list Qc) (j : nat) (x : Qc) : bool := if (S j =? length bins)%nat then Qc_leb x (nth j bins 0%Qc) else Qc_ltb x (nth j bins 0%Qc).
Lemma block_nth bins blk k : (k < length bins)%nat -> nth_error (block_cum prec emax sort bins blk) k = Some (fsum (of_bin (below bins k) (sort blk))).
Proof.
  intros H. unfold block_cum. rewrite nth_error_map_seq by exact H. f_equal. cbn [Nat.add]. destruct (Hs blk) as [P S0]. unfold searchsorted. set (incl := (S k =? length bins)%nat). set (e := nth k bins 0%Qc).
  pose proof (sorted_prefix incl e (sort blk) S0) as Q. cbv zeta in Q. rewrite cw_nth.
  - rewrite firstn_map, <- Q. unfold of_bin, below. fold incl e. f_equal.
  - rewrite map_length, <- (map_length fst). clear. induction (map fst (sort blk)) as [|x l IH]; [cbn; lia|].
    cbn [filter length]. destruct (if incl then Qc_leb x e else Qc_ltb x e); cbn [length]; lia.
Qed.
Lemma block_len bins blk : length (block_cum prec emax sort bins blk) = length bins.
Proof. unfold block_cum. now rewrite map_length, seq_length. Qed.
Lemma nth_combine {A B} (a : list A) (b : list B) k x y : nth_error a k = Some x -> nth_error b k = Some y -> nth_error (combine a b) k = Some (x, y).
Proof. revert b k. induction a as [|a0 a IH]; intros [|b0 b] [|k] H1 H2; cbn in *; try discriminate; [congruence|apply IH; assumption]. Qed.
Definition cum_of (bins : list Qc) (k : nat) (bs : list (list (Qc * fl))) (v : fl) : fl :=
  fold_left (fun a blk => add prec emax a (fsum (of_bin (below bins k) (sort blk)))) bs v.
Lemma fold_nth bins : forall bs cum k v, (k < length bins)%nat -> length cum = length bins -> nth_error cum k = Some v ->
  nth_error (fold_left (hist_step prec emax sort bins) bs cum) k = Some (cum_of bins k bs v).
Proof.
  induction bs as [|blk bs IH]; intros cum k v H L E; [exact E|]. cbn [fold_left cum_of]. apply IH; [exact H| |].
  - unfold hist_step. rewrite map_length, combine_length, block_len, L. lia.
  - unfold hist_step. rewrite nth_error_map, (nth_combine _ _ _ _ _ E (block_nth bins blk k H)). reflexivity.
Qed.
Lemma nth_error_rep {A} (x : A) n k : (k < n)%nat -> nth_error (repeat x n) k = Some x.
Proof. revert k. induction n as [|n IH]; intros [|k] H; cbn; try lia; [reflexivity|apply IH; lia]. Qed.
Lemma hist_nth xs bins k : (S k < length bins)%nat -> let bs := blocks block (length xs) xs in
  nth_error (histogram_float prec emax block sort xs bins) k = Some (sub prec emax (cum_of bins (S k) bs (B754_zero false)) (cum_of bins k bs (B754_zero false))).
Proof.
  intros H bs. unfold histogram_float. fold bs. rewrite nth_error_map_seq by lia. cbn [Nat.add]. f_equal. f_equal; apply nth_error_nth; apply fold_nth; try lia; try apply repeat_length; apply nth_error_rep; lia.
Qed.

(** ** Rounding errors *)
Definition sum_abs (l : list fl) : R := rsum (map (fun x => Rabs (B2R x)) l).
Definition sum_of (l : list fl) : R := rsum (map B2R l).
Lemma sum_of_app a b : sum_of (a ++ b) = sum_of a + sum_of b.
Proof. unfold sum_of, rsum. induction a as [|x a IH]; cbn; [lra|]. rewrite IH. lra. Qed.
Lemma sum_abs_app a b : sum_abs (a ++ b) = sum_abs a + sum_abs b.
Proof. unfold sum_abs, rsum. induction a as [|x a IH]; cbn; [lra|]. rewrite IH. lra. Qed.
Lemma sum_abs_pos l : 0 <= sum_abs l.
Proof. unfold sum_abs, rsum. induction l as [|x l IH]; cbn; [lra|]. pose proof (Rabs_pos (B2R x)). lra. Qed.
Lemma sum_le_abs l : Rabs (sum_of l) <= sum_abs l.
Proof. unfold sum_abs, sum_of, rsum. induction l as [|x l IH]; cbn; [rewrite Rabs_R0; lra|]. pose proof (Rabs_triang (B2R x) (fold_right Rplus 0 (map B2R l))). lra. Qed.
Lemma sum_of_perm a b : Permutation a b -> sum_of a = sum_of b.
Proof. unfold sum_of, rsum. induction 1; cbn; lra. Qed.
Lemma sum_abs_perm a b : Permutation a b -> sum_abs a = sum_abs b.
Proof. unfold sum_abs, rsum. induction 1; cbn; lra. Qed.
Section Near.
Context (A : R) (HA : A <= bpow radix2 (emax - 3)).
Lemma u_pos : 0 < u. Proof. apply bpow_gt_0. Qed.
Lemma big4 : 4 * A <= bpow radix2 (emax - 1).
Proof. replace (emax - 1)%Z with (2 + (emax - 3))%Z by lia. rewrite bpow_plus. change (bpow radix2 2) with 4. lra. Qed.
Definition near (m : nat) (s : fl) (S0 : R) : Prop := fin s /\ Rabs (B2R s - S0) <= INR m * (2 * u) * A.
Lemma small_m m : INR m <= bpow radix2 (prec - 1) -> INR m * (2 * u) <= 1.
Proof.
  intros H. replace 1 with (bpow radix2 (prec - 1) * (2 * u)); [|change 2 with (bpow radix2 1); rewrite <- !bpow_plus; replace (prec - 1 + (1 + - prec))%Z with 0%Z by lia; reflexivity].
  apply Rmult_le_compat_r; [pose proof u_pos; lra|exact H].
Qed.
Lemma near_add m m' s t S0 T : near m s S0 -> near m' t T -> Rabs (S0 + T) <= A -> INR (m + m') <= bpow radix2 (prec - 1) -> near (S (m + m')) (add prec emax s t) (S0 + T).
Proof.
  intros [F1 E1] [F2 E2] B L. pose proof u_pos as U. assert (A0 : 0 <= A) by (apply Rle_trans with (2 := B), Rabs_pos).
  assert (E : Rabs (B2R s + B2R t - (S0 + T)) <= INR (m + m') * (2 * u) * A).
  { rewrite plus_INR. replace (B2R s + B2R t - (S0 + T)) with ((B2R s - S0) + (B2R t - T)) by ring. pose proof (Rabs_triang (B2R s - S0) (B2R t - T)). lra. }
  assert (E' : INR (m + m') * (2 * u) * A <= A). { apply Rle_trans with (1 * A); [|lra]. apply Rmult_le_compat_r; [exact A0|]. apply small_m, L. }
  assert (B2 : Rabs (B2R s + B2R t) <= 2 * A).
  { replace (B2R s + B2R t) with ((B2R s + B2R t - (S0 + T)) + (S0 + T)) by ring. pose proof (Rabs_triang (B2R s + B2R t - (S0 + T)) (S0 + T)). lra. }
  destruct (add_ok s t F1 F2) as [G1 G2]; [pose proof big4; lra|].
  split; [exact G2|]. rewrite G1. pose proof (rd_sum _ _ (fmt_B2R s) (fmt_B2R t)) as R'.
  assert (u * Rabs (B2R s + B2R t) <= u * (2 * A)) by (apply Rmult_le_compat_l; lra).
  rewrite S_INR. replace (rd (B2R s + B2R t) - (S0 + T)) with ((rd (B2R s + B2R t) - (B2R s + B2R t)) + (B2R s + B2R t - (S0 + T))) by ring.
  pose proof (Rabs_triang (rd (B2R s + B2R t) - (B2R s + B2R t)) (B2R s + B2R t - (S0 + T))). lra.
Qed.
Lemma near_exact x : fin x -> near 0 x (B2R x).
Proof. intros F. split; [exact F|]. rewrite Rminus_diag_eq, Rabs_R0 by reflexivity. cbn. lra. Qed.
Lemma near_more m m' s S0 : 0 <= A -> (m <= m')%nat -> near m s S0 -> near m' s S0.
Proof.
  intros A0 L [F E]. split; [exact F|]. refine (Rle_trans _ _ _ E _). apply Rmult_le_compat_r; [exact A0|]. apply Rmult_le_compat_r; [pose proof u_pos; lra|]. apply le_INR, L.
Qed.
Lemma near_fold vs : forall m s S0, near m s S0 -> Forall (fun x => fin x) vs -> Rabs S0 + sum_abs vs <= A -> INR (m + length vs) <= bpow radix2 (prec - 1) ->
  near (m + length vs) (fold_left (add prec emax) vs s) (S0 + sum_of vs).
Proof.
  induction vs as [|x vs IH]; intros m s S0 N F B L.
  - cbn. unfold sum_of. cbn. rewrite Nat.add_0_r, Rplus_0_r. exact N.
  - inversion F as [|? ? Fx F']; subst. change (x :: vs) with ([x] ++ vs) in *. rewrite sum_abs_app in B. rewrite sum_of_app, <- Rplus_assoc. unfold sum_of at 1. unfold sum_abs at 1 in B. cbn [map rsum fold_right] in *. rewrite Rplus_0_r in *.
    cbn [app length fold_left] in *. replace (m + S (length vs))%nat with (S (m + 0) + length vs)%nat in * by lia.
    pose proof (sum_abs_pos vs). pose proof (Rabs_triang S0 (B2R x)). apply IH; [|exact F'|lra|exact L].
    apply near_add; [exact N|apply near_exact, Fx|lra|]. apply Rle_trans with (2 := L). apply le_INR. lia.
Qed.
Lemma near_fsum vs : Forall (fun x => fin x) vs -> sum_abs vs <= A -> INR (length vs) <= bpow radix2 (prec - 1) -> near (length vs) (fsum vs) (sum_of vs).
Proof.
  intros F B L. destruct vs as [|x vs]; [apply (near_exact (B754_zero false)); reflexivity|]. cbn [fsum]. inversion F; subst. change (x :: vs) with ([x] ++ vs) in *. rewrite sum_abs_app in B. rewrite sum_of_app.
  unfold sum_of at 1. unfold sum_abs at 1 in B. cbn [map rsum fold_right] in *. rewrite Rplus_0_r in *. cbn [app length] in *. pose proof (sum_abs_pos vs). pose proof (Rabs_pos (B2R x)).
  apply (near_more (0 + length vs)); [lra|lia|]. apply near_fold; [apply near_exact; assumption|assumption|lra|]. apply Rle_trans with (2 := L). apply le_INR. lia.
Qed.
Lemma near_cum bins k : forall bs m v S0, near m v S0 -> let W := concat (map (fun blk => of_bin (below bins k) (sort blk)) bs) in
  Forall (fun x => fin x) W -> Rabs S0 + sum_abs W <= A -> INR (m + length W + length bs) <= bpow radix2 (prec - 1) ->
  near (m + length W + length bs) (cum_of bins k bs v) (S0 + sum_of W).
Proof.
  induction bs as [|b bs IH]; intros m v S0 N W F B L; cbn [map concat] in W.
  - unfold W, sum_of. cbn. rewrite !Nat.add_0_r, Rplus_0_r. exact N.
  - set (W1 := of_bin (below bins k) (sort b)) in *. set (W2 := concat (map (fun blk => of_bin (below bins k) (sort blk)) bs)) in *. unfold W in *. clear W.
    apply Forall_app in F as [FA FB]. rewrite sum_abs_app in B. rewrite sum_of_app, <- Rplus_assoc. rewrite app_length in *. cbn [length] in *. change (cum_of bins k (b :: bs) v) with (cum_of bins k bs (add prec emax v (fsum W1))).
    pose proof (sum_abs_pos W1). pose proof (sum_abs_pos W2). pose proof (sum_le_abs W1). pose proof (Rabs_triang S0 (sum_of W1)). pose proof (Rabs_pos S0).
    replace (m + (length W1 + length W2) + S (length bs))%nat with (S (m + length W1) + length W2 + length bs)%nat in * by lia.
    apply IH; [|exact FB|fold W2; lra|exact L]. apply near_add; [exact N| |lra|apply Rle_trans with (2 := L); apply le_INR; lia].
    apply near_fsum; [exact FA|lra|apply Rle_trans with (2 := L); apply le_INR; lia].
Qed.
Lemma near_sub m s t S0 T : near m s S0 -> near m t T -> Rabs S0 <= A -> Rabs T <= A -> INR m <= bpow radix2 (prec - 1) ->
  fin (sub prec emax s t) /\ Rabs (B2R (sub prec emax s t) - (S0 - T)) <= INR (S m) * (4 * u) * A.
Proof.
  intros [F1 E1] [F2 E2] B1 B2 L. pose proof u_pos as U. assert (A0 : 0 <= A) by (apply Rle_trans with (2 := B1), Rabs_pos).
  assert (E' : INR m * (2 * u) * A <= A). { apply Rle_trans with (1 * A); [|lra]. apply Rmult_le_compat_r; [exact A0|]. apply small_m, L. }
  assert (E : Rabs (B2R s - B2R t - (S0 - T)) <= 2 * (INR m * (2 * u) * A)).
  { replace (B2R s - B2R t - (S0 - T)) with ((B2R s - S0) - (B2R t - T)) by ring. pose proof (Rabs_triang (B2R s - S0) (- (B2R t - T))) as Q. rewrite Rabs_Ropp in Q. unfold Rminus in *. lra. }
  assert (B3 : Rabs (B2R s - B2R t) <= 4 * A).
  { replace (B2R s - B2R t) with ((B2R s - B2R t - (S0 - T)) + (S0 - T)) by ring. pose proof (Rabs_triang (B2R s - B2R t - (S0 - T)) (S0 - T)). pose proof (Rabs_triang S0 (- T)) as Q. rewrite Rabs_Ropp in Q. unfold Rminus in *. lra. }
  destruct (sub_ok s t F1 F2) as [G1 G2]; [pose proof big4; lra|]. split; [exact G2|]. rewrite G1.
  pose proof (rd_sum _ _ (fmt_B2R s) (generic_format_opp _ _ _ (fmt_B2R t))) as R'. fold (B2R s - B2R t) in R'.
  assert (u * Rabs (B2R s - B2R t) <= u * (4 * A)) by (apply Rmult_le_compat_l; lra).
  rewrite S_INR. replace (rd (B2R s - B2R t) - (S0 - T)) with ((rd (B2R s - B2R t) - (B2R s - B2R t)) + (B2R s - B2R t - (S0 - T))) by ring.
  pose proof (Rabs_triang (rd (B2R s - B2R t) - (B2R s - B2R t)) (B2R s - B2R t - (S0 - T))). lra.
Qed.
End Near.

(** ** The weights of a bin *)
Lemma below_up bins k x : below bins (S k) x = up_to bins k x.
Proof.
  unfold below, up_to. destruct (S (S k) =? length bins)%nat; cbn [andb orb]; [|rewrite orb_false_r; reflexivity].
  destruct (Qc_leb_spec x (nth (S k) bins 0%Qc)), (Qc_ltb_spec x (nth (S k) bins 0%Qc)), (Qc_eqb_spec x (nth (S k) bins 0%Qc)); cbn; try reflexivity; exfalso; subst; try qclra. match goal with N : _ <> _ |- _ => apply N; qclra end.
Qed.
Lemma below_split bins k x : edges_ok bins -> (S k < length bins)%nat -> inside bins k x = up_to bins k x && negb (below bins k x) /\ (below bins k x = true -> up_to bins k x = true).
Proof.
  intros E H. specialize (E k H). unfold inside, up_to, below. destruct (S k =? length bins)%nat eqn:Q; [apply Nat.eqb_eq in Q; lia|].
  destruct (Qc_ltb_spec x (nth k bins 0%Qc)), (Qc_leb_spec (nth k bins 0%Qc) x), (Qc_ltb_spec x (nth (S k) bins 0%Qc)); cbn [andb orb negb]; rewrite ?andb_true_r, ?andb_false_r, ?orb_true_r; split; try reflexivity; try discriminate; intros; exfalso; qclra.
Qed.
Lemma of_bin_ext {A} (P Q : Qc -> bool) (xs : list (Qc * A)) : (forall x, P x = Q x) -> of_bin P xs = of_bin Q xs.
Proof. intros H. unfold of_bin. f_equal. apply filter_ext. intros a. apply H. Qed.
Lemma of_bin_perm {A} (P : Qc -> bool) (a b : list (Qc * A)) : Permutation a b -> Permutation (of_bin P a) (of_bin P b).
Proof. intros H. apply Permutation_map, filter_perm, H. Qed.
Lemma of_bin_app {A} (P : Qc -> bool) (a b : list (Qc * A)) : of_bin P (a ++ b) = of_bin P a ++ of_bin P b.
Proof. unfold of_bin. rewrite filter_app, map_app. reflexivity. Qed.
Lemma parts_perm P bs : Permutation (of_bin P (concat bs)) (concat (map (fun blk => of_bin P (sort blk)) bs)).
Proof.
  induction bs as [|b bs IH]; [constructor|]. cbn [map concat]. rewrite of_bin_app. apply Permutation_app; [|exact IH]. apply of_bin_perm, Hs.
Qed.
Lemma bin_sum bins k xs : edges_ok bins -> (S k < length bins)%nat -> sum_of (of_bin (up_to bins k) xs) = sum_of (of_bin (below bins k) xs) + sum_of (of_bin (inside bins k) xs).
Proof.
  intros E H. unfold sum_of, of_bin, rsum. induction xs as [|[x w] xs IH]; [cbn; lra|]. cbn [filter fst]. destruct (below_split bins k x E H) as [I B]. rewrite I.
  destruct (below bins k x) eqn:Q; [rewrite B by reflexivity|]; destruct (up_to bins k x); cbn [andb negb map snd fold_right]; rewrite IH; lra.
Qed.
Lemma below_len bins k xs : edges_ok bins -> (S k < length bins)%nat -> (length (of_bin (below bins k) xs : list fl) <= length (of_bin (up_to bins k) xs))%nat.
Proof.
  intros E H. unfold of_bin. rewrite !map_length. induction xs as [|[x w] xs IH]; [cbn; lia|]. cbn [filter fst]. destruct (below_split bins k x E H) as [_ B].
  destruct (below bins k x) eqn:Q; [rewrite B by reflexivity|]; destruct (up_to bins k x); cbn [length]; lia.
Qed.
Lemma below_abs bins k xs : edges_ok bins -> (S k < length bins)%nat -> sum_abs (of_bin (below bins k) xs) <= sum_abs (of_bin (up_to bins k) xs).
Proof.
  intros E H. unfold sum_abs, of_bin, rsum. induction xs as [|[x w] xs IH]; [cbn; lra|]. cbn [filter fst]. destruct (below_split bins k x E H) as [_ B].
  pose proof (Rabs_pos (B2R w)). destruct (below bins k x) eqn:Q; [rewrite B by reflexivity|]; destruct (up_to bins k x); cbn [map snd fold_right]; lra.
Qed.
Lemma below_in bins k xs w : edges_ok bins -> (S k < length bins)%nat -> In w (of_bin (below bins k) xs : list fl) -> In w (of_bin (up_to bins k) xs).
Proof.
  intros E H I. unfold of_bin in *. apply in_map_iff in I. destruct I as ([x w'] & <- & I). apply filter_In in I as [I B]. cbn in B. apply in_map_iff. exists (x, w'). split; [reflexivity|]. apply filter_In. split; [exact I|]. cbn. apply (below_split bins k x E H), B.
Qed.
Section Main.
Context (xs : list (Qc * fl)) (bins : list Qc) (k : nat).
Hypothesis He : edges_ok bins.
Hypothesis Hk : (S k < length bins)%nat.
Local Notation W := (of_bin (up_to bins k) xs).
Local Notation M := (length W + n_blocks block (length xs))%nat.
Local Notation bs := (blocks block (length xs) xs).
Hypothesis Fin : forall w, In w W -> fin w.
Hypothesis Small : sum_abs W <= bpow radix2 (emax - 3).
Hypothesis Few : INR M <= bpow radix2 (prec - 1).
Lemma part_facts j : j = k \/ j = S k -> let V := concat (map (fun blk => of_bin (below bins j) (sort blk)) bs) in
  Permutation (of_bin (below bins j) xs) V /\ Forall (fun x => fin x) V /\ sum_abs V <= sum_abs W /\ (length V <= length W)%nat /\ length bs = n_blocks block (length xs).
Proof.
  intros J V. assert (P : Permutation (of_bin (below bins j) xs) V). { pose proof (parts_perm (below bins j) bs) as P. rewrite blocks_concat in P by (exact Hb || lia). exact P. }
  assert (I : forall w, In w (of_bin (below bins j) xs) -> In w W). { intros w I. destruct J as [->| ->]; [exact (below_in bins k xs w He Hk I)|]. rewrite (of_bin_ext _ _ xs (below_up bins k)) in I. exact I. }
  split; [exact P|]. split; [apply Forall_forall; intros w Iw; apply Fin, I; eapply Permutation_in; [symmetry; exact P|exact Iw]|].
  rewrite <- (sum_abs_perm _ _ P), <- (Permutation_length P). split; [|split; [|apply blocks_length; [exact Hb|lia]]].
  - destruct J as [->| ->]; [apply below_abs; assumption|]. rewrite (of_bin_ext _ _ xs (below_up bins k)). lra.
  - destruct J as [->| ->]; [apply below_len; assumption|]. rewrite (of_bin_ext _ _ xs (below_up bins k)). lia.
Qed.
Lemma cum_near j : j = k \/ j = S k -> near (sum_abs W) M (cum_of bins j bs (B754_zero false)) (sum_of (of_bin (below bins j) xs)) /\ Rabs (sum_of (of_bin (below bins j) xs)) <= sum_abs W.
Proof.
  intros J. destruct (part_facts j J) as (P & F & B & L & N). set (V := concat _) in *.
  pose proof (near_cum (sum_abs W) Small bins j bs 0 (B754_zero false) 0) as C. cbv zeta in C. fold V in C. rewrite Rplus_0_l in C.
  assert (L2 : INR (0 + length V + length bs) <= bpow radix2 (prec - 1)). { apply Rle_trans with (2 := Few). apply le_INR. lia. }
  split.
  - apply (near_more _ (0 + length V + length bs)); [apply sum_abs_pos|lia|]. rewrite (sum_of_perm _ _ P). apply C; [apply (near_exact _ (B754_zero false)); reflexivity|exact F|rewrite Rabs_R0; lra|exact L2].
  - rewrite (sum_of_perm _ _ P). pose proof (sum_le_abs V). lra.
Qed.
Theorem hist_error : exists v, nth_error (histogram_float prec emax block sort xs bins) k = Some v /\ fin v /\
  Rabs (B2R v - sum_of (of_bin (inside bins k) xs)) <= INR (S M) * (4 * u) * sum_abs W.
Proof.
  rewrite hist_nth by exact Hk. eexists. split; [reflexivity|]. destruct (cum_near k (or_introl eq_refl)) as [N0 B0]. destruct (cum_near (S k) (or_intror eq_refl)) as [N1 B1].
  destruct (near_sub (sum_abs W) Small M _ _ _ _ N1 N0 B1 B0 Few) as [F E]. split; [exact F|].
  replace (sum_of (of_bin (inside bins k) xs)) with (sum_of (of_bin (below bins (S k)) xs) - sum_of (of_bin (below bins k) xs)); [exact E|].
  rewrite (of_bin_ext _ _ xs (below_up bins k)), (bin_sum bins k xs He Hk). lra.
Qed.
(** an empty bin *)
Theorem hist_empty v : (forall x w, In (x, w) xs -> inside bins k x = false) -> nth_error (histogram_float prec emax block sort xs bins) k = Some v -> fin v /\ B2R v = 0.
Proof.
  intros N. rewrite hist_nth by exact Hk. intros E. injection E as <-. destruct (cum_near k (or_introl eq_refl)) as [[F0 _] _].
  assert (Q : cum_of bins (S k) bs (B754_zero false) = cum_of bins k bs (B754_zero false)).
  { assert (I : forall b, In b bs -> forall p, In p b -> In p xs) by (intros b I p Ip; rewrite <- (blocks_concat block Hb (length xs) xs (le_n _)); apply in_concat; eauto).
    clear F0. revert I. generalize (B754_zero (prec := prec) (emax := emax) false). induction bs as [|b l IH]; intros z I; [reflexivity|]. unfold cum_of in *. cbn [fold_left].
    replace (of_bin (below bins (S k)) (sort b)) with (of_bin (below bins k) (sort b)); [apply IH; intros b' Ib; apply I; right; exact Ib|].
    unfold of_bin. f_equal. apply filter_ext_in. intros [x w] Ip. cbn [fst]. rewrite below_up. apply (Permutation_in (x, w) (Permutation_sym (proj1 (Hs b)))) in Ip. specialize (N x w (I b (or_introl eq_refl) _ Ip)).
    destruct (below_split bins k x He Hk) as [S1 S2]. rewrite N in S1. destruct (below bins k x); [symmetry; apply S2; reflexivity|]. destruct (up_to bins k x); [discriminate S1|reflexivity]. }
  rewrite Q. destruct (sub_ok _ _ F0 F0) as [G1 G2]; [rewrite Rminus_diag_eq, Rabs_R0 by reflexivity; apply bpow_ge_0|]. split; [exact G2|]. rewrite G1, Rminus_diag_eq by reflexivity. apply round_0. typeclasses eauto.
Qed.
(** ** Non-negative weights *)
Section Pos.
Context (A : R) (HA : A <= bpow radix2 (emax - 3)).
Local Notation near := (near A).
Lemma grow vs : forall m s S0, near m s S0 -> Forall (fun x => fin x /\ 0 <= B2R x) vs -> Rabs S0 + sum_abs vs <= A -> INR (m + length vs) <= bpow radix2 (prec - 1) ->
  B2R s <= B2R (fold_left (add prec emax) vs s).
Proof.
  induction vs as [|x vs IH]; intros m s S0 N F B L; [cbn; lra|]. inversion F as [|? ? [Fx Px] F']; subst. change (x :: vs) with ([x] ++ vs) in B. rewrite sum_abs_app in B. unfold sum_abs at 1 in B. cbn [map rsum fold_right] in B. rewrite Rplus_0_r in B.
  cbn [length fold_left] in *. replace (m + S (length vs))%nat with (S (m + 0) + length vs)%nat in * by lia. pose proof (sum_abs_pos vs). pose proof (Rabs_triang S0 (B2R x)).
  assert (N' : near (S (m + 0)) (add prec emax s x) (S0 + B2R x)). { apply near_add; [exact HA|exact N|apply near_exact, Fx|lra|]. apply Rle_trans with (2 := L). apply le_INR. lia. }
  assert (G : B2R s <= B2R (add prec emax s x)).
  { destruct N as [Fs Es]. destruct (add_ok s x Fs Fx) as [G1 _].
    - assert (E' : INR m * (2 * u) * A <= A). { pose proof (Rabs_pos S0). pose proof (Rabs_pos (B2R x)). apply Rle_trans with (1 * A); [|lra]. apply Rmult_le_compat_r; [lra|]. apply small_m. apply Rle_trans with (2 := L). apply le_INR. lia. }
      replace (B2R s + B2R x) with ((B2R s - S0) + (S0 + B2R x)) by ring. pose proof (Rabs_triang (B2R s - S0) (S0 + B2R x)). pose proof (big4 A HA). pose proof (Rabs_pos S0). pose proof (Rabs_pos (B2R x)). lra.
    - rewrite G1. apply Rle_trans with (rd (B2R s)); [rewrite (rd_id (B2R s)) by apply fmt_B2R; lra|apply rd_le; lra]. }
  pose proof (IH _ _ _ N' F' ltac:(lra) L). lra.
Qed.
Lemma fsum_grow l c : Forall (fun x => fin x /\ 0 <= B2R x) l -> sum_abs l <= A -> INR (length l) <= bpow radix2 (prec - 1) -> B2R (fsum (firstn c l)) <= B2R (fsum l).
Proof.
  intros F B L. assert (A0 : 0 <= A) by (pose proof (sum_abs_pos l); lra). destruct l as [|x l]; [rewrite firstn_nil; lra|]. inversion F as [|? ? [Fx Px] F']; subst.
  change (x :: l) with ([x] ++ l) in B. rewrite sum_abs_app in B. unfold sum_abs at 1 in B. cbn [map rsum fold_right] in B. rewrite Rplus_0_r in B. cbn [length] in L. pose proof (sum_abs_pos l).
  destruct c as [|c].
  - cbn [firstn fsum]. apply Rle_trans with (B2R x); [exact Px|]. apply (grow l 0 x (B2R x)); [apply near_exact, Fx|exact F'|lra|]. apply Rle_trans with (2 := L). apply le_INR. lia.
  - cbn [firstn fsum]. rewrite <- (firstn_skipn c l) at 2. rewrite fold_left_app. rewrite <- (firstn_skipn c l) in B, F', L. set (a := firstn c l) in *. set (b := skipn c l) in *. rewrite sum_abs_app in B. apply Forall_app in F' as [Fa Fb]. rewrite app_length in L. pose proof (sum_abs_pos a). pose proof (sum_abs_pos b).
    pose proof (near_fold A HA a 0 x (B2R x) (near_exact A x Fx)) as Na. apply (grow b (0 + length a) _ (B2R x + sum_of a)); [apply Na| | |].
    + eapply Forall_impl; [|exact Fa]. intros y [Y _]. exact Y.
    + lra.
    + apply Rle_trans with (2 := L). apply le_INR. lia.
    + exact Fb.
    + pose proof (Rabs_triang (B2R x) (sum_of a)). pose proof (sum_le_abs a). lra.
    + apply Rle_trans with (2 := L). apply le_INR. lia.
Qed.
End Pos.
Lemma prefix_of b : exists c, of_bin (below bins k) (sort b) = firstn c (of_bin (below bins (S k)) (sort b)).
Proof.
  destruct (Hs b) as [_ S0]. assert (Pre : forall j, exists c, filter (fun p => below bins j (fst p)) (sort b) = firstn c (sort b)).
  { intros j. pose proof (sorted_prefix (S j =? length bins)%nat (nth j bins 0%Qc) (sort b) S0) as Q. cbv zeta in Q. eexists. refine (eq_trans _ Q). apply filter_ext. intros p. unfold below. destruct (S j =? length bins)%nat; reflexivity. }
  destruct (Pre k) as [c1 E1]. destruct (Pre (S k)) as [c2 E2]. unfold of_bin. rewrite E1, E2. exists c1. rewrite firstn_map, firstn_firstn. f_equal. destruct (Nat.le_gt_cases c1 c2) as [G|G]; [rewrite Nat.min_l by exact G; reflexivity|]. rewrite Nat.min_r by lia.
  (* the longer prefix belongs to the lower edge: both are the whole list up to that point *)
  assert (L : (length (filter (fun p => below bins k (fst p)) (sort b)) <= length (filter (fun p => below bins (S k) (fst p)) (sort b)))%nat).
  { pose proof (below_len bins k (sort b) He Hk) as Q. unfold of_bin in Q. rewrite !map_length in Q. refine (Nat.le_trans _ _ _ Q _). apply Nat.eq_le_incl. f_equal. apply filter_ext. intros p. symmetry. apply below_up. }
  rewrite E1, E2, !firstn_length in L. rewrite <- (firstn_skipn c2 (firstn c1 (sort b))). rewrite firstn_firstn, Nat.min_l by lia. rewrite (proj2 (Nat.leb_le _ _)) in * || idtac.
  assert (Z : skipn c2 (firstn c1 (sort b)) = []). { apply length_zero_iff_nil. rewrite skipn_length, firstn_length. lia. } rewrite Z, app_nil_r. reflexivity.
Qed.
Lemma parts_len l : (length (concat (map (fun blk => of_bin (below bins k) (sort blk)) l) : list fl) <= length (concat (map (fun blk => of_bin (below bins (S k)) (sort blk)) l)))%nat.
Proof.
  induction l as [|b l IH]; [cbn; lia|]. cbn [map concat]. rewrite !app_length. pose proof (below_len bins k (sort b) He Hk). rewrite (of_bin_ext _ _ (sort b) (below_up bins k)). lia.
Qed.
Theorem hist_positive v : (forall w, In w W -> 0 <= B2R w) -> nth_error (histogram_float prec emax block sort xs bins) k = Some v -> 0 <= B2R v.
Proof.
  intros Pos. destruct hist_error as (v' & E & F & _). rewrite E. intros Q. injection Q as <-. rewrite hist_nth in E by exact Hk. injection E as <-.
  destruct (cum_near k (or_introl eq_refl)) as [[F0 N0] B0]. destruct (cum_near (S k) (or_intror eq_refl)) as [[F1 N1] B1].
  assert (Mono : B2R (cum_of bins k bs (B754_zero false)) <= B2R (cum_of bins (S k) bs (B754_zero false))).
  { destruct (part_facts k (or_introl eq_refl)) as (P0 & Fi0 & Ab0 & Le0 & Nb). destruct (part_facts (S k) (or_intror eq_refl)) as (P1 & Fi1 & Ab1 & Le1 & _).
    assert (Po : Forall (fun x => 0 <= B2R x) (concat (map (fun blk => of_bin (below bins (S k)) (sort blk)) bs))).
    { apply Forall_forall. intros w I. apply Pos. rewrite <- (of_bin_ext _ _ xs (below_up bins k)). eapply Permutation_in; [symmetry; exact P1|exact I]. }
    pose proof (near_exact (sum_abs W) (B754_zero false) eq_refl) as Z. cbn [B2R] in Z.
    assert (G : forall l m a a' S0 S1, near (sum_abs W) m a S0 -> near (sum_abs W) m a' S1 -> B2R a <= B2R a' ->
      let V0 := concat (map (fun blk => of_bin (below bins k) (sort blk)) l) in let V1 := concat (map (fun blk => of_bin (below bins (S k)) (sort blk)) l) in
      Forall (fun x => fin x) V0 -> Forall (fun x => fin x) V1 -> Forall (fun x => 0 <= B2R x) V1 -> (length V0 <= length V1)%nat -> Rabs S0 + sum_abs V0 <= sum_abs W -> Rabs S1 + sum_abs V1 <= sum_abs W ->
      INR (m + length V1 + length l) <= bpow radix2 (prec - 1) -> B2R (cum_of bins k l a) <= B2R (cum_of bins (S k) l a')).
    { induction l as [|b l IH]; intros m a a' S0 S1 Na Na' La V0 V1 HF0 HF1 HP Ln Bd0 Bd1 L; [exact La|]. cbn [map concat] in V0, V1.
      set (x0 := of_bin (below bins k) (sort b)) in *. set (x1 := of_bin (below bins (S k)) (sort b)) in *. set (y0 := concat (map (fun blk => of_bin (below bins k) (sort blk)) l)) in *. set (y1 := concat (map (fun blk => of_bin (below bins (S k)) (sort blk)) l)) in *. unfold V0, V1 in *. clear V0 V1.
      apply Forall_app in HF0 as [HF0 HF0']. apply Forall_app in HF1 as [HF1 HF1']. apply Forall_app in HP as [HP HP']. rewrite sum_abs_app in Bd0, Bd1. rewrite !app_length in *. cbn [length] in L.
      change (cum_of bins k (b :: l) a) with (cum_of bins k l (add prec emax a (fsum x0))). change (cum_of bins (S k) (b :: l) a') with (cum_of bins (S k) l (add prec emax a' (fsum x1))).
      destruct (prefix_of b) as [c Ec]. fold x0 x1 in Ec.
      assert (Lx : (length x0 <= length x1)%nat) by (rewrite Ec, firstn_length; lia).
      assert (Ly : (length y0 <= length y1)%nat).
      { apply parts_len. }
      pose proof (sum_abs_pos x0). pose proof (sum_abs_pos x1). pose proof (sum_abs_pos y0). pose proof (sum_abs_pos y1). pose proof (sum_le_abs x0). pose proof (sum_le_abs x1). pose proof (Rabs_pos S0). pose proof (Rabs_pos S1).
      assert (N0x : near (sum_abs W) (length x1) (fsum x0) (sum_of x0)). { apply (near_more _ (length x0)); [lra|exact Lx|]. apply near_fsum; [exact Small|exact HF0|lra|apply Rle_trans with (2 := L); apply le_INR; lia]. }
      assert (N1x : near (sum_abs W) (length x1) (fsum x1) (sum_of x1)). { apply near_fsum; [exact Small|exact HF1|lra|apply Rle_trans with (2 := L); apply le_INR; lia]. }
      assert (Lf : B2R (fsum x0) <= B2R (fsum x1)). { rewrite Ec. apply (fsum_grow (sum_abs W) Small); [|lra|apply Rle_trans with (2 := L); apply le_INR; lia]. clear -HF1 HP. induction x1 as [|x x1 IH]; [constructor|]. inversion HF1; inversion HP; subst. constructor; auto. }
      assert (Sm : INR (m + length x1) <= bpow radix2 (prec - 1)) by (apply Rle_trans with (2 := L); apply le_INR; lia).
      pose proof (Rabs_triang S0 (sum_of x0)). pose proof (Rabs_triang S1 (sum_of x1)).
      apply (IH (S (m + length x1)) _ _ (S0 + sum_of x0) (S1 + sum_of x1)).
      - apply near_add; [exact Small|exact Na|exact N0x|lra|exact Sm].
      - apply near_add; [exact Small|exact Na'|exact N1x|lra|exact Sm].
      - destruct Na as [Fa Ea], Na' as [Fa' Ea'], N0x as [Fx0 Ex0], N1x as [Fx1 Ex1].
        assert (Bnd : forall (s t : fl) U T, fin s -> fin t -> Rabs (B2R s - U) <= INR m * (2 * u) * sum_abs W -> Rabs (B2R t - T) <= INR (length x1) * (2 * u) * sum_abs W -> Rabs (U + T) <= sum_abs W -> Rabs (B2R s + B2R t) <= bpow radix2 (emax - 1)).
        { intros s t U T _ _ Es Et Bt. assert (E' : INR (m + length x1) * (2 * u) * sum_abs W <= sum_abs W). { apply Rle_trans with (1 * sum_abs W); [|lra]. apply Rmult_le_compat_r; [lra|]. apply small_m, Sm. } rewrite plus_INR in E'.
          replace (B2R s + B2R t) with ((B2R s - U) + (B2R t - T) + (U + T)) by ring. pose proof (Rabs_triang ((B2R s - U) + (B2R t - T)) (U + T)). pose proof (Rabs_triang (B2R s - U) (B2R t - T)). pose proof (big4 (sum_abs W) Small). lra. }
        destruct (add_ok a (fsum x0) Fa Fx0) as [G1 _]; [apply (Bnd _ _ S0 (sum_of x0)); try assumption; lra|]. destruct (add_ok a' (fsum x1) Fa' Fx1) as [G2 _]; [apply (Bnd _ _ S1 (sum_of x1)); try assumption; lra|].
        rewrite G1, G2. apply rd_le. lra.
      - exact HF0'.
      - exact HF1'.
      - exact HP'.
      - exact Ly.
      - fold y0. lra.
      - fold y1. lra.
      - fold y1. replace (S (m + length x1) + length y1 + length l)%nat with (m + (length x1 + length y1) + S (length l))%nat by lia. exact L. }
    apply (G bs 0%nat _ _ 0 0 Z Z); try assumption; try (rewrite Rabs_R0; lra); [lra| |].
    - rewrite <- (Permutation_length P0), <- (Permutation_length P1). rewrite (of_bin_ext _ _ xs (below_up bins k)). apply below_len; assumption.
    - apply Rle_trans with (2 := Few). apply le_INR. lia. }
  destruct (sub_ok _ _ F1 F0) as [G1 _].
  - assert (E' : INR M * (2 * u) * sum_abs W <= sum_abs W). { apply Rle_trans with (1 * sum_abs W); [|lra]. apply Rmult_le_compat_r; [apply sum_abs_pos|]. apply small_m, Few. }
    pose proof (big4 (sum_abs W) Small). apply Rabs_le_inv in N0, N1, B0, B1. apply Rabs_le. lra.
  - rewrite G1. rewrite <- (rd_id 0) by apply generic_format_0. apply rd_le. lra.
Qed.
End Main.
End Cum.
End Fmt.
