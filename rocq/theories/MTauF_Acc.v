(* Numbers: infinities, exact sums of counts, static images, distance from the exact result. *)
From Coq Require Import Reals.
From Flocq Require Import Core IEEE754.BinarySingleNaN.
From Verif Require Import Common F64 RunMean_Model RunMean_Spec RunMean_Proofs MultiTau_Model MultiTau_Spec MultiTau_Labels MultiTau_Proofs MultiTau_Main MultiTau_Out.
From Verif Require Import MTauF_Model MTauF_Spec MTauF_Proofs MTauF_Main.
From Coq Require Import ZifyBool ZifyNat Lra.
Local Open Scope nat_scope.

(** ** Infinities never go away *)
Lemma fadd_nf (x y : f64) : is_finite (fadd x y) = true -> is_finite x = true /\ is_finite y = true.
Proof. destruct x as [s|s| |s m e b], y as [s'|s'| |s' m' e' b']; cbn; intros H; try (split; congruence); destruct s, s'; cbn in H; split; congruence. Qed.
Lemma fsub_nf (x y : f64) : is_finite (fsub x y) = true -> is_finite x = true /\ is_finite y = true.
Proof. destruct x as [s|s| |s m e b], y as [s'|s'| |s' m' e' b']; cbn; intros H; try (split; congruence); destruct s, s'; cbn in H; split; congruence. Qed.
Lemma fmul_nf (x y : f64) : is_finite (fmul x y) = true -> is_finite x = true /\ is_finite y = true.
Proof. destruct x as [s|s| |s m e b], y as [s'|s'| |s' m' e' b']; cbn; intros H; try (split; congruence); destruct s, s'; cbn in H; split; congruence. Qed.
Lemma fdiv_nf (x y : f64) : is_finite (fdiv x y) = true -> is_finite x = true.
Proof. destruct x as [s|s| |s m e b], y as [s'|s'| |s' m' e' b']; cbn; intros H; congruence. Qed.

Lemma sum_nf xs : forall a, is_finite (fold_left fadd xs a) = true -> is_finite a = true /\ forall x, In x xs -> is_finite x = true.
Proof.
  induction xs as [|y xs IH]; cbn [fold_left]; intros a H; [split; [exact H|contradiction]|].
  destruct (IH _ H) as [A B]. destruct (fadd_nf _ _ A) as [C D]. split; [exact C|]. intros x [<-|I]; auto.
Qed.
Lemma froi_nf labels f r : is_finite (froi labels f r) = true -> forall p, In p (roi_positions labels r) -> is_finite (f p) = true.
Proof. intros H p I. apply fdiv_nf in H. apply sum_nf in H. apply H. apply in_map; exact I. Qed.
Lemma updates_nf data : forall m k, is_finite (updates m k data) = true -> is_finite m = true /\ forall x, In x data -> is_finite x = true.
Proof.
  induction data as [|y data IH]; cbn [updates]; intros m k H; [split; [exact H|contradiction]|].
  destruct (IH _ _ H) as [A B]. unfold update in A. destruct (fadd_nf _ _ A) as [C D]. apply fdiv_nf in D. apply fsub_nf in D.
  split; [exact C|]. intros x [<-|I]; [apply D|auto].
Qed.
Lemma running_nf data : is_finite (running_mean data) = true -> forall x, In x data -> is_finite x = true.
Proof. intros H. apply (updates_nf data fzero 1%Z H). Qed.
Lemma fblock_nf images l : forall k p, is_finite (fblock images l k p) = true ->
  forall t, k * 2 ^ l <= t < (k + 1) * 2 ^ l -> is_finite (nth p (nth t images []) fzero) = true.
Proof.
  induction l as [|l IH]; intros k p H t Ht.
  - cbn [Nat.pow] in Ht. replace t with k by lia. exact H.
  - cbn [fblock] in H. apply fdiv_nf in H. apply fadd_nf in H. destruct H as [A B]. cbn [Nat.pow] in Ht.
    destruct (Nat.lt_ge_cases t ((2 * k + 1) * 2 ^ l)).
    + apply (IH _ _ A). lia.
    + apply (IH _ _ B). lia.
Qed.

Lemma g2_nf labels images l i r k t p :
  In k (fgood_pairs labels images l i) -> In p (roi_positions labels r) ->
  k * 2 ^ l <= t < (k + 1) * 2 ^ l \/ (k + i) * 2 ^ l <= t < (k + i + 1) * 2 ^ l ->
  is_finite (nth p (nth t images []) fzero) = false -> is_finite (float_g2 labels images l i r) = false.
Proof.
  intros Hk Hp Ht Hn. destruct (is_finite (float_g2 labels images l i r)) eqn:E; [|reflexivity]. rewrite <- Hn. symmetry.
  unfold float_g2 in E. apply fdiv_nf in E. unfold float_G in E.
  pose proof (running_nf _ E) as A. specialize (A _ (in_map _ _ _ Hk)). cbv beta in A.
  pose proof (froi_nf _ _ _ A p Hp) as B. cbv beta in B. apply fmul_nf in B. destruct B as [B1 B2].
  destruct Ht as [Ht|Ht]; [exact (fblock_nf _ _ _ _ B1 _ Ht)|exact (fblock_nf _ _ _ _ B2 _ Ht)].
Qed.

Lemma div_le (a b c : R) : (0 < b)%R -> (a <= c * b)%R -> (a / b <= c)%R.
Proof. intros Hb H. apply (Rmult_le_reg_r b); [exact Hb|]. unfold Rdiv. rewrite Rmult_assoc, Rinv_l by lra. lra. Qed.

(** ** Exact sums of integer multiples of a power of two *)
Local Open Scope R_scope.
Lemma scaled_format n e : (Z.abs n <= 2 ^ 53)%Z -> (-1074 <= e)%Z -> F64 (IZR n * bpow radix2 e).
Proof.
  intros Hn He. apply generic_format_FLT. destruct (Z.eq_dec (Z.abs n) (2 ^ 53)) as [Hq|Hq].
  - assert (n = 2 * (n / 2))%Z as Hh by (destruct (Zabs_spec n) as [[_ E]|[_ E]]; rewrite E in Hq; [|assert (n = - 2 ^ 53)%Z by lia]; subst n; reflexivity).
    exists (Float radix2 (n / 2) (e + 1)); cbn [Fnum Fexp].
    + unfold F2R; cbn [Fnum Fexp]. rewrite bpow_plus. change (bpow radix2 1) with 2. rewrite Hh at 1. rewrite mult_IZR. ring.
    + change (Zpower radix2 53) with (2 ^ 53)%Z. lia.
    + lia.
  - exists (Float radix2 n e); cbn [Fnum Fexp]; [reflexivity| |lia]. change (Zpower radix2 53) with (2 ^ 53)%Z. lia.
Qed.
Lemma scaled_small n e : (Z.abs n <= 2 ^ 53)%Z -> (e <= 0)%Z -> Rabs (IZR n * bpow radix2 e) < bpow radix2 1024.
Proof.
  intros Hn He. rewrite Rabs_mult, (Rabs_pos_eq (bpow _ _)) by apply bpow_ge_0.
  apply Rle_lt_trans with (bpow radix2 53 * bpow radix2 0).
  - apply Rmult_le_compat; [apply Rabs_pos|apply bpow_ge_0| |apply bpow_le; exact He].
    rewrite <- abs_IZR, bpow_IZR by lia. apply IZR_le. exact Hn.
  - rewrite <- bpow_plus. apply bpow_lt. lia.
Qed.
(** [isz x n e]: the double x is exactly n * 2^e *)
Definition isz (x : f64) (n e : Z) : Prop := is_finite x = true /\ B2R x = IZR n * bpow radix2 e.
Lemma isz_add x y n m e : isz x n e -> isz y m e -> (Z.abs (n + m) <= 2 ^ 53)%Z -> (-1074 <= e <= 0)%Z -> isz (fadd x y) (n + m) e.
Proof.
  intros [Fx Ex] [Fy Ey] B He.
  assert (E : B2R x + B2R y = IZR (n + m) * bpow radix2 e) by (rewrite Ex, Ey, plus_IZR; ring).
  assert (R : rnd (B2R x + B2R y) = IZR (n + m) * bpow radix2 e) by (rewrite E; apply rnd_id, scaled_format; [exact B|lia]).
  destruct (fadd_ok x y Fx Fy) as [A F]; [rewrite R; apply scaled_small; [exact B|lia]|]. split; [exact F|congruence].
Qed.
Lemma isz_mul x y n m e d : isz x n e -> isz y m d -> (Z.abs (n * m) <= 2 ^ 53)%Z -> (-1074 <= e + d <= 0)%Z -> isz (fmul x y) (n * m) (e + d).
Proof.
  intros [Fx Ex] [Fy Ey] B He.
  assert (E : B2R x * B2R y = IZR (n * m) * bpow radix2 (e + d)) by (rewrite Ex, Ey, mult_IZR, bpow_plus; ring).
  assert (R : rnd (B2R x * B2R y) = IZR (n * m) * bpow radix2 (e + d)) by (rewrite E; apply rnd_id, scaled_format; [exact B|lia]).
  destruct (fmul_ok x y Fx Fy) as [A F]; [rewrite R; apply scaled_small; [exact B|lia]|]. split; [exact F|congruence].
Qed.
Lemma isz_half x n e : isz x n e -> (Z.abs n <= 2 ^ 53)%Z -> (-1073 <= e <= 0)%Z -> isz (fdiv x (f64_of_Z 2)) n (e - 1).
Proof.
  intros [Fx Ex] B He. destruct (f64_of_Z_ok 2 ltac:(lia)) as [E2 _].
  assert (E : B2R x / B2R (f64_of_Z 2) = IZR n * bpow radix2 (e - 1)).
  { rewrite Ex, E2. unfold Zminus. rewrite bpow_plus. change (bpow radix2 (- (1))) with (/ 2). field. }
  assert (R : rnd (B2R x / B2R (f64_of_Z 2)) = IZR n * bpow radix2 (e - 1)) by (rewrite E; apply rnd_id, scaled_format; [exact B|lia]).
  destruct (fdiv_ok x (f64_of_Z 2) Fx) as [A F]; [rewrite E2; lra|rewrite R; apply scaled_small; [exact B|lia]|]. split; [exact F|congruence].
Qed.
Definition zsum (l : list Z) : Z := fold_right Z.add 0%Z l.
Lemma isz_sum {A} (f : A -> f64) (g : A -> Z) e ps : forall a n,
  isz a n e -> (0 <= n)%Z -> (forall p, In p ps -> isz (f p) (g p) e /\ (0 <= g p)%Z) -> (n + zsum (map g ps) <= 2 ^ 53)%Z -> (-1074 <= e <= 0)%Z ->
  isz (fold_left fadd (map f ps) a) (n + zsum (map g ps)) e.
Proof.
  induction ps as [|p ps IH]; cbn [map fold_left zsum fold_right]; intros a n Ha H0 Hp B He; [rewrite Z.add_0_r; exact Ha|].
  fold (zsum (map g ps)) in *. destruct (Hp p (or_introl eq_refl)) as [I J].
  assert (N : (0 <= zsum (map g ps))%Z).
  { clear -Hp. induction ps as [|q ps IH]; cbn; [lia|]. destruct (Hp q ltac:(right; left; reflexivity)) as [_ ?].
    specialize (IH ltac:(intros x [<-|Hx]; apply Hp; [left; reflexivity|right; right; exact Hx])). unfold zsum in IH. lia. }
  rewrite Z.add_assoc. apply IH; try lia.
  - apply isz_add; auto. lia.
  - intros q Hq. apply Hp. right; exact Hq.
Qed.

(** ** Averages of counts *)
Lemma zsum_bounds (l : list Z) c : (forall x, In x l -> (0 <= x <= c)%Z) -> (0 <= zsum l <= Z.of_nat (length l) * c)%Z.
Proof.
  induction l as [|x l IH]; intros H; [cbn; lia|]. specialize (IH (fun y Hy => H y (or_intror Hy))). specialize (H x (or_introl eq_refl)).
  change (zsum (x :: l)) with (x + zsum l)%Z. cbn [length]. lia.
Qed.
Lemma rsum_scaled {A} (g : A -> Z) e ps : fold_right Rplus 0 (map (fun p => IZR (g p) * bpow radix2 e) ps) = IZR (zsum (map g ps)) * bpow radix2 e.
Proof.
  induction ps as [|p ps IH]; cbn [map fold_right]; [change (zsum []) with 0%Z; ring|].
  rewrite IH. change (zsum (g p :: map g ps)) with (g p + zsum (map g ps))%Z. rewrite plus_IZR. ring.
Qed.
Lemma froi_counts labels f g e r c :
  (1 <= length (roi_positions labels r))%nat -> (0 <= c)%Z -> (Z.of_nat (length (roi_positions labels r)) * c <= 2 ^ 53)%Z -> (-1074 <= e <= 0)%Z ->
  (Z.of_nat (length (roi_positions labels r)) <= 2 ^ 53)%Z ->
  (forall p, In p (roi_positions labels r) -> isz (f p) (g p) e /\ (0 <= g p <= c)%Z) ->
  let x := exact_roi labels (fun p => IZR (g p) * bpow radix2 e) r in
  is_finite (froi labels f r) = true /\ B2R (froi labels f r) = rnd x /\ 0 <= x <= IZR c * bpow radix2 e.
Proof.
  intros HN H0 HB He HN2 Hp. set (ps := roi_positions labels r) in *. set (n := Z.of_nat (length ps)) in *.
  assert (Hs : isz (fold_left fadd (map f ps) fzero) (0 + zsum (map g ps)) e).
  { apply isz_sum; try lia.
    - split; [reflexivity|]. cbn [B2R fzero]. ring.
    - intros p I. destruct (Hp p I). split; [assumption|lia].
    - assert (zsum (map g ps) <= n * c)%Z; [|lia].
      unfold n. rewrite <- (map_length g ps). apply zsum_bounds. intros x Hx. apply in_map_iff in Hx as (p & <- & I). apply Hp; exact I. }
  assert (HS : (0 <= zsum (map g ps) <= n * c)%Z).
  { unfold n. rewrite <- (map_length g ps). apply zsum_bounds. intros x Hx. apply in_map_iff in Hx as (p & <- & I). apply Hp; exact I. }
  cbn [Z.add] in Hs. set (s := zsum (map g ps)) in *. destruct Hs as [Fs Es].
  destruct (f64_of_Z_ok n) as [En Fn]; [unfold n in *; lia|].
  assert (Hn1 : 1 <= IZR n) by (apply IZR_le; unfold n; lia).
  assert (Ex : exact_roi labels (fun p => IZR (g p) * bpow radix2 e) r = B2R (fold_left fadd (map f ps) fzero) / B2R (f64_of_Z n)).
  { unfold exact_roi, exact_mean. fold ps. rewrite rsum_scaled, map_length, Es, En. fold s. unfold n. rewrite <- INR_IZR_INZ. reflexivity. }
  assert (Bx : 0 <= exact_roi labels (fun p => IZR (g p) * bpow radix2 e) r <= IZR c * bpow radix2 e).
  { rewrite Ex, Es, En. assert (P : 0 < bpow radix2 e) by apply bpow_gt_0.
    assert (S0 : 0 <= IZR s) by (apply IZR_le; lia). assert (S1 : IZR s <= IZR n * IZR c) by (rewrite <- mult_IZR; apply IZR_le; lia).
    split.
    - apply Rmult_le_pos; [nra|]. left; apply Rinv_0_lt_compat; lra.
    - apply div_le; [lra|]. nra. }
  cbv zeta. rewrite Ex in *. split; [|split; [|exact Bx]].
  all: destruct (fdiv_ok (fold_left fadd (map f ps) fzero) (f64_of_Z n) Fs) as [A F]; [rewrite En; lra| |].
  1,3: apply bound1022; rewrite Rabs_pos_eq by lra; apply Rle_trans with (1 := proj2 Bx);
    apply Rle_trans with (bpow radix2 53 * bpow radix2 0); [|rewrite <- bpow_plus; apply bpow_le; lia];
    apply Rmult_le_compat; [apply IZR_le; lia|apply bpow_ge_0| |apply bpow_le; lia];
    rewrite bpow_IZR by lia; apply IZR_le; nia.
  - exact F.
  - exact A.
Qed.

Lemma mean_close {A} (ks : list A) (x : A -> f64) (a : A -> R) B :
  ks <> [] -> (Z.of_nat (length ks) < 2 ^ 53)%Z -> 1 <= B <= bpow radix2 1022 ->
  (forall k, In k ks -> is_finite (x k) = true /\ B2R (x k) = rnd (a k) /\ 0 <= a k <= B /\ rnd (a k) <= B) ->
  is_finite (running_mean (map x ks)) = true /\
  Rabs (B2R (running_mean (map x ks)) - exact_mean (map a ks)) <= (INR (length ks) + 14) / 2 * bpow radix2 (-53) * B.
Proof.
  intros Hne Hn HB H.
  assert (D : forall y, In y (map x ks) -> is_finite y = true /\ Rabs (B2R y) <= B).
  { intros y Hy. apply in_map_iff in Hy as (k & <- & Hk). destruct (H k Hk) as (F & E & A0 & A1). split; [exact F|].
    rewrite E, Rabs_pos_eq; [exact A1|]. apply rnd_ge; [apply F64_0|lra]. }
  assert (Hl : map x ks <> []) by (destruct ks; [congruence|discriminate]).
  destruct (mean_range (map x ks) (- B) B Hl) as [F _]; rewrite ?map_length; try lra; [lia| |].
  { intros y Hy. destruct (D y Hy) as [Fy By]. split; [exact Fy|]. apply Rabs_le_inv in By. lra. }
  split; [exact F|].
  pose proof (mean_error (map x ks) B Hl ltac:(rewrite map_length; lia) (proj2 HB) D) as E. cbn zeta in E. rewrite map_length in E.
  assert (N : 1 <= INR (length ks)) by (change 1 with (INR 1); apply le_INR; destruct ks; [congruence|cbn; lia]).
  assert (N2 : INR (length ks) <= bpow radix2 53) by (rewrite INR_IZR_INZ, bpow_IZR by lia; apply IZR_le; lia).
  set (n := INR (length ks)) in *. set (u := bpow radix2 (-53)) in *. set (h := bpow radix2 (-1074)) in *.
  assert (U : 0 < u) by apply bpow_gt_0. assert (Hh : 0 < h) by apply bpow_gt_0.
  assert (C : Rabs (rsum (map x ks) / n - exact_mean (map a ks)) <= u * B + h / 2).
  { unfold exact_mean. rewrite map_length. fold n.
    replace (rsum (map x ks) / n - fold_right Rplus 0 (map a ks) / n) with ((rsum (map x ks) - fold_right Rplus 0 (map a ks)) / n) by (unfold Rdiv; ring).
    unfold Rdiv at 1. rewrite Rabs_mult, (Rabs_pos_eq (/ n)) by (left; apply Rinv_0_lt_compat; lra). apply div_le; [lra|].
    unfold n. clear n E N N2 F D Hl Hne Hn HB.
    induction ks as [|k ks IH]; [cbn [map length INR]; unfold rsum; cbn; rewrite Rminus_diag_eq, Rabs_R0 by reflexivity; lra|].
    specialize (IH (fun j Hj => H j (or_intror Hj))). destruct (H k (or_introl eq_refl)) as (_ & Ek & A0 & _).
    change (rsum (map x (k :: ks))) with (B2R (x k) + rsum (map x ks)). cbn [map fold_right]. 
    replace (B2R (x k) + rsum (map x ks) - (a k + fold_right Rplus 0 (map a ks))) with
      ((B2R (x k) - a k) + (rsum (map x ks) - fold_right Rplus 0 (map a ks))) by ring.
    refine (Rle_trans _ _ _ (Rabs_triang _ _) _). change (length (k :: ks)) with (S (length ks)). rewrite S_INR.
    pose proof (rnd_err (a k)) as Er. rewrite <- Ek in Er. rewrite (Rabs_pos_eq (a k)) in Er by lra.
    fold u in Er. fold h in Er. assert (u * a k <= u * B) by (apply Rmult_le_compat_l; lra). lra. }
  assert (T : (n + 3) / 4 * h <= u * B / 2).
  { apply Rle_trans with (bpow radix2 54 * h).
    - apply Rmult_le_compat_r; [lra|]. change 54%Z with (53 + 1)%Z. rewrite bpow_plus. change (bpow radix2 1) with 2.
      assert (1 <= bpow radix2 53) by (change 1 with (bpow radix2 0); apply bpow_le; lia). lra.
    - unfold h. rewrite <- bpow_plus. apply Rle_trans with (u / 2 * 1).
      + rewrite Rmult_1_r. unfold u, Rdiv. change (/ 2) with (bpow radix2 (-1)). rewrite <- bpow_plus. apply bpow_le. lia.
      + apply Rle_trans with (u / 2 * B); [apply Rmult_le_compat_l; lra|lra]. }
  replace (B2R (running_mean (map x ks)) - exact_mean (map a ks)) with
    ((B2R (running_mean (map x ks)) - rsum (map x ks) / n) + (rsum (map x ks) / n - exact_mean (map a ks))) by ring.
  refine (Rle_trans _ _ _ (Rabs_triang _ _) _). 
  replace ((n + 14) / 2 * u * B) with ((n + 11) / 2 * u * B + u * B + u * B / 2) by field. lra.
Qed.

Lemma side_le (a x m : Z) : (a <= x -> 1 <= x -> 1 <= m -> a * m <= m * m * (x * x))%Z.
Proof.
  intros A X B. assert (a * m <= x * m)%Z by (apply Z.mul_le_mono_nonneg_r; lia). assert (1 <= x * m)%Z by nia.
  assert (x * m <= (x * m) * (x * m))%Z by nia. lia.
Qed.

Lemma roi_inhabited labels r : (1 <= r <= n_rois labels)%nat -> (1 <= length (roi_positions labels r))%nat.
Proof.
  intros Hr. destruct (roi_no_onto labels r Hr) as (x & Hx & H0 & E).
  apply In_nth with (d := 0%Z) in Hx as (p & Hp & <-).
  assert (Hin : In p (roi_positions labels r)).
  { unfold roi_positions. apply filter_In. split; [apply in_seq; lia|]. lia. }
  destruct (roi_positions labels r); [destruct Hin|cbn; lia].
Qed.

Section Counts.
Variables (labels : list Z) (z : list (list Z)) (M : Z) (l : nat).
Let images := map (map f64_of_Z) z.
Hypothesis Hlen : forall im, In im z -> length im = length labels.
Hypothesis HM : forall im x, In im z -> In x im -> (0 <= x <= M)%Z.
Hypothesis HM1 : (1 <= M)%Z.
Hypothesis HB : (M * M * 4 ^ Z.of_nat l <= 2 ^ 53)%Z.

Definition bsum (l k p : nat) : Z := zsum (map (fun f => nth p f 0%Z) (block_frames z l k)).
Lemma zsum_app a b : zsum (a ++ b) = (zsum a + zsum b)%Z.
Proof. induction a as [|x a IH]; [reflexivity|]. cbn [app]. change (zsum (x :: a ++ b)) with (x + zsum (a ++ b))%Z. change (zsum (x :: a)) with (x + zsum a)%Z. lia. Qed.
Lemma bsum_S l' k p : bsum (S l') k p = (bsum l' (2 * k) p + bsum l' (2 * k + 1) p)%Z.
Proof. unfold bsum. rewrite block_frames_S, map_app, zsum_app. reflexivity. Qed.
Lemma block_In {A} (fs : list A) l' k f : In f (block_frames fs l' k) -> In f fs.
Proof.
  unfold block_frames. intros H. rewrite <- (firstn_skipn (k * 2 ^ l') fs). apply in_or_app; right.
  rewrite <- (firstn_skipn (2 ^ l') (skipn (k * 2 ^ l') fs)). apply in_or_app; left. exact H.
Qed.
Lemma bsum_range l' k p : ((k + 1) * 2 ^ l' <= length z)%nat -> (0 <= bsum l' k p <= 2 ^ Z.of_nat l' * M)%Z.
Proof.
  intros Hk. unfold bsum.
  assert (E : (2 ^ Z.of_nat l' = Z.of_nat (length (map (fun f => nth p f 0%Z) (block_frames z l' k))))%Z).
  { rewrite map_length, block_frames_length by exact Hk. rewrite Nat2Z.inj_pow. reflexivity. }
  rewrite E. apply zsum_bounds. intros x Hx. apply in_map_iff in Hx as (f & <- & Hf). apply block_In in Hf.
  destruct (Nat.lt_ge_cases p (length f)) as [Hp|Hp]; [apply (HM f); [exact Hf|apply nth_In; exact Hp]|].
  rewrite nth_overflow by exact Hp. lia.
Qed.
Lemma pow4 : (4 ^ Z.of_nat l = 2 ^ Z.of_nat l * 2 ^ Z.of_nat l)%Z.
Proof. change 4%Z with (2 * 2)%Z. apply Z.pow_mul_l. Qed.
Lemma l_small : (l <= 26)%nat.
Proof.
  destruct (Nat.le_gt_cases l 26) as [|H]; [assumption|exfalso].
  assert (4 ^ 27 <= 4 ^ Z.of_nat l)%Z by (apply Z.pow_le_mono_r; lia). change (4 ^ 27)%Z with (2 * 2 ^ 53)%Z in *. nia.
Qed.
Lemma fblock_counts l' : (l' <= l)%nat -> forall k p, ((k + 1) * 2 ^ l' <= length z)%nat -> (p < length labels)%nat ->
  isz (fblock images l' k p) (bsum l' k p) (- Z.of_nat l').
Proof.
  induction l' as [|l' IH]; intros Hl k p Hk Hp.
  - cbn [fblock]. cbn [Nat.pow] in Hk. assert (Hlt : (k < length z)%nat) by lia.
    unfold images. change (@nil f64) with (map f64_of_Z []). rewrite map_nth.
    assert (Hin : In (nth k z []) z) by (apply nth_In; exact Hlt).
    rewrite nth_indep with (d' := f64_of_Z 0) by (rewrite map_length, (Hlen _ Hin); exact Hp). rewrite map_nth.
    assert (Hx : (0 <= nth p (nth k z []) 0 <= M)%Z) by (apply (HM (nth k z [])); [exact Hin|apply nth_In; rewrite (Hlen _ Hin); exact Hp]).
    assert (HM2 : (M <= 2 ^ 53)%Z) by (assert (1 <= 4 ^ Z.of_nat l)%Z by (pose proof (Z.pow_pos_nonneg 4 (Z.of_nat l)); lia); nia).
    destruct (f64_of_Z_ok (nth p (nth k z []) 0%Z)) as [E F]; [lia|].
    assert (Eb : bsum 0 k p = nth p (nth k z []) 0%Z).
    { unfold bsum, block_frames. cbn [Nat.pow]. rewrite Nat.mul_1_r.
      assert (G : exists r, skipn k z = nth k z [] :: r).
      { clear -Hlt. revert k Hlt; induction z as [|y q IH]; intros [|k] H; cbn in *; try lia; [eauto|apply IH; lia]. }
      destruct G as [r ->]. cbn [firstn map zsum fold_right]. lia. }
    rewrite Eb. split; [exact F|]. rewrite E. cbn [Z.of_nat Z.opp bpow]. ring.
  - cbn [fblock]. rewrite bsum_S.
    assert (H1 : ((2 * k + 1) * 2 ^ l' <= length z)%nat) by (cbn in Hk; nia).
    assert (H2 : ((2 * k + 1 + 1) * 2 ^ l' <= length z)%nat) by (cbn in Hk; nia).
    pose proof (bsum_range l' (2 * k) p H1) as R1. pose proof (bsum_range l' (2 * k + 1) p H2) as R2.
    pose proof l_small as Hs.
    assert (HT : (2 ^ Z.of_nat (S l') * M <= 2 ^ 53)%Z).
    { assert (2 ^ Z.of_nat (S l') <= 2 ^ Z.of_nat l)%Z by (apply Z.pow_le_mono_r; lia). rewrite pow4 in HB.
      assert (1 <= 2 ^ Z.of_nat l)%Z by (pose proof (Z.pow_pos_nonneg 2 (Z.of_nat l)); lia).
      pose proof (side_le (2 ^ Z.of_nat (S l')) (2 ^ Z.of_nat l) M). lia. }
    assert (E2 : (2 ^ Z.of_nat (S l') = 2 * 2 ^ Z.of_nat l')%Z) by (rewrite Nat2Z.inj_succ, Z.pow_succ_r by lia; reflexivity).
    rewrite E2, <- Z.mul_assoc in HT. set (q := (2 ^ Z.of_nat l' * M)%Z) in *.
    replace (- Z.of_nat (S l'))%Z with (- Z.of_nat l' - 1)%Z by lia.
    apply isz_half; [|lia|lia]. apply isz_add; [apply IH; lia|apply IH; lia|lia|lia].
Qed.
Lemma exact_block_bsum k p : ((k + 1) * 2 ^ l <= length z)%nat -> exact_block z l k p = IZR (bsum l k p) * bpow radix2 (- Z.of_nat l).
Proof.
  intros Hk. unfold exact_block, exact_mean. rewrite map_length, block_frames_length by exact Hk.
  replace (fold_right Rplus 0 (map (fun f => IZR (nth p f 0%Z)) (block_frames z l k))) with (IZR (bsum l k p)).
  - rewrite bpow_opp, bpow_IZR, INR_IZR_INZ, Nat2Z.inj_pow by lia. reflexivity.
  - unfold bsum. generalize (block_frames z l k). intros fs. induction fs as [|f fs IH]; [reflexivity|].
    cbn [map fold_right]. rewrite <- IH. change (zsum (nth p f 0%Z :: map (fun f => nth p f 0%Z) fs)) with (nth p f 0%Z + zsum (map (fun f => nth p f 0%Z) fs))%Z.
    apply plus_IZR.
Qed.
Lemma fin_not_nan (x : f64) : is_finite x = true -> is_nan x = false.
Proof. destruct x; cbn; congruence. Qed.
Lemma fgood_counts k : ((k + 1) * 2 ^ l <= length z)%nat -> fgood labels images l k = true.
Proof.
  intros Hk. unfold fgood. apply forallb_forall. intros p Hp. apply all_positions_In in Hp as [Hp _].
  destruct (fblock_counts l (le_n l) k p Hk Hp) as [F _]. rewrite (fin_not_nan _ F). reflexivity.
Qed.
Lemma pairs_counts i : fgood_pairs labels images l i = block_pairs z l i.
Proof.
  unfold fgood_pairs, block_pairs. unfold images at 3. rewrite map_length.
  pose proof (pow2_pos l) as P2. pose proof (Nat.mul_div_le (length z) (2 ^ l) ltac:(lia)) as D.
  set (m := (length z / 2 ^ l)%nat) in *.
  assert (H1 : forall k, In k (seq 0 (m - i)) -> fgood labels images l k && fgood labels images l (k + i) = true).
  { intros k Hk. apply in_seq in Hk. rewrite !fgood_counts; [reflexivity|nia|nia]. }
  induction (seq 0 (m - i)) as [|k ks IH]; cbn [filter]; [reflexivity|].
  rewrite H1 by (left; auto). f_equal. apply IH. intros; apply H1; right; auto.
Qed.
Lemma pair_complete i k : In k (block_pairs z l i) -> ((k + 1) * 2 ^ l <= length z)%nat /\ ((k + i + 1) * 2 ^ l <= length z)%nat.
Proof.
  intros Hk. apply in_seq in Hk. pose proof (pow2_pos l) as P2. pose proof (Nat.mul_div_le (length z) (2 ^ l) ltac:(lia)) as D.
  set (m := (length z / 2 ^ l)%nat) in *. split; nia.
Qed.
Lemma roi_label p r : In p (roi_positions labels r) -> (p < length labels)%nat.
Proof. intros H. apply filter_In in H as [H _]. apply in_seq in H. lia. Qed.

Variable r : nat.
Hypothesis Hr : (1 <= r <= n_rois labels)%nat.
Hypothesis HN : (Z.of_nat (length (roi_positions labels r)) * (M * M * 4 ^ Z.of_nat l) <= 2 ^ 53)%Z.
Lemma npix_pos : (1 <= length (roi_positions labels r))%nat.
Proof. apply roi_inhabited, Hr. Qed.
Lemma npix_small : (Z.of_nat (length (roi_positions labels r)) <= 2 ^ 53)%Z.
Proof.
  assert (1 <= M * M * 4 ^ Z.of_nat l)%Z by (assert (1 <= 4 ^ Z.of_nat l)%Z by (pose proof (Z.pow_pos_nonneg 4 (Z.of_nat l)); lia); nia). nia.
Qed.
Lemma exact_roi_ext f g : (forall p, In p (roi_positions labels r) -> f p = g p) -> exact_roi labels f r = exact_roi labels g r.
Proof. intros H. unfold exact_roi. f_equal. apply map_ext_in. exact H. Qed.
Lemma M2_F64 : rnd (IZR (M * M)) = IZR (M * M).
Proof. apply rnd_id, Z_format. assert (1 <= 4 ^ Z.of_nat l)%Z by (pose proof (Z.pow_pos_nonneg 4 (Z.of_nat l)); lia). nia. Qed.
Lemma M_small : (M <= 2 ^ 53)%Z.
Proof. assert (1 <= 4 ^ Z.of_nat l)%Z by (pose proof (Z.pow_pos_nonneg 4 (Z.of_nat l)); lia). nia. Qed.
Lemma M_F64 : rnd (IZR M) = IZR M.
Proof. apply rnd_id, Z_format. pose proof M_small. lia. Qed.

Lemma roi_G k i : In k (block_pairs z l i) ->
  let x := froi labels (fun p => fmul (fblock images l k p) (fblock images l (k + i) p)) r in
  let a := exact_roi labels (fun p => exact_block z l k p * exact_block z l (k + i) p) r in
  is_finite x = true /\ B2R x = rnd a /\ 0 <= a <= IZR (M * M) /\ rnd a <= IZR (M * M).
Proof.
  intros Hk. destruct (pair_complete i k Hk) as [K1 K2]. pose proof l_small as Hs.
  destruct (froi_counts labels (fun p => fmul (fblock images l k p) (fblock images l (k + i) p)) (fun p => bsum l k p * bsum l (k + i) p)%Z
              (- Z.of_nat l + - Z.of_nat l) r (M * M * 4 ^ Z.of_nat l)) as (F & E & B).
  - apply npix_pos.
  - assert (1 <= 4 ^ Z.of_nat l)%Z by (pose proof (Z.pow_pos_nonneg 4 (Z.of_nat l)); lia). nia.
  - exact HN.
  - lia.
  - apply npix_small.
  - intros p Hp. apply roi_label in Hp. pose proof (bsum_range l k p K1) as R1. pose proof (bsum_range l (k + i) p K2) as R2.
    assert (HC : (0 <= bsum l k p * bsum l (k + i) p <= M * M * 4 ^ Z.of_nat l)%Z).
    { rewrite pow4. split; [nia|]. replace (M * M * (2 ^ Z.of_nat l * 2 ^ Z.of_nat l))%Z with ((2 ^ Z.of_nat l * M) * (2 ^ Z.of_nat l * M))%Z by ring.
      apply Z.mul_le_mono_nonneg; lia. }
    split; [|exact HC]. apply isz_mul; [apply fblock_counts; auto|apply fblock_counts; auto|lia|lia].
  - cbv zeta. erewrite (exact_roi_ext (fun p => exact_block z l k p * exact_block z l (k + i) p)).
    2:{ intros p Hp. rewrite !exact_block_bsum by assumption.
        instantiate (1 := fun p => IZR (bsum l k p * bsum l (k + i) p) * bpow radix2 (- Z.of_nat l + - Z.of_nat l)).
        cbv beta. rewrite mult_IZR, bpow_plus. ring. }
    assert (EM : IZR (M * M * 4 ^ Z.of_nat l) * bpow radix2 (- Z.of_nat l + - Z.of_nat l) = IZR (M * M)).
    { rewrite mult_IZR, pow4, (mult_IZR (2 ^ _)), <- bpow_IZR, Rmult_assoc, <- !bpow_plus by lia.
      replace (Z.of_nat l + Z.of_nat l + (- Z.of_nat l + - Z.of_nat l))%Z with 0%Z by lia. cbn [bpow]. ring. }
    rewrite EM in B. repeat split; auto; try apply B. rewrite <- M2_F64. apply rnd_le, B.
Qed.
Lemma roi_P k : ((k + 1) * 2 ^ l <= length z)%nat ->
  let x := froi labels (fblock images l k) r in
  let a := exact_roi labels (exact_block z l k) r in
  is_finite x = true /\ B2R x = rnd a /\ 0 <= a <= IZR M /\ rnd a <= IZR M.
Proof.
  intros K1. pose proof l_small as Hs.
  assert (P4 : (1 <= 2 ^ Z.of_nat l)%Z) by (pose proof (Z.pow_pos_nonneg 2 (Z.of_nat l)); lia).
  destruct (froi_counts labels (fblock images l k) (bsum l k) (- Z.of_nat l) r (2 ^ Z.of_nat l * M)) as (F & E & B).
  - apply npix_pos.
  - nia.
  - refine (Z.le_trans _ _ _ _ HN). apply Z.mul_le_mono_nonneg_l; [lia|]. rewrite pow4. apply side_le; lia.
  - lia.
  - apply npix_small.
  - intros p Hp. apply roi_label in Hp. pose proof (bsum_range l k p K1) as R1.
    split; [|exact R1]. apply fblock_counts; auto.
  - cbv zeta. erewrite (exact_roi_ext (exact_block z l k)).
    2:{ intros p Hp. rewrite !exact_block_bsum by assumption. instantiate (1 := fun p => IZR (bsum l k p) * bpow radix2 (- Z.of_nat l)). reflexivity. }
    assert (EM : IZR (2 ^ Z.of_nat l * M) * bpow radix2 (- Z.of_nat l) = IZR M).
    { rewrite mult_IZR, <- bpow_IZR by lia. replace (bpow radix2 (Z.of_nat l) * IZR M * bpow radix2 (- Z.of_nat l)) with (IZR M * (bpow radix2 (Z.of_nat l) * bpow radix2 (- Z.of_nat l))) by ring.
      rewrite <- bpow_plus. replace (Z.of_nat l + - Z.of_nat l)%Z with 0%Z by lia. cbn [bpow]. ring. }
    rewrite EM in B. repeat split; auto; try apply B. rewrite <- M_F64. apply rnd_le, B.
Qed.

Variable i : nat.
Hypothesis Hreach : ((i + 1) * 2 ^ l <= length z)%nat.
Hypothesis Hshort : (Z.of_nat (length z) < 2 ^ 53)%Z.
Lemma reach_pairs : block_pairs z l i <> [] /\ (Z.of_nat (length (block_pairs z l i)) < 2 ^ 53)%Z.
Proof.
  unfold block_pairs. rewrite seq_length. pose proof (pow2_pos l) as P2.
  pose proof (Nat.mul_div_le (length z) (2 ^ l) ltac:(lia)) as D. pose proof (Nat.mul_succ_div_gt (length z) (2 ^ l) ltac:(lia)) as D2.
  set (m := (length z / 2 ^ l)%nat) in *. assert (i < m)%nat by nia. assert (m <= length z)%nat by nia. split; [|lia].
  destruct (m - i)%nat eqn:E; [lia|discriminate].
Qed.
Lemma bound_ok c : (1 <= c <= 2 ^ 53)%Z -> 1 <= IZR c <= bpow radix2 1022.
Proof.
  intros H. split; [apply IZR_le; lia|]. apply Rle_trans with (bpow radix2 53); [|apply bpow_le; lia].
  rewrite bpow_IZR by lia. apply IZR_le. lia.
Qed.
Lemma counts_close : let n := INR (length (block_pairs z l i)) in
  is_finite (float_G labels images l i r) = true /\ is_finite (float_past labels images l i r) = true /\ is_finite (float_fut labels images l i r) = true /\
  Rabs (B2R (float_G labels images l i r) - exact_G labels z l i r) <= (n + 14) / 2 * bpow radix2 (-53) * IZR (M * M) /\
  Rabs (B2R (float_past labels images l i r) - exact_past labels z l i r) <= (n + 14) / 2 * bpow radix2 (-53) * IZR M /\
  Rabs (B2R (float_fut labels images l i r) - exact_fut labels z l i r) <= (n + 14) / 2 * bpow radix2 (-53) * IZR M.
Proof.
  destruct reach_pairs as [Hne Hsm]. unfold float_G, float_past, float_fut. rewrite pairs_counts.
  assert (HM2 : (1 <= M * M <= 2 ^ 53)%Z) by (assert (1 <= 4 ^ Z.of_nat l)%Z by (pose proof (Z.pow_pos_nonneg 4 (Z.of_nat l)); lia); nia).
  pose proof M_small.
  destruct (mean_close (block_pairs z l i) (fun k => froi labels (fun p => fmul (fblock images l k p) (fblock images l (k + i) p)) r)
     (fun k => exact_roi labels (fun p => exact_block z l k p * exact_block z l (k + i) p) r) (IZR (M * M)) Hne Hsm (bound_ok _ HM2)) as [F1 E1].
  { intros k Hk. apply roi_G. exact Hk. }
  destruct (mean_close (block_pairs z l i) (fun k => froi labels (fblock images l k) r)
     (fun k => exact_roi labels (exact_block z l k) r) (IZR M) Hne Hsm (bound_ok M ltac:(lia))) as [F2 E2].
  { intros k Hk. apply roi_P. apply (pair_complete i k Hk). }
  destruct (mean_close (block_pairs z l i) (fun k => froi labels (fblock images l (k + i)) r)
     (fun k => exact_roi labels (exact_block z l (k + i)) r) (IZR M) Hne Hsm (bound_ok M ltac:(lia))) as [F3 E3].
  { intros k Hk. apply roi_P. apply (pair_complete i k Hk). }
  cbv zeta. repeat split; assumption.
Qed.
End Counts.

