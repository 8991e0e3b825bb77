(* Numbers of the float two-time correlator: infinities and NaN, exact sums of counts, distance from the exact value,
   static and uniform images. *)
From Coq Require Import Reals.
From Flocq Require Import Core Relative IEEE754.BinarySingleNaN.
From Verif Require Import Common F64 RunMean_Spec RunMean_Proofs MultiTau_Model MultiTau_Spec MultiTau_Labels MultiTau_Proofs MultiTau_Main.
From Verif Require Import MTauF_Spec MTauF_Acc MTauF_G2 TTimeF_Spec.
From Coq Require Import ZifyBool ZifyNat Lra Lia.
Local Open Scope R_scope.

(** ** Bad pixels *)
Lemma fdiv_bad (x y : f64) : is_finite x = false -> is_finite y = false -> fdiv x y = B754_nan.
Proof. destruct x as [s|s| |s m e b], y as [s'|s'| |s' m' e' b']; cbn; intros; try discriminate; reflexivity. Qed.
Lemma bad_if (a b : bool) : (a = true -> b = true) -> b = false -> a = false.
Proof. destruct a, b; intros H; auto; discriminate (H eq_refl). Qed.
Lemma tt_bad labels images l k k' r t p :
  In p (roi_positions labels r) ->
  (k * 2 ^ l <= t < (k + 1) * 2 ^ l \/ k' * 2 ^ l <= t < (k' + 1) * 2 ^ l)%nat ->
  is_finite (nth p (nth t images []) fzero) = false -> float_tt labels images l k k' r = B754_nan.
Proof.
  intros Hp Ht Hn. unfold float_tt. rewrite fdiv_bad; [reflexivity| |].
  - revert Hn. apply bad_if. intros H. destruct (sum_nf _ _ H) as [_ A]. specialize (A _ (in_map _ _ _ Hp)). cbv beta in A.
    apply fmul_nf in A. destruct A as [A1 A2].
    destruct Ht as [Ht|Ht]; [exact (fblock_nf _ _ _ _ A1 _ Ht)|exact (fblock_nf _ _ _ _ A2 _ Ht)].
  - revert Hn. apply bad_if. intros H. apply fmul_nf in H. destruct H as [H1 H2].
    destruct Ht as [Ht|Ht]; [destruct (sum_nf _ _ H1) as [_ A]|destruct (sum_nf _ _ H2) as [_ A]];
      exact (fblock_nf _ _ _ _ (A _ (in_map _ _ _ Hp)) _ Ht).
Qed.

(** ** The diagonal *)
Lemma diag_back (x : f64) : is_finite x = true -> Rabs (B2R x) < bpow radix2 1023 -> fsub (fadd x x) x = plain_zero x.
Proof.
  intros F B. destruct x as [s|s| |s m e b]; try discriminate; [destruct s; reflexivity|]. cbn [plain_zero].
  set (x := B754_finite s m e b) in *.
  assert (N : B2R x <> 0). { unfold x. cbn [B2R]. unfold F2R. cbn [Fnum Fexp]. apply Rmult_integral_contrapositive_currified; [|apply Rgt_not_eq, bpow_gt_0]. destruct s; cbn; apply IZR_neq; discriminate. }
  assert (D : rnd (B2R x + B2R x) = 2 * B2R x) by (replace (B2R x + B2R x) with (2 * B2R x) by ring; apply rnd_id, F64_double, B2R_format).
  destruct (fadd_ok x x F F) as [A FA].
  { rewrite D, Rabs_mult, (Rabs_pos_eq 2) by lra. replace (bpow radix2 1024) with (2 * bpow radix2 1023) by (change 2 with (bpow radix2 1); rewrite <- bpow_plus; reflexivity). lra. }
  rewrite D in A.
  assert (S : rnd (B2R (fadd x x) - B2R x) = B2R x) by (rewrite A; replace (2 * B2R x - B2R x) with (B2R x) by ring; apply rnd_id, B2R_format).
  destruct (fsub_ok (fadd x x) x FA F) as [C FC]; [rewrite S; apply abs_B2R_lt_emax|].
  rewrite S in C. apply same; [exact (proj1 FC)|exact F|exact C|rewrite C; exact N].
Qed.
Lemma diag_inf s : fsub (fadd (B754_infinity s) (B754_infinity s)) (B754_infinity s) = (B754_nan : f64).
Proof. destruct s; reflexivity. Qed.
Lemma plain_R (x : f64) : B2R (plain_zero x) = B2R x /\ is_finite (plain_zero x) = is_finite x.
Proof. destruct x as [s|s| |s m e b]; split; reflexivity. Qed.
Lemma shown_fin a b (x : f64) : is_finite x = true -> Rabs (B2R x) < bpow radix2 1023 -> shown a b x = plain_zero x.
Proof. intros F B. unfold shown. destruct (a =? b)%nat; [apply diag_back; assumption|reflexivity]. Qed.

Lemma rnd_rel x : bpow radix2 (-1022) <= Rabs x -> exists e, Rabs e <= bpow radix2 (-53) /\ rnd x = x * (1 + e).
Proof.
  intros H. destruct (relative_error_N_FLT_ex radix2 (-1074) 53 ltac:(unfold Prec_gt_0; lia) (fun z => negb (Z.even z)) x H) as (e & B & E).
  exists e. split; [|exact E]. refine (Rle_trans _ _ _ B _). change (-53 + 1)%Z with (-52)%Z.
  change (/ 2) with (bpow radix2 (-1)). rewrite <- bpow_plus. apply bpow_le. lia.
Qed.

(** ** Sums of counts are exact *)
Section Counts.
Variables (labels : list Z) (z : list (list Z)) (M : Z) (l r : nat).
Let images := map (map f64_of_Z) z.
Hypothesis Hlen : forall im, In im z -> length im = length labels.
Hypothesis HM : forall im x, In im z -> In x im -> (0 <= x <= M)%Z.
Hypothesis HM1 : (1 <= M)%Z.
Hypothesis Hr : (1 <= r <= n_rois labels)%nat.
Let ps := roi_positions labels r.
Let n := Z.of_nat (length ps).
Hypothesis HN : (n * (M * M * 4 ^ Z.of_nat l) <= 2 ^ 53)%Z.

Lemma n1 : (1 <= n)%Z.
Proof. clear HM. pose proof (roi_inhabited labels r Hr). unfold n, ps. lia. Qed.
Lemma HB : (M * M * 4 ^ Z.of_nat l <= 2 ^ 53)%Z.
Proof. pose proof n1. pose proof (Z.pow_pos_nonneg 4 (Z.of_nat l) ltac:(lia) ltac:(lia)). assert (0 <= M * M * 4 ^ Z.of_nat l)%Z by nia. nia. Qed.
Lemma n53 : (n <= 2 ^ 53)%Z.
Proof. apply (npix_small labels z M l Hlen HM HM1 r Hr HN). Qed.
Lemma side : (n * (2 ^ Z.of_nat l * M) <= 2 ^ 53)%Z.
Proof.
  refine (Z.le_trans _ _ _ _ HN). pose proof n1. apply Z.mul_le_mono_nonneg_l; [lia|].
  change 4%Z with (2 * 2)%Z. rewrite Z.pow_mul_l. pose proof (Z.pow_pos_nonneg 2 (Z.of_nat l) ltac:(lia) ltac:(lia)). apply side_le; lia.
Qed.
Lemma l26 : (l <= 26)%nat.
Proof. exact (l_small labels z M l Hlen HM HM1 HB). Qed.

Definition S1 (k : nat) : Z := zsum (map (bsum z l k) ps).
Definition S2 (k k' : nat) : Z := zsum (map (fun p => bsum z l k p * bsum z l k' p)%Z ps).

Lemma zsum_ps (f : nat -> Z) c : (forall p, In p ps -> (0 <= f p <= c)%Z) -> (0 <= zsum (map f ps) <= n * c)%Z.
Proof.
  clear. intros H. unfold n. rewrite <- (map_length f ps). apply zsum_bounds. intros x Hx. apply in_map_iff in Hx as (p & <- & I). auto.
Qed.
Lemma S1_range k : ((k + 1) * 2 ^ l <= length z)%nat -> (0 <= S1 k <= n * (2 ^ Z.of_nat l * M))%Z.
Proof. intros Hk. apply zsum_ps. intros p _. apply (bsum_range labels z M l Hlen HM HM1); assumption. Qed.
Lemma prod_range k k' p : ((k + 1) * 2 ^ l <= length z)%nat -> ((k' + 1) * 2 ^ l <= length z)%nat ->
  (0 <= bsum z l k p * bsum z l k' p <= M * M * 4 ^ Z.of_nat l)%Z.
Proof.
  intros Hk Hk'. assert (R1 : (0 <= bsum z l k p <= 2 ^ Z.of_nat l * M)%Z) by (apply (bsum_range labels z M l Hlen HM HM1); assumption).
  assert (R2 : (0 <= bsum z l k' p <= 2 ^ Z.of_nat l * M)%Z) by (apply (bsum_range labels z M l Hlen HM HM1); assumption).
  change 4%Z with (2 * 2)%Z. rewrite Z.pow_mul_l. split; [nia|].
  replace (M * M * (2 ^ Z.of_nat l * 2 ^ Z.of_nat l))%Z with ((2 ^ Z.of_nat l * M) * (2 ^ Z.of_nat l * M))%Z by ring.
  apply Z.mul_le_mono_nonneg; lia.
Qed.
Lemma S2_range k k' : ((k + 1) * 2 ^ l <= length z)%nat -> ((k' + 1) * 2 ^ l <= length z)%nat -> (0 <= S2 k k' <= 2 ^ 53)%Z.
Proof.
  intros Hk Hk'. assert (0 <= S2 k k' <= n * (M * M * 4 ^ Z.of_nat l))%Z; [|lia].
  apply zsum_ps. intros p _. apply prod_range; assumption.
Qed.
Lemma px p : In p ps -> (p < length labels)%nat.
Proof. clear. intros H. apply filter_In in H as [H _]. apply in_seq in H. lia. Qed.
Lemma block_isz k p : ((k + 1) * 2 ^ l <= length z)%nat -> In p ps -> isz (fblock images l k p) (bsum z l k p) (- Z.of_nat l).
Proof. intros Hk Hp. apply (fblock_counts labels z M l Hlen HM HM1 HB); [lia|exact Hk|apply px; exact Hp]. Qed.
Lemma fsum_isz k : ((k + 1) * 2 ^ l <= length z)%nat -> isz (fsum labels (fblock images l k) r) (S1 k) (- Z.of_nat l).
Proof.
  intros Hk. pose proof l26. pose proof side. pose proof (S1_range k Hk) as RS.
  change (S1 k) with (0 + zsum (map (bsum z l k) ps))%Z. unfold S1 in RS. apply isz_sum; try lia.
  - split; [reflexivity|]. cbn [B2R fzero]. ring.
  - intros p Hp. split; [apply block_isz; assumption|]. apply (bsum_range labels z M l Hlen HM HM1); assumption.
Qed.
Lemma fsum2_isz k k' : ((k + 1) * 2 ^ l <= length z)%nat -> ((k' + 1) * 2 ^ l <= length z)%nat ->
  isz (fsum labels (fun p => fmul (fblock images l k p) (fblock images l k' p)) r) (S2 k k') (- Z.of_nat l + - Z.of_nat l).
Proof.
  intros Hk Hk'. pose proof l26. pose proof (S2_range k k' Hk Hk') as RS. pose proof HB.
  change (S2 k k') with (0 + zsum (map (fun p => bsum z l k p * bsum z l k' p)%Z ps))%Z. unfold S2 in RS. apply isz_sum; try lia.
  - split; [reflexivity|]. cbn [B2R fzero]. ring.
  - intros p Hp. pose proof (prod_range k k' p Hk Hk') as RP. split; [|apply RP].
    apply isz_mul; [apply block_isz; assumption|apply block_isz; assumption|lia|lia].
Qed.

(** ** the exact value in the same integers *)
Lemma exact_S1 k : ((k + 1) * 2 ^ l <= length z)%nat -> exact_roi labels (exact_block z l k) r = IZR (S1 k) * bpow radix2 (- Z.of_nat l) / IZR n.
Proof.
  intros Hk. unfold exact_roi, exact_mean. fold ps. rewrite map_length. unfold n. rewrite <- INR_IZR_INZ. f_equal. unfold S1. rewrite <- rsum_scaled. f_equal.
  apply map_ext. intros p. apply (exact_block_bsum labels z M l Hlen HM); assumption.
Qed.
Lemma exact_S2 k k' : ((k + 1) * 2 ^ l <= length z)%nat -> ((k' + 1) * 2 ^ l <= length z)%nat ->
  exact_roi labels (fun p => exact_block z l k p * exact_block z l k' p) r = IZR (S2 k k') * (bpow radix2 (- Z.of_nat l) * bpow radix2 (- Z.of_nat l)) / IZR n.
Proof.
  intros Hk Hk'. unfold exact_roi, exact_mean. fold ps. rewrite map_length. unfold n. rewrite <- INR_IZR_INZ. f_equal.
  rewrite <- bpow_plus. unfold S2. rewrite <- rsum_scaled. f_equal.
  apply map_ext. intros p. rewrite mult_IZR, bpow_plus.
  rewrite !(exact_block_bsum labels z M l Hlen HM) by assumption. ring.
Qed.
Lemma bpow_ne e : bpow radix2 e <> 0.
Proof. apply Rgt_not_eq, bpow_gt_0. Qed.
Lemma exact_ratio k k' : ((k + 1) * 2 ^ l <= length z)%nat -> ((k' + 1) * 2 ^ l <= length z)%nat -> (S1 k <> 0)%Z -> (S1 k' <> 0)%Z ->
  exact_tt labels z l k k' r = IZR n * (IZR (S2 k k') / (IZR (S1 k) * IZR (S1 k'))).
Proof.
  intros Hk Hk' N1 N2. unfold exact_tt. rewrite !exact_S1, exact_S2 by assumption. pose proof n1. pose proof (bpow_ne (- Z.of_nat l)).
  field. repeat split; try (apply IZR_neq; lia). assumption.
Qed.

Lemma tt_close k k' : ((k + 1) * 2 ^ l <= length z)%nat -> ((k' + 1) * 2 ^ l <= length z)%nat ->
  0 < exact_roi labels (exact_block z l k) r -> 0 < exact_roi labels (exact_block z l k') r ->
  let x := float_tt labels images l k k' r in
  is_finite x = true /\ Rabs (B2R x - exact_tt labels z l k k' r) <= bpow radix2 (-51) * exact_tt labels z l k k' r /\
  0 <= exact_tt labels z l k k' r <= bpow radix2 106.
Proof.
  intros Hk Hk' P1 P2. pose proof l26 as L26. pose proof n1 as N1. pose proof n53 as N53. pose proof side as SD.
  pose proof (S1_range k Hk) as R1. pose proof (S1_range k' Hk') as R2. pose proof (S2_range k k' Hk Hk') as R3.
  assert (A1 : (1 <= S1 k)%Z).
  { destruct (Z.eq_dec (S1 k) 0) as [E|]; [|lia]. rewrite exact_S1, E in P1 by assumption. unfold Rdiv in P1. rewrite !Rmult_0_l in P1. lra. }
  assert (A2 : (1 <= S1 k')%Z).
  { destruct (Z.eq_dec (S1 k') 0) as [E|]; [|lia]. rewrite exact_S1, E in P2 by assumption. unfold Rdiv in P2. rewrite !Rmult_0_l in P2. lra. }
  rewrite exact_ratio by (assumption || lia).
  destruct (fsum_isz k Hk) as [F1 E1]. destruct (fsum_isz k' Hk') as [F2 E2]. destruct (fsum2_isz k k' Hk Hk') as [F3 E3].
  cbv zeta. unfold float_tt. fold ps. fold n.
  set (s1 := fsum labels (fblock images l k) r) in *. set (s2 := fsum labels (fblock images l k') r) in *.
  set (s3 := fsum labels (fun p => fmul (fblock images l k p) (fblock images l k' p)) r) in *.
  rewrite bpow_plus in E3. set (w := bpow radix2 (- Z.of_nat l)) in *.
  assert (W : bpow radix2 (-26) <= w <= 1) by (split; [apply bpow_le; lia|change 1 with (bpow radix2 0); apply bpow_le; lia]).
  set (a := IZR (S1 k)) in *. set (b := IZR (S1 k')) in *. set (c := IZR (S2 k k')) in *.
  assert (B53 : bpow radix2 53 = IZR (2 ^ 53)) by (apply bpow_IZR; lia).
  assert (Ra : 1 <= a <= bpow radix2 53) by (rewrite B53; split; apply IZR_le; lia).
  assert (Rb : 1 <= b <= bpow radix2 53) by (rewrite B53; split; apply IZR_le; lia).
  assert (Rc : 0 <= c <= bpow radix2 53) by (rewrite B53; split; apply IZR_le; lia).
  assert (Rn : 1 <= IZR n <= bpow radix2 53) by (rewrite B53; split; apply IZR_le; lia).
  assert (W0 : 0 < bpow radix2 (-26)) by apply bpow_gt_0.
  assert (Rww : bpow radix2 (-52) <= w * w <= 1).
  { split; [|nra]. change (-52)%Z with (-26 + -26)%Z. rewrite bpow_plus. apply Rmult_le_compat; lra. }
  assert (Rab : 1 <= a * b <= bpow radix2 106).
  { split; [nra|]. change 106%Z with (53 + 53)%Z. rewrite bpow_plus. apply Rmult_le_compat; lra. }
  assert (D : B2R s1 * B2R s2 = a * b * (w * w)) by (rewrite E1, E2; ring).
  assert (Dl : bpow radix2 (-52) <= a * b * (w * w)) by (assert (0 < bpow radix2 (-52)) by apply bpow_gt_0; nra).
  assert (Du : a * b * (w * w) <= bpow radix2 106) by nra.
  assert (U0 : 0 < bpow radix2 (-53)) by apply bpow_gt_0.
  assert (U1 : bpow radix2 (-53) <= / 1024) by (change (/ 1024) with (bpow radix2 (-10)); apply bpow_le; lia).
  set (u := bpow radix2 (-53)) in *.
  assert (B52 : 0 < bpow radix2 (-52)) by apply bpow_gt_0.
  destruct (rnd_rel (B2R s1 * B2R s2)) as (e1 & Be1 & Ee1).
  { rewrite D, Rabs_pos_eq by lra. apply Rle_trans with (2 := Dl). apply bpow_le. lia. }
  destruct (fmul_ok s1 s2 F1 F2) as [Dd Fd].
  { apply bound1022. rewrite D, Rabs_pos_eq by lra. apply Rle_trans with (1 := Du). apply bpow_le. lia. }
  rewrite Ee1, D in Dd. set (d := fmul s1 s2) in *. apply Rabs_le_inv in Be1. fold u in Be1.
  assert (Dd0 : 0 < B2R d) by (rewrite Dd; apply Rmult_lt_0_compat; lra).
  set (Q := c / (a * b)). set (y := B2R s3 / B2R d).
  assert (Ey : y = Q / (1 + e1)) by (unfold y, Q; rewrite E3, Dd; field; repeat split; lra).
  assert (Q0 : 0 <= Q). { unfold Q, Rdiv. apply Rmult_le_pos; [lra|]. left; apply Rinv_0_lt_compat; lra. }
  assert (Qu : Q <= bpow radix2 53) by (unfold Q; apply div_le; [lra|]; assert (0 < bpow radix2 53) by apply bpow_gt_0; nra).
  assert (I1 : 1 - u <= / (1 + e1) <= 1 + 2 * u).
  { assert (H : (1 + e1) * / (1 + e1) = 1) by (apply Rinv_r; lra). set (v := / (1 + e1)) in *.
    assert (0 < v) by (apply Rinv_0_lt_compat; lra). split; nra. }
  assert (Yu : 0 <= y <= bpow radix2 54).
  { rewrite Ey. unfold Rdiv. split; [nra|]. change 54%Z with (53 + 1)%Z. rewrite bpow_plus. change (bpow radix2 1) with 2.
    apply Rmult_le_compat; lra. }
  assert (NQ : 0 <= IZR n * Q <= bpow radix2 106).
  { split; [nra|]. change 106%Z with (53 + 53)%Z. rewrite bpow_plus. apply Rmult_le_compat; lra. }
  destruct (fdiv_ok s3 d F3) as [Dq Fq]; [lra| |].
  { apply bound1022. fold y. rewrite Rabs_pos_eq by lra. apply Rle_trans with (1 := proj2 Yu). apply bpow_le. lia. }
  fold y in Dq. set (q := fdiv s3 d) in *.
  destruct (f64_of_Z_ok n) as [En Fn]; [lia|].
  assert (Hq : exists e2, Rabs e2 <= u /\ B2R q = y * (1 + e2)).
  { destruct (Req_dec c 0) as [C0|C0].
    - exists 0. split; [rewrite Rabs_R0; lra|]. assert (Y0 : y = 0) by (rewrite Ey; unfold Q; rewrite C0; unfold Rdiv; ring).
      rewrite Dq, Y0, rnd_0. ring.
    - destruct (rnd_rel y) as (e2 & Be2 & Ee2); [|exists e2; split; [exact Be2|congruence]].
      assert (C1 : 1 <= c) by (unfold c in *; apply IZR_le; destruct (Z.eq_dec (S2 k k') 0) as [E|]; [rewrite E in C0; lra|lia]).
      rewrite Rabs_pos_eq by lra. apply Rle_trans with (bpow radix2 (-107)); [apply bpow_le; lia|].
      assert (QL : bpow radix2 (-106) <= Q).
      { unfold Q, Rdiv. apply Rle_trans with (/ (a * b)).
        - change (-106)%Z with (- (106))%Z. rewrite bpow_opp. apply Rinv_le; lra.
        - rewrite <- (Rmult_1_l (/ (a * b))) at 1. apply Rmult_le_compat_r; [left; apply Rinv_0_lt_compat; lra|lra]. }
      rewrite Ey. unfold Rdiv. change (-107)%Z with (-106 + -1)%Z. rewrite bpow_plus. change (bpow radix2 (-1)) with (/ 2).
      apply Rmult_le_compat; try lra. apply bpow_ge_0. }
  destruct Hq as (e2 & Be2 & Eq). apply Rabs_le_inv in Be2.
  assert (Hx : exists e3, Rabs e3 <= u /\ rnd (B2R q * IZR n) = B2R q * IZR n * (1 + e3)).
  { destruct (Req_dec c 0) as [C0|C0].
    - exists 0. split; [rewrite Rabs_R0; lra|]. assert (Y0 : y = 0) by (rewrite Ey; unfold Q; rewrite C0; unfold Rdiv; ring).
      rewrite Eq, Y0. replace (0 * (1 + e2) * IZR n) with 0 by ring. rewrite rnd_0. ring.
    - apply rnd_rel.
      assert (C1 : 1 <= c) by (unfold c in *; apply IZR_le; destruct (Z.eq_dec (S2 k k') 0) as [E|]; [rewrite E in C0; lra|lia]).
      assert (QL : bpow radix2 (-106) <= Q).
      { unfold Q, Rdiv. apply Rle_trans with (/ (a * b)).
        - change (-106)%Z with (- (106))%Z. rewrite bpow_opp. apply Rinv_le; lra.
        - rewrite <- (Rmult_1_l (/ (a * b))) at 1. apply Rmult_le_compat_r; [left; apply Rinv_0_lt_compat; lra|lra]. }
      assert (YL : bpow radix2 (-107) <= y).
      { rewrite Ey. unfold Rdiv. change (-107)%Z with (-106 + -1)%Z. rewrite bpow_plus. change (bpow radix2 (-1)) with (/ 2).
        apply Rmult_le_compat; try lra. apply bpow_ge_0. }
      assert (Z0 : 0 < bpow radix2 (-107)) by apply bpow_gt_0.
      assert (QQ : bpow radix2 (-108) <= y * (1 + e2)).
      { change (-108)%Z with (-107 + -1)%Z. rewrite bpow_plus. change (bpow radix2 (-1)) with (/ 2). apply Rmult_le_compat; lra. }
      assert (Z8 : 0 < bpow radix2 (-108)) by apply bpow_gt_0.
      rewrite Eq. assert (T : bpow radix2 (-108) <= y * (1 + e2) * IZR n) by nra.
      rewrite Rabs_pos_eq by lra. apply Rle_trans with (2 := T). apply bpow_le. lia. }
  destruct Hx as (e3 & Be3 & Ex). apply Rabs_le_inv in Be3.
  assert (YN : 0 <= B2R q * IZR n <= bpow radix2 108).
  { rewrite Eq. assert (0 <= y * (1 + e2)) by nra. split; [nra|]. change 108%Z with (54 + 1 + 53)%Z. rewrite 2!bpow_plus. change (bpow radix2 1) with 2.
    apply Rmult_le_compat; try lra. apply Rmult_le_compat; lra. }
  destruct (fmul_ok q (f64_of_Z n) Fq Fn) as [Dx Fx].
  { rewrite En. apply bound1022. rewrite Rabs_pos_eq by lra. apply Rle_trans with (1 := proj2 YN). apply bpow_le. lia. }
  split; [exact Fx|]. split; [|exact NQ].
  rewrite Dx, En, Ex, Eq, Ey. set (g := IZR n * Q) in *. unfold Rdiv.
  set (v := / (1 + e1)) in *.
  replace (Q * v * (1 + e2) * IZR n * (1 + e3) - g) with (g * (v * ((1 + e2) * (1 + e3)) - 1)) by (unfold g; ring).
  rewrite Rabs_mult, (Rabs_pos_eq g), Rmult_comm by lra. apply Rmult_le_compat_r; [lra|].
  replace (bpow radix2 (-51)) with (4 * u).
  2:{ unfold u. change 4 with (bpow radix2 2). rewrite <- bpow_plus. reflexivity. }
  assert (V : (1 + e1) * v = 1) by (apply Rinv_r; lra). assert (V0 : 0 < v) by (apply Rinv_0_lt_compat; lra).
  set (m := (1 + e2) * (1 + e3)).
  assert (M1 : (1 - u) * (1 - u) <= m <= (1 + u) * (1 + u)) by (unfold m; split; apply Rmult_le_compat; lra).
  assert (UE : - (u * u) <= u * e1 <= u * u).
  { split; [replace (- (u * u)) with (u * - u) by ring|]; apply Rmult_le_compat_l; lra. }
  assert (UU : u * u <= u * / 1024) by (apply Rmult_le_compat_l; lra).
  clear - M1 UE UU U0 U1 Be1 V V0. clearbody m v u.
  apply Rabs_le. split.
  - apply Rmult_le_reg_r with (1 + e1); [lra|]. replace ((v * m - 1) * (1 + e1)) with (m * ((1 + e1) * v) - (1 + e1)) by ring. rewrite V. lra.
  - apply Rmult_le_reg_r with (1 + e1); [lra|]. replace ((v * m - 1) * (1 + e1)) with (m * ((1 + e1) * v) - (1 + e1)) by ring. rewrite V. lra.
Qed.
End Counts.
