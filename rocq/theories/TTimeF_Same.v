(* Dark, static and uniform images in the float two-time correlator. *)
From Coq Require Import Reals.
From Flocq Require Import Core Relative IEEE754.BinarySingleNaN.
From Verif Require Import Common F64 RunMean_Spec RunMean_Proofs MultiTau_Model MultiTau_Spec MultiTau_Labels MultiTau_Proofs MultiTau_Main.
From Verif Require Import MTauF_Spec MTauF_Acc MTauF_G2 TTimeF_Spec TTimeF_Acc.
From Coq Require Import ZifyBool ZifyNat Lra Lia.
Local Open Scope R_scope.

Lemma isz_zero (x : f64) e : isz x 0 e -> exists s, x = B754_zero s.
Proof.
  intros [F E]. rewrite Rmult_0_l in E. destruct x as [s|s| |s m e' b]; try discriminate; [eauto|]. exfalso.
  revert E. cbn [B2R]. unfold F2R. cbn [Fnum Fexp]. apply Rmult_integral_contrapositive_currified; [|apply Rgt_not_eq, bpow_gt_0]. destruct s; cbn; apply IZR_neq; discriminate.
Qed.
Lemma zsum_zero {A} (f g : A -> Z) ps : (forall p, In p ps -> (0 <= f p)%Z) -> zsum (map f ps) = 0%Z ->
  (forall p, In p ps -> f p = 0%Z).
Proof.
  induction ps as [|q ps IH]; intros P E p Hp; [destruct Hp|]. change (zsum (map f (q :: ps))) with (f q + zsum (map f ps))%Z in E.
  pose proof (P q (or_introl eq_refl)).
  assert (0 <= zsum (map f ps))%Z.
  { clear - P. induction ps as [|x ps IH]; [cbn; lia|]. change (zsum (map f (x :: ps))) with (f x + zsum (map f ps))%Z.
    assert (0 <= f x)%Z by (apply P; right; left; reflexivity). assert (0 <= zsum (map f ps))%Z; [|lia]. apply IH. intros y [<-|Hy]; apply P; [left; reflexivity|right; right; exact Hy]. }
  destruct Hp as [<-|Hp]; [lia|]. apply IH; [intros; apply P; right; assumption|lia|exact Hp].
Qed.
Lemma zsum_const {A} (f : A -> Z) c ps : (forall p, In p ps -> f p = c) -> zsum (map f ps) = (Z.of_nat (length ps) * c)%Z.
Proof.
  induction ps as [|q ps IH]; intros H; [reflexivity|]. change (zsum (map f (q :: ps))) with (f q + zsum (map f ps))%Z.
  rewrite (H q (or_introl eq_refl)), IH by (intros; apply H; right; assumption). cbn [length]. lia.
Qed.

Section Dark.
Variables (labels : list Z) (z : list (list Z)) (M : Z) (l r : nat).
Let images := map (map f64_of_Z) z.
Hypothesis Hlen : forall im, In im z -> length im = length labels.
Hypothesis HM : forall im x, In im z -> In x im -> (0 <= x <= M)%Z.
Hypothesis HM1 : (1 <= M)%Z.
Hypothesis Hr : (1 <= r <= n_rois labels)%nat.
Let ps := roi_positions labels r.
Let n := Z.of_nat (length ps).
Hypothesis HN : (n * (M * M * 4 ^ Z.of_nat l) <= 2 ^ 53)%Z.

Lemma dark_S1 k : ((k + 1) * 2 ^ l <= length z)%nat -> exact_roi labels (exact_block z l k) r = 0 -> S1 labels z l r k = 0%Z.
Proof.
  intros Hk E. rewrite (exact_S1 labels z M l r Hlen HM) in E by assumption. apply Rmult_integral in E as [E|E].
  - apply Rmult_integral in E as [E|E]; [apply eq_IZR in E; exact E|]. exfalso. revert E. apply Rgt_not_eq, bpow_gt_0.
  - exfalso. revert E. apply Rinv_neq_0_compat. apply IZR_neq. pose proof (roi_inhabited labels r Hr). lia.
Qed.
Lemma tt_dark k k' : ((k + 1) * 2 ^ l <= length z)%nat -> ((k' + 1) * 2 ^ l <= length z)%nat ->
  exact_roi labels (exact_block z l k) r = 0 \/ exact_roi labels (exact_block z l k') r = 0 ->
  float_tt labels images l k k' r = B754_nan.
Proof.
  intros Hk Hk' D.
  assert (R : forall j p, ((j + 1) * 2 ^ l <= length z)%nat -> (0 <= bsum z l j p)%Z) by (intros j p Hj; apply (bsum_range labels z M l Hlen HM HM1); assumption).
  assert (Z2 : S2 labels z l r k k' = 0%Z).
  { unfold S2. fold ps. rewrite (zsum_const _ 0%Z); [lia|]. intros p Hp.
    destruct D as [D|D]; apply dark_S1 in D; try assumption; unfold S1 in D; fold ps in D.
    - rewrite (zsum_zero (bsum z l k) (bsum z l k) ps); auto.
    - rewrite (zsum_zero (bsum z l k') (bsum z l k') ps) by auto. apply Z.mul_0_r. }
  destruct (fsum_isz labels z M l r Hlen HM HM1 Hr HN k Hk) as [F1 E1]. destruct (fsum_isz labels z M l r Hlen HM HM1 Hr HN k' Hk') as [F2 E2].
  pose proof (fsum2_isz labels z M l r Hlen HM HM1 Hr HN k k' Hk Hk') as I3. rewrite Z2 in I3. apply isz_zero in I3 as [s3 I3].
  unfold float_tt. fold images in F1, E1, F2, E2, I3. rewrite I3.
  assert (exists s, fmul (fsum labels (fblock images l k) r) (fsum labels (fblock images l k') r) = B754_zero s) as [s4 I4].
  { destruct D as [D|D]; apply dark_S1 in D; try assumption.
    - rewrite D in E1. destruct (isz_zero _ _ (conj F1 E1)) as [s Es]. rewrite Es. clear - F2.
      destruct (fsum labels (fblock images l k') r); try discriminate; cbn; eauto.
    - rewrite D in E2. destruct (isz_zero _ _ (conj F2 E2)) as [s Es]. rewrite Es. clear - F1.
      destruct (fsum labels (fblock images l k) r); try discriminate; cbn; eauto. }
  rewrite I4. reflexivity.
Qed.

(** ** Uniform ROIs *)
Hypothesis HN2 : (n * n * (M * M * 4 ^ Z.of_nat l) <= 2 ^ 53)%Z.
Hypothesis Huni : forall im p p', In im z -> In p ps -> In p' ps -> nth p im 0%Z = nth p' im 0%Z.
Lemma bsum_uni k p p' : In p ps -> In p' ps -> bsum z l k p = bsum z l k p'.
Proof.
  intros Hp Hp'. unfold bsum. f_equal. apply map_ext_in. intros f Hf. apply Huni; auto. eapply block_In; eassumption.
Qed.
Lemma roi_nonempty : exists p0, In p0 ps.
Proof. clear - Hr. pose proof (roi_inhabited labels r Hr) as H. fold ps in H. destruct ps as [|p ps']; [cbn in H; lia|]. exists p. left; reflexivity. Qed.

Definition recip (n : Z) : f64 := fmul (fdiv fone (f64_of_Z n)) (f64_of_Z n).

Lemma recip_pos m : (1 <= m <= 2 ^ 53)%Z -> B2R (fdiv fone (f64_of_Z m)) = rnd (1 / IZR m) /\ is_finite (fdiv fone (f64_of_Z m)) = true /\ bpow radix2 (-53) <= rnd (1 / IZR m) <= 1.
Proof.
  clear. intros Hm. destruct (f64_of_Z_ok m ltac:(lia)) as [E F].
  assert (B53 : bpow radix2 53 = IZR (2 ^ 53)) by (apply bpow_IZR; lia).
  assert (Rm : 1 <= IZR m <= bpow radix2 53) by (rewrite B53; split; apply IZR_le; lia).
  assert (Q : bpow radix2 (-53) <= 1 / IZR m <= 1).
  { split; [|apply div_le; lra]. change (-53)%Z with (- (53))%Z. rewrite bpow_opp. unfold Rdiv. rewrite Rmult_1_l. apply Rinv_le; lra. }
  assert (QR : bpow radix2 (-53) <= rnd (1 / IZR m) <= 1).
  { split; [apply rnd_ge; [apply bpow_F64; lia|apply Q]|apply rnd_le_g; [apply F64_1|apply Q]]. }
  destruct (fdiv_ok fone (f64_of_Z m) eq_refl) as [A B].
  - rewrite E. lra.
  - rewrite fone_R, E. assert (0 < bpow radix2 (-53)) by apply bpow_gt_0. rewrite Rabs_pos_eq by lra. apply Rle_lt_trans with 1; [apply QR|]. change 1 with (bpow radix2 0). apply bpow_lt. lia.
  - rewrite fone_R, E in A. auto.
Qed.

Lemma recip_range m : (1 <= m <= 2 ^ 53)%Z -> is_finite (recip m) = true /\ 1 - bpow radix2 (-53) <= B2R (recip m) <= 1.
Proof.
  clear. intros Hm. destruct (f64_of_Z_ok m ltac:(lia)) as [E F]. destruct (recip_pos m Hm) as (A & B & _).
  assert (B53 : bpow radix2 53 = IZR (2 ^ 53)) by (apply bpow_IZR; lia).
  assert (Rm : 1 <= IZR m <= bpow radix2 53) by (rewrite B53; split; apply IZR_le; lia).
  assert (Q : bpow radix2 (-53) <= 1 / IZR m).
  { change (-53)%Z with (- (53))%Z. rewrite bpow_opp. unfold Rdiv. rewrite Rmult_1_l. apply Rinv_le; lra. }
  assert (U0 : 0 < bpow radix2 (-53)) by apply bpow_gt_0.
  destruct (rnd_rel (1 / IZR m)) as (e & Be & Ee).
  { rewrite Rabs_pos_eq by lra. apply Rle_trans with (2 := Q). apply bpow_le. lia. }
  apply Rabs_le_inv in Be.
  assert (P : B2R (fdiv fone (f64_of_Z m)) * B2R (f64_of_Z m) = 1 + e) by (rewrite A, Ee, E; field; lra).
  assert (H1 : rnd (1 + bpow radix2 (-53)) = 1).
  { assert (T : B2R (f64_of 1 (-53)) = bpow radix2 (-53)).
    { assert (S : B2SF (f64_of 1 (-53)) = SpecFloat.S754_finite false 4503599627370496 (-105)) by (vm_compute; reflexivity).
      generalize dependent (f64_of 1 (-53)). intros x S. destruct x as [s|s| |s m0 e0 b0]; try discriminate. cbn [B2SF] in S. injection S as -> -> ->.
      cbn [B2R]. unfold F2R. cbn [Fnum Fexp cond_Zopp]. change (IZR (Z.pos 4503599627370496)) with (IZR (2 ^ 52)). rewrite <- bpow_IZR by lia. rewrite <- bpow_plus. reflexivity. }
    assert (S : fadd fone (f64_of 1 (-53)) = fone).
    { apply B2SF_inj. vm_compute. reflexivity. }
    destruct (fadd_ok fone (f64_of 1 (-53)) eq_refl) as [G _].
    - vm_compute. reflexivity.
    - rewrite fone_R, T. apply bound1022. rewrite Rabs_pos_eq by lra. apply Rle_trans with (bpow radix2 1); [change (bpow radix2 1) with 2|apply bpow_le; lia].
      assert (bpow radix2 (-53) <= bpow radix2 0) by (apply bpow_le; lia). change (bpow radix2 0) with 1 in *. lra.
    - rewrite S, fone_R, T in G. symmetry. exact G. }
  assert (G : 1 - bpow radix2 (-53) <= rnd (1 + e) <= 1).
  { split.
    - apply rnd_ge; [|lra]. replace (1 - bpow radix2 (-53)) with (IZR (2 ^ 53 - 1) * bpow radix2 (-53)).
      + apply scaled_format; lia.
      + rewrite minus_IZR, <- B53, Rmult_minus_distr_r, <- bpow_plus, Rmult_1_l. reflexivity.
    - rewrite <- H1. apply rnd_le. lra. }
  destruct (fmul_ok (fdiv fone (f64_of_Z m)) (f64_of_Z m) B F) as [C D].
  - rewrite P. assert (bpow radix2 (-53) <= bpow radix2 0) by (apply bpow_le; lia). change (bpow radix2 0) with 1 in *.
    rewrite Rabs_pos_eq by lra. apply Rle_lt_trans with 1; [apply G|]. change 1 with (bpow radix2 0). apply bpow_lt. lia.
  - unfold recip. rewrite C, P. split; [exact D|exact G].
Qed.

Lemma tt_uniform k k' : ((k + 1) * 2 ^ l <= length z)%nat -> ((k' + 1) * 2 ^ l <= length z)%nat ->
  0 < exact_roi labels (exact_block z l k) r -> 0 < exact_roi labels (exact_block z l k') r ->
  float_tt labels images l k k' r = recip n.
Proof.
  intros Hk Hk' P1 P2. destruct roi_nonempty as [p0 Hp0].
  pose proof (l26 labels z M l r Hlen HM HM1 Hr HN) as L26.
  pose proof (n53 labels z M l r Hlen HM HM1 Hr HN) as N53. fold ps n in N53.
  assert (N1 : (1 <= n)%Z) by (clear - Hr; pose proof (roi_inhabited labels r Hr); unfold n, ps; lia).
  set (s := bsum z l k p0). set (s' := bsum z l k' p0).
  assert (C1 : S1 labels z l r k = (n * s)%Z) by (unfold S1; fold ps; rewrite (zsum_const _ s); [reflexivity|intros; apply bsum_uni; assumption]).
  assert (C2 : S1 labels z l r k' = (n * s')%Z) by (unfold S1; fold ps; rewrite (zsum_const _ s'); [reflexivity|intros; apply bsum_uni; assumption]).
  assert (C3 : S2 labels z l r k k' = (n * (s * s'))%Z).
  { unfold S2; fold ps; rewrite (zsum_const _ (s * s')%Z); [reflexivity|]. intros p Hp. unfold s, s'. rewrite (bsum_uni k p p0), (bsum_uni k' p p0) by assumption. reflexivity. }
  pose proof (prod_range labels z M l r Hlen HM HM1 Hr HN k k' p0 Hk Hk') as RP. fold s s' in RP.
  assert (R1 : (0 <= s)%Z) by (apply (bsum_range labels z M l Hlen HM HM1); assumption).
  assert (R2 : (0 <= s')%Z) by (apply (bsum_range labels z M l Hlen HM HM1); assumption).
  rewrite (exact_S1 labels z M l r Hlen HM) in P1, P2 by assumption. fold ps n in P1, P2. rewrite C1 in P1. rewrite C2 in P2.
  assert (A1 : (1 <= s)%Z) by (destruct (Z.eq_dec s 0) as [E|]; [rewrite E, Z.mul_0_r in P1; unfold Rdiv in P1; rewrite !Rmult_0_l in P1; lra|lia]).
  assert (A2 : (1 <= s')%Z) by (destruct (Z.eq_dec s' 0) as [E|]; [rewrite E, Z.mul_0_r in P2; unfold Rdiv in P2; rewrite !Rmult_0_l in P2; lra|lia]).
  pose proof (fsum_isz labels z M l r Hlen HM HM1 Hr HN k Hk) as I1. pose proof (fsum_isz labels z M l r Hlen HM HM1 Hr HN k' Hk') as I2.
  pose proof (fsum2_isz labels z M l r Hlen HM HM1 Hr HN k k' Hk Hk') as I3. rewrite C1 in I1. rewrite C2 in I2. rewrite C3 in I3. fold images in I1, I2, I3.
  assert (BD : (n * s * (n * s') <= 2 ^ 53)%Z).
  { refine (Z.le_trans _ _ _ _ HN2). replace (n * s * (n * s'))%Z with (n * n * (s * s'))%Z by ring. apply Z.mul_le_mono_nonneg_l; [nia|lia]. }
  assert (BD0 : (0 <= n * s * (n * s'))%Z) by nia.
  pose proof (isz_mul _ _ _ _ _ _ I1 I2 ltac:(lia) ltac:(lia)) as I4.
  unfold float_tt. fold ps n. unfold recip. f_equal.
  destruct I3 as [F3 E3]. destruct I4 as [F4 E4].
  set (s3 := fsum labels (fun p => fmul (fblock images l k p) (fblock images l k' p)) r) in *.
  set (d := fmul (fsum labels (fblock images l k) r) (fsum labels (fblock images l k') r)) in *.
  assert (W : bpow radix2 (- Z.of_nat l + - Z.of_nat l) <> 0) by (apply Rgt_not_eq, bpow_gt_0).
  assert (Q : B2R s3 / B2R d = 1 / IZR n).
  { rewrite E3, E4, !mult_IZR. assert (IZR n <> 0) by (apply IZR_neq; lia). assert (IZR s <> 0) by (apply IZR_neq; lia). assert (IZR s' <> 0) by (apply IZR_neq; lia).
    field. auto. }
  destruct (recip_pos n ltac:(lia)) as (G1 & G2 & G3). assert (U0 : 0 < bpow radix2 (-53)) by apply bpow_gt_0.
  destruct (fdiv_ok s3 d F3) as [H1 H2].
  - rewrite E4. apply Rmult_integral_contrapositive_currified; [|exact W]. apply IZR_neq. nia.
  - rewrite Q. rewrite Rabs_pos_eq by lra. apply Rle_lt_trans with 1; [apply G3|]. change 1 with (bpow radix2 0). apply bpow_lt. lia.
  - rewrite Q in H1. apply same; [exact H2|exact G2|rewrite H1, G1; reflexivity|rewrite H1; lra].
Qed.
End Dark.

(** ** Static counts *)
Lemma count_half c : (0 <= c <= 2 ^ 53)%Z -> fdiv (fadd (f64_of_Z c) (f64_of_Z c)) (f64_of_Z 2) = f64_of_Z c.
Proof.
  intros H. destruct (Z.eq_dec c 0) as [->|N]; [apply B2SF_inj; vm_compute; reflexivity|].
  destruct (f64_of_Z_ok c ltac:(lia)) as [E F]. apply twice_half; [exact F|]. rewrite E. split; [apply IZR_lt; lia|].
  apply Rle_trans with (bpow radix2 53); [rewrite bpow_IZR by lia; apply IZR_le; lia|apply bpow_le; lia].
Qed.
Section StaticCounts.
Variables (labels im : list Z) (M : Z) (n : nat).
Hypothesis Hlen : length im = length labels.
Hypothesis HM : forall x, In x im -> (0 <= x <= M)%Z.
Hypothesis HM53 : (M <= 2 ^ 53)%Z.
Let images := map (map f64_of_Z) (repeat im n).
Lemma fblock_same l : forall k p, ((k + 1) * 2 ^ l <= n)%nat -> (p < length labels)%nat -> fblock images l k p = f64_of_Z (nth p im 0%Z).
Proof.
  induction l as [|l IH]; intros k p Hk Hp.
  - cbn [fblock Nat.pow] in *. unfold images. rewrite (nth_indep _ _ (map f64_of_Z [])) by (rewrite map_length, repeat_length; lia). rewrite map_nth.
    assert (E : nth k (repeat im n) [] = im) by (apply (repeat_spec n im), nth_In; rewrite repeat_length; lia). rewrite E.
    rewrite (nth_indep _ _ (f64_of_Z 0)) by (rewrite map_length; lia). apply map_nth.
  - cbn [fblock]. cbn [Nat.pow] in Hk. rewrite !IH by (auto; nia). apply count_half.
    assert (In (nth p im 0%Z) im) by (apply nth_In; lia). specialize (HM _ H). lia.
Qed.
Lemma tt_static l k k' r : ((k + 1) * 2 ^ l <= n)%nat -> ((k' + 1) * 2 ^ l <= n)%nat ->
  float_tt labels images l k k' r = float_tt labels images 0 0 0 r.
Proof.
  intros Hk Hk'. pose proof (Nat.pow_nonzero 2 l ltac:(lia)) as P2. assert (H0 : ((0 + 1) * 2 ^ 0 <= n)%nat) by (cbn; nia).
  assert (PX : forall p, In p (roi_positions labels r) -> (p < length labels)%nat).
  { intros p H. apply filter_In in H as [H _]. apply in_seq in H. lia. }
  assert (EX : forall f g, (forall p, In p (roi_positions labels r) -> f p = g p) -> fsum labels f r = fsum labels g r).
  { intros f g H. unfold fsum. f_equal. apply map_ext_in. exact H. }
  unfold float_tt. f_equal. f_equal; [|f_equal].
  - apply EX. intros p Hp. rewrite (fblock_same l), (fblock_same l), (fblock_same 0) by auto. reflexivity.
  - apply EX. intros p Hp. rewrite (fblock_same l), (fblock_same 0) by auto. reflexivity.
  - apply EX. intros p Hp. rewrite (fblock_same l), (fblock_same 0) by auto. reflexivity.
Qed.
End StaticCounts.
