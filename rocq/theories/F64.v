(* IEEE-754 binary64 arithmetic (round to nearest even), on top of Flocq, and
   the few rounding facts used by the floating-point theorems.  Nothing in this
   file models a particular function of /repo. *)
From Coq Require Import ZArith Reals Lia Lra Bool.
From Flocq Require Export Core BinarySingleNaN.
From Flocq Require Import Relative.
Open Scope R_scope.

Notation f64 := (binary_float 53 1024).
#[global] Instance prec53 : Prec_gt_0 53 := eq_refl.
#[global] Instance max1024 : Prec_lt_emax 53 1024 := eq_refl.

Definition fadd : f64 -> f64 -> f64 := Bplus mode_NE.
Definition fsub : f64 -> f64 -> f64 := Bminus mode_NE.
Definition fmul : f64 -> f64 -> f64 := Bmult mode_NE.
Definition fdiv : f64 -> f64 -> f64 := Bdiv mode_NE.
Definition fltb : f64 -> f64 -> bool := Bltb.
Definition fleb : f64 -> f64 -> bool := Bleb.
Definition fzero : f64 := B754_zero false.
Definition fone : f64 := Bone.
(** Nearest double to m * 2^e. *)
Definition f64_of (m e : Z) : f64 := binary_normalize 53 1024 _ _ mode_NE m e false.
Definition f64_of_Z (n : Z) : f64 := f64_of n 0.

Notation fmt := (FLT_exp (-1074) 53).
Notation rnd := (round radix2 fmt ZnearestE).
Notation F64 := (generic_format radix2 fmt).
Notation fin x := (is_finite x = true).

#[global] Instance fmt_valid : Valid_exp fmt := FLT_exp_valid (-1074) 53.

Lemma B2R_format (x : f64) : F64 (B2R x).
Proof. exact (generic_format_B2R 53 1024 x). Qed.

Lemma fadd_ok x y : fin x -> fin y -> Rabs (rnd (B2R x + B2R y)) < bpow radix2 1024 ->
  B2R (fadd x y) = rnd (B2R x + B2R y) /\ fin (fadd x y).
Proof.
  intros Hx Hy Hb. pose proof (Bplus_correct 53 1024 _ _ mode_NE x y Hx Hy) as H.
  change (round radix2 (SpecFloat.fexp 53 1024) (round_mode mode_NE)) with rnd in H.
  rewrite Rlt_bool_true in H by exact Hb. tauto.
Qed.
Lemma fsub_ok x y : fin x -> fin y -> Rabs (rnd (B2R x - B2R y)) < bpow radix2 1024 ->
  B2R (fsub x y) = rnd (B2R x - B2R y) /\ fin (fsub x y) /\
  Bsign (fsub x y) = match Rcompare (B2R x - B2R y) 0 with
                     | Eq => andb (Bsign x) (negb (Bsign y)) | Lt => true | Gt => false end.
Proof.
  intros Hx Hy Hb. pose proof (Bminus_correct 53 1024 _ _ mode_NE x y Hx Hy) as H.
  change (round radix2 (SpecFloat.fexp 53 1024) (round_mode mode_NE)) with rnd in H.
  rewrite Rlt_bool_true in H by exact Hb. tauto.
Qed.
Lemma fsub_finite_ok x y : fin x -> fin y -> fin (fsub x y) ->
  B2R (fsub x y) = rnd (B2R x - B2R y) /\ Rabs (rnd (B2R x - B2R y)) < bpow radix2 1024.
Proof.
  intros Hx Hy Hf. pose proof (Bminus_correct 53 1024 _ _ mode_NE x y Hx Hy) as H.
  change (round radix2 (SpecFloat.fexp 53 1024) (round_mode mode_NE)) with rnd in H.
  destruct (Rlt_bool_spec (Rabs (rnd (B2R x - B2R y))) (bpow radix2 1024)) as [Hb|Hb].
  - split; [apply H|exact Hb].
  - destruct H as [H _]. unfold fsub in Hf. rewrite <- is_finite_SF_B2SF, H in Hf.
    destruct (Bsign x); discriminate.
Qed.
Lemma fmul_ok x y : fin x -> fin y -> Rabs (rnd (B2R x * B2R y)) < bpow radix2 1024 ->
  B2R (fmul x y) = rnd (B2R x * B2R y) /\ fin (fmul x y).
Proof.
  intros Hx Hy Hb. pose proof (Bmult_correct 53 1024 _ _ mode_NE x y) as H.
  change (round radix2 (SpecFloat.fexp 53 1024) (round_mode mode_NE)) with rnd in H.
  rewrite Rlt_bool_true in H by exact Hb. rewrite Hx, Hy in H. tauto.
Qed.
Lemma fdiv_ok x y : fin x -> B2R y <> 0 -> Rabs (rnd (B2R x / B2R y)) < bpow radix2 1024 ->
  B2R (fdiv x y) = rnd (B2R x / B2R y) /\ fin (fdiv x y).
Proof.
  intros Hx Hy Hb. pose proof (Bdiv_correct 53 1024 _ _ mode_NE x y Hy) as H.
  change (round radix2 (SpecFloat.fexp 53 1024) (round_mode mode_NE)) with rnd in H.
  rewrite Rlt_bool_true in H by exact Hb. rewrite Hx in H. tauto.
Qed.
Lemma fdiv_finite_ok x y : fin x -> B2R y <> 0 -> fin (fdiv x y) ->
  B2R (fdiv x y) = rnd (B2R x / B2R y).
Proof.
  intros Hx Hy Hf. pose proof (Bdiv_correct 53 1024 _ _ mode_NE x y Hy) as H.
  change (round radix2 (SpecFloat.fexp 53 1024) (round_mode mode_NE)) with rnd in H.
  destruct (Rlt_bool_spec (Rabs (rnd (B2R x / B2R y))) (bpow radix2 1024)) as [Hb|Hb].
  - apply H.
  - unfold fdiv in Hf. rewrite <- is_finite_SF_B2SF, H in Hf. destruct (xorb _ _); discriminate.
Qed.

Lemma fltb_ok x y : fin x -> fin y -> fltb x y = Rlt_bool (B2R x) (B2R y).
Proof. apply Bltb_correct. Qed.
Lemma fleb_ok x y : fin x -> fin y -> fleb x y = Rle_bool (B2R x) (B2R y).
Proof. apply Bleb_correct. Qed.
Lemma fone_R : B2R fone = 1. Proof. apply Bone_correct. Qed.
Lemma fone_fin : fin fone. Proof. reflexivity. Qed.

Lemma in_unit p : fleb fzero p = true -> fltb p fone = true ->
  fin p /\ 0 <= B2R p < 1.
Proof.
  intros H0 H1. assert (Hf : fin p).
  { destruct p as [s|s| |s m e He]; try reflexivity; try (destruct s; discriminate); discriminate. }
  split; [exact Hf|]. rewrite fleb_ok in H0 by (reflexivity || exact Hf).
  rewrite fltb_ok in H1 by (reflexivity || exact Hf). rewrite fone_R in H1.
  destruct (Rle_bool_spec (B2R fzero) (B2R p)) as [A|]; [|discriminate].
  destruct (Rlt_bool_spec (B2R p) 1) as [B|]; [|discriminate]. cbn in A. lra.
Qed.

Lemma bpow_IZR (e : Z) : (0 <= e)%Z -> bpow radix2 e = IZR (2 ^ e).
Proof. intros He. rewrite <- IZR_Zpower by exact He. reflexivity. Qed.

Lemma Z_format n : (Z.abs n <= 2 ^ 53)%Z -> F64 (IZR n).
Proof.
  intros Hn. apply generic_format_FLT. destruct (Z.eq_dec (Z.abs n) (2 ^ 53)) as [He|He].
  - exists (Float radix2 (n / 2) 1); cbn [Fnum Fexp].
    + unfold F2R; cbn [Fnum Fexp]. change (bpow radix2 1) with 2. rewrite <- mult_IZR. f_equal.
      destruct (Zabs_spec n) as [[_ E]|[_ E]]; rewrite E in He.
      * subst n. reflexivity.
      * assert (n = - 2 ^ 53)%Z by lia. subst n. reflexivity.
    + destruct (Zabs_spec n) as [[_ E]|[_ E]]; rewrite E in He.
      * subst n. reflexivity.
      * assert (n = - 2 ^ 53)%Z by lia. subst n. reflexivity.
    + lia.
  - exists (Float radix2 n 0); cbn [Fnum Fexp].
    + unfold F2R; cbn. ring.
    + change (Zpower radix2 53) with (2 ^ 53)%Z. lia.
    + lia.
Qed.
Lemma half_format n : (Z.abs n < 2 ^ 52)%Z -> F64 (IZR n + / 2).
Proof.
  intros Hn. apply generic_format_FLT. exists (Float radix2 (2 * n + 1) (-1)); cbn [Fnum Fexp].
  - unfold F2R; cbn [Fnum Fexp]. change (bpow radix2 (-1)) with (/ 2). rewrite plus_IZR, mult_IZR. field.
  - change (Zpower radix2 53) with (2 ^ 53)%Z. lia.
  - lia.
Qed.

Lemma rnd_id x : F64 x -> rnd x = x.
Proof. intros H. apply round_generic; [typeclasses eauto|exact H]. Qed.
Lemma rnd_le x y : x <= y -> rnd x <= rnd y.
Proof. apply round_le; typeclasses eauto. Qed.
Lemma rnd_ge x y : F64 x -> x <= y -> x <= rnd y.
Proof. intros H Hle. apply round_ge_generic; try typeclasses eauto; assumption. Qed.
Lemma rnd_le_g x y : F64 y -> x <= y -> rnd x <= y.
Proof. intros H Hle. apply round_le_generic; try typeclasses eauto; assumption. Qed.
Lemma F64_0 : F64 0. Proof. apply generic_format_0. Qed.
Lemma F64_1 : F64 1. Proof. apply (Z_format 1). lia. Qed.
Lemma rnd_0 : rnd 0 = 0. Proof. apply round_0. typeclasses eauto. Qed.

Lemma f64_of_Z_ok n : (Z.abs n <= 2 ^ 53)%Z -> B2R (f64_of_Z n) = IZR n /\ fin (f64_of_Z n).
Proof.
  intros Hn. pose proof (binary_normalize_correct 53 1024 _ _ mode_NE n 0 false) as H. cbv zeta in H.
  change (round radix2 (SpecFloat.fexp 53 1024) (round_mode mode_NE)) with rnd in H.
  assert (E : F2R (Float radix2 n 0) = IZR n) by (unfold F2R; cbn; ring).
  rewrite E, (rnd_id _ (Z_format n Hn)) in H.
  rewrite Rlt_bool_true in H.
  - split; apply H.
  - rewrite <- abs_IZR. apply Rle_lt_trans with (IZR (2 ^ 53)); [apply IZR_le; exact Hn|].
    rewrite <- bpow_IZR by lia. apply bpow_lt. lia.
Qed.

(** Truncation of a non-negative double is the floor. *)
Lemma Btrunc_floor (x : f64) : Btrunc x = Ztrunc (B2R x).
Proof.
  apply eq_IZR. rewrite (Btrunc_correct 53 1024 _ x).
  unfold round, F2R, scaled_mantissa, cexp, FIX_exp; cbn [Fnum Fexp].
  cbn [Z.opp bpow]. rewrite !Rmult_1_r. reflexivity.
Qed.
Lemma Ztrunc_lt x n : 0 <= x -> x < IZR n -> (0 <= Ztrunc x < n)%Z.
Proof.
  intros H0 H. rewrite Ztrunc_floor by exact H0. split.
  - apply Zfloor_lub. exact H0.
  - apply lt_IZR. apply Rle_lt_trans with x; [apply Zfloor_lb|exact H].
Qed.

(** Multiplying a number of the unit interval by an integer never rounds up to it. *)
Lemma pred_one_bound p : F64 p -> p < 1 -> p <= 1 - bpow radix2 (-53).
Proof.
  intros Hp H. pose proof (pred_ge_gt radix2 fmt p 1 Hp F64_1 H) as Hle.
  change 1 with (bpow radix2 0) in Hle at 1. rewrite pred_bpow in Hle. exact Hle.
Qed.

Lemma pred_gap x : 0 < x -> F64 x -> bpow radix2 (-1021) <= x ->
  x * (1 - bpow radix2 (-53)) < (pred radix2 fmt x + succ radix2 fmt (pred radix2 fmt x)) / 2.
Proof.
  intros Hx HF Hn.
  rewrite succ_pred by (typeclasses eauto || assumption).
  rewrite pred_eq_pos by lra. unfold pred_pos.
  destruct (mag radix2 x) as [e He]; cbn [mag_val]. specialize (He (Rgt_not_eq _ _ Hx)).
  rewrite Rabs_pos_eq in He by lra. destruct He as [He1 He2].
  assert (Hle : (-1021 < e)%Z).
  { apply (lt_bpow radix2). lra. }
  assert (Hf : (fmt e = e - 53)%Z) by (unfold FLT_exp; lia).
  assert (Hb1 : bpow radix2 (e - 53) = bpow radix2 e * bpow radix2 (-53))
    by (rewrite <- bpow_plus; f_equal; lia).
  assert (Hb2 : bpow radix2 e = 2 * bpow radix2 (e - 1)).
  { change 2 with (bpow radix2 1). rewrite <- bpow_plus. f_equal. lia. }
  pose proof (bpow_gt_0 radix2 (-53)) as Hp.
  destruct (Req_bool_spec x (bpow radix2 (e - 1))) as [Hpow|Hpow].
  - assert (Hf1 : (fmt (e - 1) = e - 54 \/ fmt (e - 1) = -1074)%Z) by (unfold FLT_exp; lia).
    assert (Hc : bpow radix2 (fmt (e - 1)) < 2 * (x * bpow radix2 (-53))).
    { assert (E : 2 * (x * bpow radix2 (-53)) = bpow radix2 (e - 53)).
      { rewrite Hpow, Hb1, Hb2. ring. }
      rewrite E. apply bpow_lt. unfold FLT_exp.
      lia. }
    lra.
  - assert (Hgt : bpow radix2 (e - 1) < x) by lra.
    assert (Hu : ulp radix2 fmt x = bpow radix2 e * bpow radix2 (-53)).
    { rewrite ulp_neq_0 by lra. unfold cexp. rewrite (mag_unique_pos radix2 x e) by lra.
      rewrite Hf. exact Hb1. }
    rewrite Hu. nra.
Qed.

Lemma mul_below p n : F64 p -> 0 <= p < 1 -> (1 <= n <= 2 ^ 53)%Z ->
  0 <= rnd (p * IZR n) < IZR n.
Proof.
  intros Hp H Hn. assert (Hn0 : 1 <= IZR n) by (apply IZR_le; lia). split.
  - apply rnd_ge; [apply F64_0|]. nra.
  - assert (HF : F64 (IZR n)) by (apply Z_format; lia).
    apply Rle_lt_trans with (pred radix2 fmt (IZR n)).
    + apply (round_N_le_midp radix2 fmt (fun x => negb (Z.even x))).
      * apply generic_format_pred; [typeclasses eauto|exact HF].
      * apply Rle_lt_trans with (IZR n * (1 - bpow radix2 (-53))).
        -- pose proof (pred_one_bound p Hp ltac:(lra)). nra.
        -- apply pred_gap; [lra|exact HF|]. apply Rle_trans with 1; [|lra].
           change 1 with (bpow radix2 0). apply bpow_le. lia.
    + apply pred_lt_id. lra.
Qed.

(** Quotient of a number by a strictly larger one rounds strictly below 1. *)
Lemma succ_ratio a : 0 < a -> F64 a -> a / succ radix2 fmt a <= 1 - bpow radix2 (-53).
Proof.
  intros Ha HF. rewrite succ_eq_pos by lra.
  assert (Hu : (a + ulp radix2 fmt a) * bpow radix2 (-53) <= ulp radix2 fmt a).
  { destruct (mag radix2 a) as [e He]. specialize (He (Rgt_not_eq _ _ Ha)).
    rewrite Rabs_pos_eq in He by lra. destruct He as [He1 He2].
    assert (Hs : a + ulp radix2 fmt a <= bpow radix2 e).
    { rewrite <- succ_eq_pos by lra. apply succ_le_lt; try typeclasses eauto; try assumption.
      apply generic_format_bpow. unfold FLT_exp.
      assert (Hm : bpow radix2 (-1074) <= a).
      { apply Rle_trans with (ulp radix2 fmt a).
        - rewrite ulp_neq_0 by lra. apply bpow_le. unfold cexp, FLT_exp. lia.
        - apply ulp_le_id; assumption. }
      assert ((-1074 < e)%Z) by (apply (lt_bpow radix2); lra). lia. }
    apply Rle_trans with (bpow radix2 e * bpow radix2 (-53)).
    { apply Rmult_le_compat_r; [apply bpow_ge_0|exact Hs]. }
    rewrite <- bpow_plus, ulp_neq_0 by lra. apply bpow_le. unfold cexp.
    rewrite (mag_unique_pos radix2 a e) by lra. unfold FLT_exp. lia. }
  pose proof (ulp_ge_0 radix2 fmt a).
  apply Rmult_le_reg_r with (a + ulp radix2 fmt a); [lra|].
  unfold Rdiv. rewrite Rmult_assoc, Rinv_l by lra. lra.
Qed.

Lemma div_below a d : F64 a -> F64 d -> 0 < a -> a < d -> rnd (a / d) < 1.
Proof.
  intros HFa HFd Ha Hd.
  assert (Hs : succ radix2 fmt a <= d) by (apply succ_le_lt; try typeclasses eauto; assumption).
  assert (Hq : a / d <= 1 - bpow radix2 (-53)).
  { apply Rle_trans with (a / succ radix2 fmt a); [|apply succ_ratio; assumption].
    apply Rmult_le_compat_l; [lra|]. apply Rinv_le; [|exact Hs].
    apply Rlt_le_trans with a; [exact Ha|apply succ_ge_id]. }
  assert (HFp : F64 (1 - bpow radix2 (-53))).
  { replace (1 - bpow radix2 (-53)) with (pred radix2 fmt 1).
    - apply generic_format_pred; [typeclasses eauto|apply F64_1].
    - change 1 with (bpow radix2 0). rewrite pred_bpow. reflexivity. }
  pose proof (rnd_le_g _ _ HFp Hq). pose proof (bpow_gt_0 radix2 (-53)). lra.
Qed.

Lemma small_bound x : Rabs x <= 1 -> Rabs x < bpow radix2 1024.
Proof.
  intros H. apply Rle_lt_trans with (1 := H). change 1 with (bpow radix2 0). apply bpow_lt. lia.
Qed.
