(* Distance of the reported g2 from the exact one, and static images. *)
From Coq Require Import Reals.
From Flocq Require Import Core IEEE754.BinarySingleNaN.
From Verif Require Import Common F64 RunMean_Model RunMean_Spec RunMean_Proofs MultiTau_Model MultiTau_Spec MultiTau_Labels MultiTau_Proofs MultiTau_Main MultiTau_Out.
From Verif Require Import MTauF_Model MTauF_Spec MTauF_Proofs MTauF_Main MTauF_Acc.
From Coq Require Import ZifyBool ZifyNat Lra Lia.
Local Open Scope R_scope.

Lemma abs_le x b : - b <= x <= b -> Rabs x <= b.
Proof. intros. apply Rabs_le. lra. Qed.

(** Quotient of three perturbed numbers. *)
Lemma ratio_close (G P F M d g p f u e1 y x h : R) :
  0 < u <= / 1024 -> 15 / 2 * u <= d -> 0 <= h <= u -> 1 <= M -> 0 <= G <= M * M -> 0 < P <= M -> 0 < F <= M -> 2 * (d * M) <= P -> 2 * (d * M) <= F ->
  Rabs (g - G) <= d * (M * M) -> Rabs (p - P) <= d * M -> Rabs (f - F) <= d * M -> Rabs e1 <= 2 * u ->
  y = g / (p * f * (1 + e1)) -> Rabs (x - y) <= u * Rabs y + h ->
  Rabs (x - G / (P * F)) <= 10 * d * (M * M) / (P * F) * (M / P + M / F).
Proof.
  intros U D Hh HM HG HP HF P2 F2 Eg Ep Ef E1 Ey Ex.
  assert (IP : 0 < / P) by (apply Rinv_0_lt_compat; lra). assert (IF : 0 < / F) by (apply Rinv_0_lt_compat; lra).
  set (A := M / P). set (B := M / F).
  assert (A1 : 1 <= A). { unfold A. apply (Rmult_le_reg_r P); [lra|]. unfold Rdiv. rewrite Rmult_assoc, Rinv_l by lra. lra. }
  assert (B1 : 1 <= B). { unfold B. apply (Rmult_le_reg_r F); [lra|]. unfold Rdiv. rewrite Rmult_assoc, Rinv_l by lra. lra. }
  assert (Al : d * A <= / 2). { unfold A. replace (d * (M / P)) with (d * M / P) by (unfold Rdiv; ring). apply div_le; lra. }
  assert (Be : d * B <= / 2). { unfold B. replace (d * (M / F)) with (d * M / F) by (unfold Rdiv; ring). apply div_le; lra. }
  set (al := d * A) in *. set (be := d * B) in *.
  assert (D0 : 0 < d) by lra.
  assert (Al0 : d <= al) by (unfold al; rewrite <- (Rmult_1_r d) at 1; apply Rmult_le_compat_l; lra).
  assert (Be0 : d <= be) by (unfold be; rewrite <- (Rmult_1_r d) at 1; apply Rmult_le_compat_l; lra).
  set (a := p / P). set (b := f / F).
  assert (Ha : - al <= a - 1 <= al).
  { apply Rabs_le_inv. unfold a. replace (p / P - 1) with ((p - P) / P) by (field; lra). unfold Rdiv. rewrite Rabs_mult, (Rabs_pos_eq (/ P)) by lra.
    unfold al, A, Rdiv. rewrite <- Rmult_assoc. apply Rmult_le_compat_r; lra. }
  assert (Hb : - be <= b - 1 <= be).
  { apply Rabs_le_inv. unfold b. replace (f / F - 1) with ((f - F) / F) by (field; lra). unfold Rdiv. rewrite Rabs_mult, (Rabs_pos_eq (/ F)) by lra.
    unfold be, B, Rdiv. rewrite <- Rmult_assoc. apply Rmult_le_compat_r; lra. }
  apply Rabs_le_inv in E1.
  set (t := a * b * (1 + e1)).
  assert (ab1 : / 4 <= a * b) by nra.
  assert (ab2 : a * b <= 9 / 4) by nra.
  assert (abd : - (5 / 4 * (al + be)) <= a * b - 1 <= 5 / 4 * (al + be)).
  { assert (al * be <= (al + be) / 4) by nra. assert (0 <= al * be) by nra.
    replace (a * b - 1) with ((a - 1) * (b - 1) + (a - 1) + (b - 1)) by ring.
    assert (- (al * be) <= (a - 1) * (b - 1) <= al * be).
    { apply Rabs_le_inv. rewrite Rabs_mult. apply Rmult_le_compat; try apply Rabs_pos; apply abs_le; lra. }
    lra. }
  assert (tlo : 24 / 100 <= t) by (unfold t; nra).
  assert (td : - (155 / 100 * (al + be)) <= t - 1 <= 155 / 100 * (al + be)).
  { unfold t. replace (a * b * (1 + e1) - 1) with ((a * b - 1) + a * b * e1) by ring.
    assert (- (9 / 4 * (2 * u)) <= a * b * e1 <= 9 / 4 * (2 * u)).
    { apply Rabs_le_inv. rewrite Rabs_mult. apply Rmult_le_compat; try apply Rabs_pos; apply abs_le; lra. }
    lra. }
  assert (It : 0 < / t) by (apply Rinv_0_lt_compat; lra).
  assert (It2 : / t <= 42 / 10).
  { apply (Rmult_le_reg_r t); [lra|]. rewrite Rinv_l by lra. lra. }
  assert (MM : 1 <= M * M) by nra.
  (* y P F - G *)
  assert (Yv : y * (P * F) = g * / t).
  { rewrite Ey. unfold t, a, b, Rdiv. 
    assert (p <> 0). { intros Z. unfold a in ab1. rewrite Z in ab1. unfold Rdiv in ab1. rewrite !Rmult_0_l in ab1. lra. }
    assert (f <> 0). { intros Z. unfold b in ab1. rewrite Z in ab1. unfold Rdiv in ab1. rewrite Rmult_0_l, Rmult_0_r in ab1. lra. }
    field. repeat split; try lra; assumption. }
  assert (Y1 : Rabs (y * (P * F) - G) <= 861 / 100 * (al + be) * (M * M)).
  { rewrite Yv. replace (g * / t - G) with ((g - G - G * (t - 1)) * / t) by (field; lra). rewrite Rabs_mult, (Rabs_pos_eq (/ t)) by lra.
    assert (N : Rabs (g - G - G * (t - 1)) <= 205 / 100 * (al + be) * (M * M)).
    { assert (N1 : Rabs (G * (t - 1)) <= M * M * (155 / 100 * (al + be))).
      { rewrite Rabs_mult. apply Rmult_le_compat; try apply Rabs_pos; apply abs_le; lra. }
      assert (N2 : d * (M * M) <= (al + be) / 2 * (M * M)) by (apply Rmult_le_compat_r; lra).
      replace (g - G - G * (t - 1)) with ((g - G) + - (G * (t - 1))) by ring. refine (Rle_trans _ _ _ (Rabs_triang _ _) _). rewrite Rabs_Ropp. lra. }
    apply Rle_trans with (205 / 100 * (al + be) * (M * M) * (42 / 10)); [|lra].
    apply Rmult_le_compat; [apply Rabs_pos|lra|exact N|exact It2]. }
  assert (PF : 0 < P * F) by nra. assert (PF2 : P * F <= M * M) by nra.
  assert (Y2 : Rabs y * (P * F) <= 10 * (M * M)).
  { rewrite <- (Rabs_pos_eq (P * F)) by lra. rewrite <- Rabs_mult.
    replace (y * (P * F)) with ((y * (P * F) - G) + G) by ring. refine (Rle_trans _ _ _ (Rabs_triang _ _) _). rewrite (Rabs_pos_eq G) by lra.
    assert (861 / 100 * (al + be) * (M * M) <= 861 / 100 * (M * M)) by (apply Rmult_le_compat_r; lra). lra. }
  assert (X1 : Rabs (x - y) * (P * F) <= 11 * u * (M * M)).
  { apply Rle_trans with ((u * Rabs y + h) * (P * F)); [apply Rmult_le_compat_r; lra|].
    assert (u * (Rabs y * (P * F)) <= u * (10 * (M * M))) by (apply Rmult_le_compat_l; lra).
    assert (h * (P * F) <= u * (M * M)) by (apply Rmult_le_compat; lra). lra. }
  assert (X2 : 11 * u * (M * M) <= 139 / 100 * (al + be) * (M * M)).
  { apply Rmult_le_compat_r; lra. }
  assert (T : Rabs (x - G / (P * F)) * (P * F) <= 10 * (al + be) * (M * M)).
  { rewrite <- (Rabs_pos_eq (P * F)) at 2 by lra. rewrite <- Rabs_mult.
    replace ((x - G / (P * F)) * (P * F)) with ((x - y) * (P * F) + (y * (P * F) - G)) by (field; lra).
    refine (Rle_trans _ _ _ (Rabs_triang _ _) _). rewrite Rabs_mult, (Rabs_pos_eq (P * F)) by lra. lra. }
  apply (Rmult_le_reg_r (P * F)); [exact PF|]. refine (Rle_trans _ _ _ T _). right. unfold al, be. field. lra.
Qed.

Section CountsG2.
Variables (labels : list Z) (z : list (list Z)) (M : Z) (l i r : nat).
Let images := map (map f64_of_Z) z.
Hypothesis Hlen : forall im, In im z -> length im = length labels.
Hypothesis HM : forall im x, In im z -> In x im -> (0 <= x <= M)%Z.
Hypothesis HM1 : (1 <= M)%Z.
Hypothesis Hr : (1 <= r <= n_rois labels)%nat.
Hypothesis HN : (Z.of_nat (length (roi_positions labels r)) * (M * M * 4 ^ Z.of_nat l) <= 2 ^ 53)%Z.
Hypothesis Hreach : ((i + 1) * 2 ^ l <= length z)%nat.
Hypothesis Hshort : (Z.of_nat (length z) < 2 ^ 53)%Z.

Lemma HB_of : (M * M * 4 ^ Z.of_nat l <= 2 ^ 53)%Z.
Proof.
  pose proof (roi_inhabited labels r Hr). assert (0 <= M * M * 4 ^ Z.of_nat l)%Z by (pose proof (Z.pow_nonneg 4 (Z.of_nat l)); nia).
  nia.
Qed.
Lemma exact_mean_range {A} (ks : list A) (a : A -> R) c : ks <> [] -> (forall k, In k ks -> 0 <= a k <= c) -> 0 <= exact_mean (map a ks) <= c.
Proof.
  intros Hne H. unfold exact_mean. rewrite map_length.
  assert (N : 1 <= INR (length ks)) by (change 1 with (INR 1); apply le_INR; destruct ks; [congruence|cbn; lia]).
  assert (S : 0 <= fold_right Rplus 0 (map a ks) <= INR (length ks) * c).
  { clear Hne N. induction ks as [|k ks IH]; [cbn; lra|]. specialize (IH (fun j Hj => H j (or_intror Hj))). specialize (H k (or_introl eq_refl)).
    cbn [map fold_right]. change (length (k :: ks)) with (S (length ks)). rewrite S_INR. lra. }
  split; [apply Rmult_le_pos; [lra|left; apply Rinv_0_lt_compat; lra]|]. apply div_le; lra.
Qed.

Lemma g2_close : let n := INR (length (block_pairs z l i)) in let d := (n + 14) / 2 * bpow radix2 (-53) in
  let P := exact_past labels z l i r in let F := exact_fut labels z l i r in
  2 * d * IZR M <= P -> 2 * d * IZR M <= F ->
  is_finite (float_g2 labels images l i r) = true /\
  Rabs (B2R (float_g2 labels images l i r) - exact_g2 labels z l i r) <= 10 * d * (IZR M * IZR M) / (P * F) * (IZR M / P + IZR M / F).
Proof.
  pose proof HB_of as HB.
  destruct (counts_close labels z M l Hlen HM HM1 HB r Hr HN i Hreach Hshort) as (FG & FP & FF & EG & EP & EF). fold images in FG, FP, FF, EG, EP, EF.
  assert (Hne : block_pairs z l i <> []) by (eapply reach_pairs; eassumption).
  intros n d P F P2 F2. fold n in EG, EP, EF. fold d in EG, EP, EF.
  assert (RP : 0 <= P <= IZR M).
  { apply exact_mean_range; [exact Hne|]. intros k Hk. apply (roi_P labels z M l Hlen HM HM1 HB r Hr HN). eapply pair_complete; eassumption. }
  assert (RF : 0 <= F <= IZR M).
  { apply exact_mean_range; [exact Hne|]. intros k Hk. apply (roi_P labels z M l Hlen HM HM1 HB r Hr HN). eapply pair_complete; eassumption. }
  assert (RG : 0 <= exact_G labels z l i r <= IZR (M * M)).
  { apply exact_mean_range; [exact Hne|]. intros k Hk. apply (roi_G labels z M l Hlen HM HM1 HB r Hr HN). exact Hk. }
  assert (N0 : 0 <= n) by apply pos_INR.
  set (u := bpow radix2 (-53)) in *. set (m := IZR M) in *. rewrite mult_IZR in EG, RG. fold m in EG, RG.
  assert (U : 0 < u) by apply bpow_gt_0.
  assert (U2 : u <= / 1024) by (change (/ 1024) with (bpow radix2 (-10)); apply bpow_le; lia).
  assert (D : 15 / 2 * u <= d).
  { assert (N1 : 1 <= n) by (unfold n; change 1 with (INR 1); apply le_INR; destruct (block_pairs z l i); [congruence|cbn; lia]).
    unfold d. apply Rmult_le_compat_r; lra. }
  assert (m1 : 1 <= m) by (apply IZR_le; exact HM1).
  assert (m2 : m <= bpow radix2 27).
  { unfold m. rewrite bpow_IZR by lia. apply IZR_le. assert (1 <= 4 ^ Z.of_nat l)%Z by (pose proof (Z.pow_pos_nonneg 4 (Z.of_nat l)); lia). nia. }
  set (g := B2R (float_G labels images l i r)) in *. set (p := B2R (float_past labels images l i r)) in *. set (f := B2R (float_fut labels images l i r)) in *.
  pose proof (Rabs_le_inv _ _ EG) as EG'. pose proof (Rabs_le_inv _ _ EP) as EP'. pose proof (Rabs_le_inv _ _ EF) as EF'.
  fold P in EP'. fold F in EF'.
  assert (dm : 15 / 2 * u <= d * m) by (apply Rle_trans with (d * 1); [lra|apply Rmult_le_compat_l; lra]).
  assert (p1 : 4 * u <= p) by lra. assert (f1 : 4 * u <= f) by lra.
  assert (p2 : p <= 2 * m) by lra. assert (f2 : f <= 2 * m) by lra.
  assert (pf1 : bpow radix2 (-102) <= p * f).
  { apply Rle_trans with (4 * u * (4 * u)); [|apply Rmult_le_compat; lra]. unfold u. change 4 with (bpow radix2 2). rewrite <- !bpow_plus. apply bpow_le. lia. }
  assert (pf2 : p * f <= bpow radix2 56).
  { apply Rle_trans with (2 * bpow radix2 27 * (2 * bpow radix2 27)); [apply Rmult_le_compat; lra|].
    change 2 with (bpow radix2 1). rewrite <- !bpow_plus. apply bpow_le. lia. }
  assert (pf0 : 0 < p * f) by (apply Rlt_le_trans with (2 := pf1); apply bpow_gt_0).
  destruct (fmul_ok (float_past labels images l i r) (float_fut labels images l i r) FP FF) as [Eq Fq].
  { fold p f. apply bound1022. rewrite Rabs_pos_eq by lra. apply Rle_trans with (1 := pf2). apply bpow_le. lia. }
  fold p f in Eq. set (q := fmul _ _) in *.
  set (e1 := (rnd (p * f) - p * f) / (p * f)).
  assert (E1 : Rabs e1 <= 2 * u).
  { unfold e1, Rdiv. rewrite Rabs_mult, (Rabs_pos_eq (/ _)) by (left; apply Rinv_0_lt_compat; exact pf0). apply div_le; [exact pf0|].
    refine (Rle_trans _ _ _ (rnd_err _) _). rewrite (Rabs_pos_eq (p * f)) by lra. fold u.
    assert (eta / 2 <= u * (p * f)).
    { apply Rle_trans with (u * bpow radix2 (-102)); [|apply Rmult_le_compat_l; lra]. unfold u. rewrite <- bpow_plus.
      apply Rle_trans with eta; [assert (0 < eta) by apply bpow_gt_0; lra|apply bpow_le; lia]. }
    lra. }
  assert (Eq2 : B2R q = p * f * (1 + e1)) by (rewrite Eq; unfold e1; field; lra).
  apply Rabs_le_inv in E1 as E1'.
  assert (q1 : bpow radix2 (-103) <= B2R q).
  { rewrite Eq2. change (-103)%Z with (-102 + -1)%Z. rewrite bpow_plus. change (bpow radix2 (-1)) with (/ 2).
    apply Rmult_le_compat; [apply bpow_ge_0|lra|exact pf1|lra]. }
  assert (q0 : 0 < B2R q) by (apply Rlt_le_trans with (2 := q1); apply bpow_gt_0).
  assert (mm : m * m <= bpow radix2 54).
  { apply Rle_trans with (bpow radix2 27 * bpow radix2 27); [apply Rmult_le_compat; lra|]. rewrite <- bpow_plus. apply bpow_le. lia. }
  assert (dmm : d * (m * m) <= m * m / 2).
  { replace (d * (m * m)) with (d * m * m) by ring. apply Rle_trans with (m / 2 * m); [apply Rmult_le_compat_r; lra|lra]. }
  assert (ga : Rabs g <= bpow radix2 55).
  { apply abs_le. change 55%Z with (54 + 1)%Z. rewrite bpow_plus. change (bpow radix2 1) with 2. assert (0 <= m * m) by (apply Rle_0_sqr). lra. }
  destruct (fdiv_ok (float_G labels images l i r) q FG) as [Ex Fx]; [lra| |].
  { fold g. apply bound1022. unfold Rdiv. rewrite Rabs_mult, (Rabs_pos_eq (/ _)) by (left; apply Rinv_0_lt_compat; exact q0). apply div_le; [exact q0|].
    apply Rle_trans with (1 := ga). apply Rle_trans with (bpow radix2 1023 * bpow radix2 (-103)); [rewrite <- bpow_plus; apply bpow_le; lia|].
    apply Rmult_le_compat_l; [apply bpow_ge_0|exact q1]. }
  fold g in Ex. unfold float_g2. fold q. split; [exact Fx|]. unfold exact_g2. fold P F.
  assert (E0 : 0 < eta) by apply bpow_gt_0.
  assert (E0' : eta <= u) by (apply bpow_le; lia).
  apply (ratio_close (exact_G labels z l i r) P F m d g p f u e1 (g / (p * f * (1 + e1))) _ (eta / 2)); try lra; auto.
  rewrite Ex, <- Eq2. apply rnd_err.
Qed.
End CountsG2.

(** ** Static images *)
Lemma F64_double x : F64 x -> F64 (2 * x).
Proof.
  intros H. apply FLT_format_generic in H; [|reflexivity]. destruct H as [[m e] H1 H2 H3]. apply generic_format_FLT.
  exists (Float radix2 m (e + 1)); cbn [Fnum Fexp] in *.
  - rewrite H1. unfold F2R; cbn [Fnum Fexp]. rewrite bpow_plus. change (bpow radix2 1) with 2. ring.
  - exact H2.
  - lia.
Qed.
Lemma strict (x : f64) : is_finite x = true -> B2R x <> 0 -> is_finite_strict x = true.
Proof. destruct x; cbn; intros; congruence. Qed.
Lemma same (x y : f64) : is_finite x = true -> is_finite y = true -> B2R x = B2R y -> B2R x <> 0 -> x = y.
Proof. intros Fx Fy E N. apply B2R_inj; [apply strict; auto|apply strict; congruence|exact E]. Qed.
Lemma twice_half (x : f64) : is_finite x = true -> 0 < B2R x <= bpow radix2 1022 -> fdiv (fadd x x) (f64_of_Z 2) = x.
Proof.
  intros Fx Hx. destruct (f64_of_Z_ok 2 ltac:(lia)) as [E2 _].
  assert (R : rnd (B2R x + B2R x) = 2 * B2R x) by (replace (B2R x + B2R x) with (2 * B2R x) by ring; apply rnd_id, F64_double, B2R_format).
  destruct (fadd_ok x x Fx Fx) as [A F].
  { apply bound1022. rewrite Rabs_pos_eq by lra. change 1023%Z with (1022 + 1)%Z. rewrite bpow_plus. change (bpow radix2 1) with 2. lra. }
  rewrite R in A.
  assert (Q : B2R (fadd x x) / B2R (f64_of_Z 2) = B2R x) by (rewrite A, E2; field).
  destruct (fdiv_ok (fadd x x) (f64_of_Z 2) F) as [B C]; [rewrite E2; lra| |].
  { rewrite Q. apply bound1022. rewrite Rabs_pos_eq by lra. apply Rle_trans with (1 := proj2 Hx). apply bpow_le. lia. }
  rewrite Q, (rnd_id _ (B2R_format x)) in B. apply same; auto; lra.
Qed.
Lemma running_same data (c : f64) : data <> [] -> (Z.of_nat (length data) < 2 ^ 53)%Z -> is_finite c = true -> 0 < B2R c <= bpow radix2 1022 ->
  (forall x, In x data -> x = c) -> running_mean data = c.
Proof.
  intros Hne Hl Fc Hc Hd. destruct (mean_range data (B2R c) (B2R c) Hne Hl) as [F E]; try lra.
  - intros x Hx. rewrite (Hd x Hx). split; [exact Fc|lra].
  - apply same; auto; lra.
Qed.
(** ROI averages stay within the powers of two bounding the pixels, up to the division of a single pixel by their number. *)
Lemma bpow_F64 e : (-1074 <= e)%Z -> F64 (bpow radix2 e).
Proof. intros H. rewrite <- (Rmult_1_l (bpow radix2 e)). apply (scaled_format 1); lia. Qed.
Lemma froi_range labels (f : nat -> f64) r a b :
  (1 <= length (roi_positions labels r))%nat -> (Z.of_nat (length (roi_positions labels r)) <= 2 ^ 53)%Z -> (-1000 <= a <= b)%Z -> (b <= 950)%Z ->
  (forall p, In p (roi_positions labels r) -> is_finite (f p) = true /\ bpow radix2 a <= B2R (f p) <= bpow radix2 b) ->
  is_finite (froi labels f r) = true /\ bpow radix2 (a - 53) <= B2R (froi labels f r) <= bpow radix2 b.
Proof.
  intros HN HN2 Ha Hb Hp. unfold froi. set (ps := roi_positions labels r) in *.
  assert (Sm : forall qs s k, (forall p, In p qs -> In p ps) -> is_finite s = true -> 0 <= B2R s <= IZR k * bpow radix2 b -> (0 <= k)%Z -> (k + Z.of_nat (length qs) <= 2 ^ 53)%Z ->
     is_finite (fold_left fadd (map f qs) s) = true /\ B2R s <= B2R (fold_left fadd (map f qs) s) <= IZR (k + Z.of_nat (length qs)) * bpow radix2 b).
  { induction qs as [|p qs IH]; intros s k Hin Fs Bs K0 K1; cbn [map fold_left length]; [rewrite Z.add_0_r; split; [exact Fs|lra]|].
    destruct (Hp p (Hin p (or_introl eq_refl))) as [Fp Bp]. assert (A0 : 0 < bpow radix2 a) by apply bpow_gt_0.
    assert (F1 : F64 (IZR (k + 1) * bpow radix2 b)) by (apply scaled_format; cbn [length] in K1; lia).
    assert (Sum : B2R s + B2R (f p) <= IZR (k + 1) * bpow radix2 b) by (rewrite plus_IZR; lra).
    assert (R1 : B2R s <= rnd (B2R s + B2R (f p))) by (apply rnd_ge; [apply B2R_format|lra]).
    assert (R2 : rnd (B2R s + B2R (f p)) <= IZR (k + 1) * bpow radix2 b) by (apply rnd_le_g; assumption).
    destruct (fadd_ok s (f p) Fs Fp) as [E F].
    { rewrite Rabs_pos_eq by lra. apply Rle_lt_trans with (1 := R2). apply Rle_lt_trans with (bpow radix2 53 * bpow radix2 b).
      - apply Rmult_le_compat_r; [apply bpow_ge_0|]. rewrite bpow_IZR by lia. apply IZR_le. cbn [length] in K1. lia.
      - rewrite <- bpow_plus. apply bpow_lt. lia. }
    destruct (IH (fadd s (f p)) (k + 1)%Z) as [F' B']; try (cbn [length] in K1; lia).
    - intros q Hq. apply Hin. right; exact Hq.
    - rewrite E. lra.
    - split; [exact F'|]. rewrite E in B'. replace (k + Z.of_nat (S (length qs)))%Z with (k + 1 + Z.of_nat (length qs))%Z by lia. lra. }
  set (n := Z.of_nat (length ps)) in *.
  assert (T : is_finite (fold_left fadd (map f ps) fzero) = true /\ bpow radix2 a <= B2R (fold_left fadd (map f ps) fzero) <= IZR n * bpow radix2 b).
  { unfold n in *. clearbody ps. destruct ps as [|p qs]; [cbn in HN; lia|]. cbn [map fold_left].
    destruct (Hp p (or_introl eq_refl)) as [Fp Bp].
    assert (E0 : B2R fzero + B2R (f p) = B2R (f p)) by (cbn [B2R fzero]; ring).
    assert (Bb : 0 < bpow radix2 a) by apply bpow_gt_0.
    destruct (fadd_ok fzero (f p) eq_refl Fp) as [E F].
    { rewrite E0. apply bound1022. rewrite Rabs_pos_eq by lra. apply Rle_trans with (1 := proj2 Bp). apply bpow_le. lia. }
    rewrite E0, (rnd_id _ (B2R_format _)) in E.
    destruct (Sm qs (fadd fzero (f p)) 1%Z) as [F' B']; try (cbn [length] in HN2; lia).
    - intros q Hq. right; exact Hq.
    - rewrite E. lra.
    - split; [exact F'|]. rewrite E in B'. replace (Z.of_nat (length (p :: qs))) with (1 + Z.of_nat (length qs))%Z by (cbn [length]; lia). lra. }
  destruct T as [FT BT]. set (s := fold_left fadd (map f ps) fzero) in *.
  destruct (f64_of_Z_ok n) as [En _]; [unfold n in *; lia|].
  assert (N1 : 1 <= IZR n) by (apply IZR_le; unfold n; lia).
  assert (N2 : IZR n <= bpow radix2 53) by (rewrite bpow_IZR by lia; apply IZR_le; exact HN2).
  assert (A0 : 0 < bpow radix2 a) by apply bpow_gt_0.
  assert (Q1 : bpow radix2 (a - 53) <= B2R s / IZR n).
  { apply (Rmult_le_reg_r (IZR n)); [lra|]. unfold Rdiv. rewrite Rmult_assoc, Rinv_l, Rmult_1_r by lra.
    apply Rle_trans with (bpow radix2 (a - 53) * bpow radix2 53); [apply Rmult_le_compat_l; [apply bpow_ge_0|exact N2]|].
    rewrite <- bpow_plus. replace (a - 53 + 53)%Z with a by lia. lra. }
  assert (Q2 : B2R s / IZR n <= bpow radix2 b) by (apply div_le; lra).
  assert (R1 : bpow radix2 (a - 53) <= rnd (B2R s / IZR n)) by (apply rnd_ge; [apply bpow_F64; lia|exact Q1]).
  assert (R2 : rnd (B2R s / IZR n) <= bpow radix2 b) by (apply rnd_le_g; [apply bpow_F64; lia|exact Q2]).
  assert (C0 : 0 < bpow radix2 (a - 53)) by apply bpow_gt_0.
  destruct (fdiv_ok s (f64_of_Z n) FT) as [E F]; rewrite ?En; [lra| |].
  { rewrite Rabs_pos_eq by lra. apply Rle_lt_trans with (1 := R2). apply bpow_lt. lia. }
  rewrite En in E. split; [exact F|]. rewrite E. lra.
Qed.

Section Static.
Variables (labels : list Z) (im : list f64) (n : nat).
Hypothesis Hpix : forall p, In p (all_positions labels) -> is_finite (nth p im fzero) = true /\ bpow radix2 (-450) <= B2R (nth p im fzero) <= bpow radix2 450.
Hypothesis Hsize : (Z.of_nat (length labels) <= 2 ^ 53)%Z.
Hypothesis Hn : (Z.of_nat n < 2 ^ 53)%Z.
Let images := repeat im n.

Lemma fblock_static l : forall k p, ((k + 1) * 2 ^ l <= n)%nat -> In p (all_positions labels) -> fblock images l k p = nth p im fzero.
Proof.
  induction l as [|l IH]; intros k p Hk Hp; cbn [fblock].
  - cbn [Nat.pow] in Hk. unfold images. rewrite nth_indep with (d' := im) by (rewrite repeat_length; lia). rewrite nth_repeat. reflexivity.
  - rewrite !IH by (cbn in Hk; auto; nia). destruct (Hpix p Hp) as [F B]. apply twice_half; [exact F|].
    assert (0 < bpow radix2 (-450)) by apply bpow_gt_0. assert (bpow radix2 450 <= bpow radix2 1022) by (apply bpow_le; lia). lra.
Qed.
Lemma fgood_static l k : ((k + 1) * 2 ^ l <= n)%nat -> fgood labels images l k = true.
Proof.
  intros Hk. unfold fgood. apply forallb_forall. intros p Hp. rewrite fblock_static by assumption.
  destruct (Hpix p Hp) as [F _]. rewrite (fin_not_nan _ F). reflexivity.
Qed.
Lemma pairs_static l i : fgood_pairs labels images l i = seq 0 (n / 2 ^ l - i).
Proof.
  unfold fgood_pairs. unfold images at 3. rewrite repeat_length.
  pose proof (pow2_pos l) as P2. pose proof (Nat.mul_div_le n (2 ^ l) ltac:(lia)) as D. set (m := (n / 2 ^ l)%nat) in *.
  assert (H1 : forall k, In k (seq 0 (m - i)) -> fgood labels images l k && fgood labels images l (k + i) = true).
  { intros k Hk. apply in_seq in Hk. rewrite !fgood_static; [reflexivity|nia|nia]. }
  induction (seq 0 (m - i)) as [|k ks IH]; cbn [filter]; [reflexivity|]. rewrite H1 by (left; auto). f_equal. apply IH. intros; apply H1; right; auto.
Qed.
Lemma pos_in_all p r : In p (roi_positions labels r) -> In p (all_positions labels).
Proof. unfold roi_positions, all_positions. rewrite !filter_In. intros [H1 H2]. apply andb_true_iff in H2. tauto. Qed.
Lemma froi_ext f g r : (forall p, In p (roi_positions labels r) -> f p = g p) -> froi labels f r = froi labels g r.
Proof. intros H. unfold froi. rewrite (map_ext_in f g _ H). reflexivity. Qed.
Lemma roi_size r : (Z.of_nat (length (roi_positions labels r)) <= 2 ^ 53)%Z.
Proof.
  clear Hpix images Hn n. refine (Z.le_trans _ _ _ _ Hsize). apply inj_le. unfold roi_positions. rewrite <- (seq_length (length labels) 0) at 2.
  generalize (seq 0 (length labels)). intros s. induction s as [|a s IH]; cbn [filter length]; [lia|]. destruct (_ && _); cbn [length]; lia.
Qed.
Definition sq p := fmul (nth p im fzero) (nth p im fzero).
Lemma sq_ok p : In p (all_positions labels) -> is_finite (sq p) = true /\ bpow radix2 (-900) <= B2R (sq p) <= bpow radix2 900.
Proof.
  intros Hp. destruct (Hpix p Hp) as [F B]. unfold sq. set (x := nth p im fzero) in *. assert (X0 : 0 < bpow radix2 (-450)) by apply bpow_gt_0.
  assert (L : bpow radix2 (-900) <= B2R x * B2R x) by (change (-900)%Z with (-450 + -450)%Z; rewrite bpow_plus; apply Rmult_le_compat; lra).
  assert (U : B2R x * B2R x <= bpow radix2 900) by (change 900%Z with (450 + 450)%Z; rewrite bpow_plus; apply Rmult_le_compat; lra).
  assert (R1 : bpow radix2 (-900) <= rnd (B2R x * B2R x)) by (apply rnd_ge; [apply bpow_F64; lia|exact L]).
  assert (R2 : rnd (B2R x * B2R x) <= bpow radix2 900) by (apply rnd_le_g; [apply bpow_F64; lia|exact U]).
  assert (C : 0 < bpow radix2 (-900)) by apply bpow_gt_0.
  destruct (fmul_ok x x F F) as [E F2]; [rewrite Rabs_pos_eq by lra; apply Rle_lt_trans with (1 := R2); apply bpow_lt; lia|].
  split; [exact F2|]. rewrite E. lra.
Qed.
Lemma static_avgs l i r : (1 <= r <= n_rois labels)%nat -> (i < n / 2 ^ l)%nat ->
  float_G labels images l i r = froi labels sq r /\
  float_past labels images l i r = froi labels (fun p => nth p im fzero) r /\
  float_fut labels images l i r = froi labels (fun p => nth p im fzero) r /\
  0 < B2R (froi labels (fun p => nth p im fzero) r) /\ is_finite (froi labels (fun p => nth p im fzero) r) = true.
Proof.
  intros Hr Hi. pose proof (roi_inhabited labels r Hr) as HN. pose proof (roi_size r) as HN2.
  destruct (froi_range labels (fun p => nth p im fzero) r (-450) 450 HN HN2 ltac:(lia) ltac:(lia)) as [F1 B1].
  { intros p Hp. apply Hpix, (pos_in_all p r Hp). }
  destruct (froi_range labels sq r (-900) 900 HN HN2 ltac:(lia) ltac:(lia)) as [F2 B2].
  { intros p Hp. apply sq_ok, (pos_in_all p r Hp). }
  pose proof (pow2_pos l) as P2. pose proof (Nat.mul_div_le n (2 ^ l) ltac:(lia)) as D. 
  assert (Hm : (n / 2 ^ l <= n)%nat) by nia. unfold float_G, float_past, float_fut. rewrite pairs_static. set (m := (n / 2 ^ l)%nat) in *.
  assert (C1 : 0 < bpow radix2 (-450 - 53)) by apply bpow_gt_0. assert (C2 : 0 < bpow radix2 (-900 - 53)) by apply bpow_gt_0.
  assert (T1 : bpow radix2 450 <= bpow radix2 1022) by (apply bpow_le; lia). assert (T2 : bpow radix2 900 <= bpow radix2 1022) by (apply bpow_le; lia).
  assert (Hne : forall f : nat -> f64, map f (seq 0 (m - i)) <> []) by (intros f; destruct (m - i)%nat eqn:E; [lia|discriminate]).
  assert (Hlm : forall f : nat -> f64, (Z.of_nat (length (map f (seq 0 (m - i)))) < 2 ^ 53)%Z) by (intros f; rewrite map_length, seq_length; lia).
  assert (Hb : forall k, In k (seq 0 (m - i)) -> ((k + 1) * 2 ^ l <= n)%nat /\ ((k + i + 1) * 2 ^ l <= n)%nat) by (intros k Hk; apply in_seq in Hk; split; nia).
  repeat split; auto; try lra; apply running_same; auto; try lra; intros x Hx; apply in_map_iff in Hx as (k & <- & Hk); destruct (Hb k Hk) as [K1 K2];
    apply froi_ext; intros p Hp; apply pos_in_all in Hp; rewrite ?fblock_static by assumption; reflexivity.
Qed.

Lemma static_result nb L :
  (nb mod 2 = 0)%nat -> (2 <= nb)%nat -> (1 <= L)%nat -> (1 <= n)%nat -> length im = length labels -> (1 <= n_rois labels)%nat ->
  exists g2 lags, multi_tau_auto_corr nb L labels images = Some (g2, lags) /\ length g2 = length lags /\
    (forall l i, is_lag nb L l i -> ((lag_pos nb l i < length g2)%nat <-> ((i + 1) * 2 ^ l <= n)%nat)) /\
    (forall l i, is_lag nb L l i -> ((i + 1) * 2 ^ l <= n)%nat ->
       nth_error lags (lag_pos nb l i) = Some (i * 2 ^ l)%nat /\
       nth_error g2 (lag_pos nb l i) = Some (map (fun r => fdiv (froi labels sq r)
         (fmul (froi labels (fun p => nth p im fzero) r) (froi labels (fun p => nth p im fzero) r))) (seq 1 (n_rois labels)))).
Proof.
  intros He Hb HL Hn1 Hlen HK.
  destruct (MTauF_Main.corr_ok nb L labels images He Hb HL) as (g2 & lags & E & A1 & A2 & A3 & A4).
  { unfold images. destruct n; [lia|discriminate]. }
  { intros f Hf. apply repeat_spec in Hf. subst; auto. }
  exists g2, lags. split; [exact E|]. split; [exact A1|].
  assert (Hreach : forall l i, (i < n / 2 ^ l <-> (i + 1) * 2 ^ l <= n)%nat).
  { intros l i. pose proof (pow2_pos l).
    pose proof (Nat.mul_div_le n (2 ^ l) ltac:(lia)).
    pose proof (Nat.mul_succ_div_gt n (2 ^ l) ltac:(lia)).
    set (m := (n / 2 ^ l)%nat) in *. split; nia. }
  assert (Hiff : forall l i, is_lag nb L l i -> ((lag_pos nb l i < length g2)%nat <-> ((i + 1) * 2 ^ l <= n)%nat)).
  { intros l i Hi. split.
    - intros Hp. apply Hreach. destruct (Nat.lt_ge_cases i (n / 2 ^ l)) as [|Hge]; auto.
      exfalso. destruct (A3 l i Hi Hp) as (_ & _ & N). specialize (N 1%nat ltac:(lia)).
      unfold float_past in N. rewrite pairs_static in N.
      replace (n / 2 ^ l - i)%nat with 0%nat in N by lia. discriminate.
    - intros Hr. destruct (Nat.lt_ge_cases (lag_pos nb l i) (length g2)) as [|Hge]; auto.
      exfalso.
      pose proof (pos_lag_bound nb L l i He Hi).
      assert (HT : (2 * ((L + 1) * nb / 2) = (L + 1) * nb)%nat).
      { pose proof (even_half nb He).
        replace ((L + 1) * nb)%nat with ((L + 1) * (nb / 2) * 2)%nat by lia.
        rewrite Nat.div_mul by lia. lia. }
      destruct (A4 ltac:(lia)) as (l' & i' & r & Hi' & Hp' & Hr' & E0).
      assert (Hr2 : ((i' + 1) * 2 ^ l' <= n)%nat).
      { assert (Hle : ((i' + 1) * 2 ^ l' <= (i + 1) * 2 ^ l)%nat); [|lia].
        destruct (Nat.eq_dec (lag_pos nb l' i') (lag_pos nb l i)) as [Eq|Ne].
        - destruct (lag_pos_inj nb L _ _ _ _ He Hb Hi' Hi Eq) as [-> ->]. lia.
        - destruct Hi as (a1 & a2 & a3), Hi' as (b1 & b2 & b3).
          assert (Hlt : (lag_pos nb l' i' < lag_pos nb l i)%nat) by lia.
          unfold lag_pos in Hlt. pose proof (even_half nb He) as Hnb.
          set (h := (nb / 2)%nat) in *.
          pose proof (pow2_pos l'). pose proof (pow2_pos l).
          destruct (Nat.lt_trichotomy l' l) as [Hl|[->|Hl]].
          + destruct a3 as [->|a3]; [lia|].
            assert (2 * 2 ^ l' <= 2 ^ l)%nat.
            { replace (2 * 2 ^ l')%nat with (2 ^ S l')%nat by (cbn; lia). apply Nat.pow_le_mono_r; lia. }
            nia.
          + nia.
          + exfalso. destruct b3 as [->|b3]; [lia|]. nia. }
      apply Hreach in Hr2.
      destruct (static_avgs l' i' r Hr' Hr2) as (_ & E1 & _ & Pp & Pf). rewrite E1 in E0.
      rewrite (Beqb_correct _ _ fzero _ eq_refl Pf) in E0. change (B2R fzero) with 0 in E0.
      destruct (Req_bool_spec 0 (B2R (froi labels (fun p => nth p im fzero) r))); [lra|discriminate]. }
  split; [exact Hiff|].
  intros l i Hi Hr. assert (Hp : (lag_pos nb l i < length g2)%nat) by (apply Hiff; auto).
  destruct (A3 l i Hi Hp) as (B1 & B2 & _). split; [exact B1|]. rewrite B2. f_equal. apply map_ext_in. intros r Hr1. apply in_seq in Hr1.
  apply Hreach in Hr. destruct (static_avgs l i r ltac:(lia) Hr) as (E1 & E2 & E3 & _). unfold float_g2. rewrite E1, E2, E3. reflexivity.
Qed.

(** a ROI with the same count a in every pixel *)
Lemma uniform_one r a : (1 <= r <= n_rois labels)%nat -> (1 <= a)%Z -> (Z.of_nat (length (roi_positions labels r)) * (a * a) <= 2 ^ 53)%Z ->
  (forall p, In p (roi_positions labels r) -> nth p im fzero = f64_of_Z a) ->
  fdiv (froi labels sq r) (fmul (froi labels (fun p => nth p im fzero) r) (froi labels (fun p => nth p im fzero) r)) = fone.
Proof.
  clear Hpix images Hn n. intros Hr Ha HN Hu. pose proof (roi_inhabited labels r Hr) as HN1. pose proof (roi_size r) as HN2.
  assert (Ha1 : (a <= a * a <= 2 ^ 53)%Z) by nia.
  assert (Za : isz (f64_of_Z a) a 0) by (destruct (f64_of_Z_ok a ltac:(lia)) as [E F]; split; [exact F|rewrite E; cbn [bpow]; ring]).
  assert (X : forall (c : Z) (f : nat -> f64), (1 <= c <= a * a)%Z -> (forall p, In p (roi_positions labels r) -> isz (f p) c 0) -> is_finite (froi labels f r) = true /\ B2R (froi labels f r) = IZR c).
  { intros c f Hc Hf. destruct (froi_counts labels f (fun _ => c) 0 r c HN1 ltac:(lia)) as (F & E & _); try lia.
    - nia.
    - intros p Hp. split; [apply Hf; exact Hp|lia].
    - split; [exact F|]. rewrite E. replace (exact_roi labels (fun _ => IZR c * bpow radix2 0) r) with (IZR c); [apply rnd_id, Z_format; lia|].
      assert (K : IZR c <= exact_roi labels (fun _ => IZR c * bpow radix2 0) r <= IZR c).
      { unfold exact_roi, exact_mean. rewrite map_length. set (ps := roi_positions labels r) in *.
        assert (I : 1 <= INR (length ps)) by (change 1 with (INR 1); apply le_INR; exact HN1).
        replace (fold_right Rplus 0 (map (fun _ => IZR c * bpow radix2 0) ps)) with (INR (length ps) * IZR c).
        - split; right; field; lra.
        - clear. induction ps as [|p ps IH]; [cbn; ring|]. cbn [map fold_right]. rewrite <- IH. change (length (p :: ps)) with (S (length ps)). rewrite S_INR. cbn [bpow]. ring. }
      lra. }
  destruct (X a (fun p => nth p im fzero)) as [F1 E1]; [lia| |].
  { intros p Hp. rewrite (Hu p Hp). exact Za. }
  destruct (X (a * a)%Z sq) as [F2 E2]; [lia| |].
  { intros p Hp. unfold sq. rewrite (Hu p Hp). apply (isz_mul _ _ a a 0 0 Za Za); lia. }
  assert (A1 : 1 <= IZR a) by (apply IZR_le; exact Ha).
  destruct (isz_mul _ _ a a 0 0 (conj F1 (eq_trans E1 (eq_sym (Rmult_1_r _)))) (conj F1 (eq_trans E1 (eq_sym (Rmult_1_r _)))) ltac:(lia) ltac:(lia)) as [F3 E3].
  change (bpow radix2 (0 + 0)) with 1 in E3. rewrite Rmult_1_r in E3.
  set (q := fmul _ _) in *. assert (Z : IZR (a * a) <> 0) by (rewrite mult_IZR; nra).
  assert (Q : B2R (froi labels sq r) / B2R q = 1) by (rewrite E2, E3; field; exact Z).
  assert (R : rnd 1 = 1) by (apply rnd_id, F64_1).
  destruct (fdiv_ok (froi labels sq r) q F2) as [E F]; [rewrite E3; exact Z| |].
  { rewrite Q, R, Rabs_R1. change 1 with (bpow radix2 0). apply bpow_lt. lia. }
  rewrite Q, R in E. apply same; [exact F|reflexivity|rewrite E, fone_R; reflexivity|rewrite E; lra].
Qed.
End Static.
