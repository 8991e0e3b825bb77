From Coq Require Import Reals.
From Flocq Require Import Core BinarySingleNaN.
From Verif Require Import RunMean_Proofs MTauF_Acc TTimeF_Acc.
From Verif Require Import Common F64 GridF_Model GridF_Proofs Roi_Model Roi_Proofs RoiPolar_Model RoiPolar_Spec RoiPolar_Proofs RingsF_Model RingsF_Spec RingsF_Proofs.
From Coq Require Import Lra.
Local Open Scope R_scope.

Lemma u_small : 0 < u53 <= / 1000.
Proof.
  split; [apply bpow_gt_0|]. apply Rle_trans with (bpow radix2 (-10)); [apply bpow_le; lia|]. cbn. lra.
Qed.
Lemma big b : bpow radix2 b <= bpow radix2 1023 <-> (b <= 1023)%Z.
Proof. split; [apply le_bpow|apply bpow_le]. Qed.
Lemma bp_double e : bpow radix2 (e + 1) = 2 * bpow radix2 e.
Proof. rewrite bpow_plus. change (bpow radix2 1) with 2. ring. Qed.
Lemma INR_Z n : INR n = IZR (Z.of_nat n). Proof. apply INR_IZR_INZ. Qed.
(** one coordinate *)
Lemma coord_ok (p c : f64) (j : nat) : fin p -> fin c -> Rabs (B2R p) <= bpow radix2 200 -> Rabs (B2R c) <= bpow radix2 200 ->
  (Z.of_nat j <= 2 ^ 53)%Z ->
  let x := fmul p (fsub (f64_of_Z (Z.of_nat j)) c) in
  fin x /\ Rabs (B2R x) <= bpow radix2 403 /\
  Rabs (B2R x - B2R p * (INR j - B2R c)) <= 3 * u53 * Rabs (B2R p * (INR j - B2R c)) + eta / 2.
Proof.
  intros Fp Fc Bp Bc Hj x. destruct u_small as [U0 U1]. assert (E0 : 0 < eta) by apply bpow_gt_0.
  destruct (f64_of_Z_ok (Z.of_nat j) ltac:(lia)) as [Ej Fj]. rewrite <- INR_Z in Ej.
  assert (Bj : Rabs (INR j) <= bpow radix2 200).
  { rewrite INR_Z, Rabs_pos_eq by (apply IZR_le; lia). apply Rle_trans with (bpow radix2 53); [rewrite bpow_IZR by lia; apply IZR_le; exact Hj|apply bpow_le; lia]. }
  assert (Bd : Rabs (INR j - B2R c) <= bpow radix2 201).
  { change 201%Z with (200 + 1)%Z. rewrite bp_double. unfold Rminus. refine (Rle_trans _ _ _ (Rabs_triang _ _) _). rewrite Rabs_Ropp. lra. }
  destruct (plus_err (INR j) (- B2R c)) as (e & He & Hr). { rewrite INR_Z. apply Z_format. lia. } { apply generic_format_opp, B2R_format. }
  replace (INR j + - B2R c) with (INR j - B2R c) in Hr by ring.
  destruct (fsub_ok (f64_of_Z (Z.of_nat j)) c Fj Fc) as [Ed [Fd _]].
  { rewrite Ej. apply bound1022. refine (Rle_trans _ _ _ Bd _). apply bpow_le. lia. }
  rewrite Ej, Hr in Ed. set (D := INR j - B2R c) in *. assert (He' := He). apply Rabs_le_inv in He'.
  assert (Bd2 : Rabs (D * (1 + e)) <= bpow radix2 202).
  { rewrite Rabs_mult. rewrite (Rabs_pos_eq (1 + e)) by lra. change 202%Z with (201 + 1)%Z. rewrite bp_double.
    pose proof (Rabs_pos D). apply Rle_trans with (Rabs D * 2); [apply Rmult_le_compat_l; lra|]. lra. }
  assert (Bpd : Rabs (B2R p * (D * (1 + e))) <= bpow radix2 402).
  { rewrite Rabs_mult. change 402%Z with (200 + 202)%Z. rewrite bpow_plus. apply Rmult_le_compat; auto using Rabs_pos. }
  destruct (fmul_ok p (fsub (f64_of_Z (Z.of_nat j)) c) Fp Fd) as [Ex Fx].
  { rewrite Ed. apply bound1022. refine (Rle_trans _ _ _ Bpd _). apply bpow_le. lia. }
  rewrite Ed in Ex. split; [exact Fx|]. fold x in Ex.
  pose proof (rnd_err (B2R p * (D * (1 + e)))) as RE. rewrite <- Ex in RE.
  assert (Pd : Rabs (B2R p * (D * (1 + e))) <= (1 + u53) * Rabs (B2R p * D)).
  { rewrite <- Rmult_assoc, Rabs_mult. rewrite (Rabs_pos_eq (1 + e)) by lra. pose proof (Rabs_pos (B2R p * D)). nra. }
  split.
  - assert (Rabs (B2R x) <= Rabs (B2R p * (D * (1 + e))) + (u53 * Rabs (B2R p * (D * (1 + e))) + eta / 2)).
    { pose proof (Rabs_triang_inv (B2R x) (B2R p * (D * (1 + e)))). lra. }
    change 403%Z with (402 + 1)%Z. rewrite bp_double. assert (eta <= / 2 * bpow radix2 402).
    { change (/ 2) with (bpow radix2 (-1)). rewrite <- bpow_plus. apply bpow_le. lia. }
    pose proof (Rabs_pos (B2R p * (D * (1 + e)))) as P0. assert (u53 * Rabs (B2R p * (D * (1 + e))) <= / 1000 * Rabs (B2R p * (D * (1 + e)))) by (apply Rmult_le_compat_r; lra). lra.
  - replace (B2R x - B2R p * D) with ((B2R x - B2R p * (D * (1 + e))) + (B2R p * D) * e) by ring.
    refine (Rle_trans _ _ _ (Rabs_triang _ _) _). rewrite (Rabs_mult (B2R p * D) e).
    set (K := Rabs (B2R p * D)) in *. assert (0 <= K) by apply Rabs_pos. assert (0 <= Rabs e) by apply Rabs_pos.
    assert (K * Rabs e <= u53 * K) by nra. assert (u53 * Rabs (B2R p * (D * (1 + e))) <= u53 * ((1 + u53) * K)) by (apply Rmult_le_compat_l; lra).
    assert (u53 * (1 + u53) * K <= 2 * u53 * K) by (apply Rmult_le_compat_r; [lra|]; assert (u53 * u53 <= u53 * 1) by (apply Rmult_le_compat_l; lra); lra).
    lra.
Qed.
Lemma sqrt_plus a t : 0 <= a -> 0 <= t -> sqrt (a + t * t) <= sqrt a + t.
Proof.
  intros A T. pose proof (sqrt_pos a) as P. rewrite <- (sqrt_square (sqrt a + t)) by lra. apply sqrt_le_1_alt.
  pose proof (sqrt_sqrt a A). nra.
Qed.
(** the root of the sum of two rounded squares *)
Lemma root_ok (x y : f64) : fin x -> fin y -> Rabs (B2R x) <= bpow radix2 403 -> Rabs (B2R y) <= bpow radix2 403 ->
  let r := fsqrt (fadd (fmul x x) (fmul y y)) in
  fin r /\ 0 <= B2R r /\ Rabs (B2R r - norm (B2R x) (B2R y)) <= 3 * u53 * norm (B2R x) (B2R y) + bpow radix2 (-535).
Proof.
  intros Fx Fy Bx By r. destruct u_small as [U0 U1].
  assert (SQ : forall z : f64, Rabs (B2R z) <= bpow radix2 403 -> 0 <= B2R z * B2R z <= bpow radix2 806).
  { intros z B. split; [nra|]. change 806%Z with (403 + 403)%Z. rewrite bpow_plus. pose proof (Rabs_pos (B2R z)).
    rewrite <- (Rabs_pos_eq (B2R z * B2R z)) by nra. rewrite Rabs_mult. apply Rmult_le_compat; auto. }
  assert (SR : forall z : f64, fin z -> Rabs (B2R z) <= bpow radix2 403 -> fin (fmul z z) /\ B2R (fmul z z) = rnd (B2R z * B2R z) /\ 0 <= B2R (fmul z z) <= bpow radix2 806).
  { intros z Fz B. destruct (SQ z B) as [S0 S1]. destruct (fmul_ok z z Fz Fz) as [E F].
    { apply bound1022. rewrite Rabs_pos_eq by lra. refine (Rle_trans _ _ _ S1 _). apply bpow_le. lia. }
    split; [exact F|]. split; [exact E|]. rewrite E. split; [apply rnd_pos; lra|]. apply rnd_le_g; [|exact S1].
    apply generic_format_bpow. unfold FLT_exp. lia. }
  destruct (SR x Fx Bx) as (FA & EA & A0 & A1). destruct (SR y Fy By) as (FB & EB & B0 & B1). clear SR.
  set (A := fmul x x) in *. set (B := fmul y y) in *.
  assert (SB : Rabs (B2R A + B2R B) <= bpow radix2 807).
  { change 807%Z with (806 + 1)%Z. rewrite bp_double. rewrite Rabs_pos_eq by lra. lra. }
  destruct (fadd_ok A B FA FB) as [EC FC]. { apply bound1022. refine (Rle_trans _ _ _ SB _). apply bpow_le. lia. }
  destruct (plus_err (B2R A) (B2R B) (B2R_format A) (B2R_format B)) as (e & He & Hr). rewrite Hr in EC. apply Rabs_le_inv in He.
  set (C := fadd A B) in *. assert (C0 : 0 <= B2R C) by (rewrite EC; apply Rmult_le_pos; lra).
  destruct (fsqrt_ok C FC C0) as [FR ER]. fold r in FR, ER. split; [exact FR|]. split. { rewrite ER. apply rnd_pos, sqrt_pos. }
  pose proof (rnd_err (B2R x * B2R x)) as RA. pose proof (rnd_err (B2R y * B2R y)) as RB. rewrite <- EA in RA. rewrite <- EB in RB.
  destruct (SQ x Bx) as [X0 _]. destruct (SQ y By) as [Y0 _]. rewrite (Rabs_pos_eq (B2R x * B2R x)) in RA by lra. rewrite (Rabs_pos_eq (B2R y * B2R y)) in RB by lra.
  pose proof (norm_sq (B2R x) (B2R y)) as NS. pose proof (norm_pos (B2R x) (B2R y)) as N0. set (N := norm (B2R x) (B2R y)) in *.
  set (a := B2R x * B2R x) in *. set (b := B2R y * B2R y) in *. apply Rabs_le_inv in RA, RB.
  pose proof (rnd_err (sqrt (B2R C))) as RR. rewrite <- ER in RR. rewrite (Rabs_pos_eq (sqrt (B2R C))) in RR by apply sqrt_pos.
  set (t := bpow radix2 (-536)) in *. assert (T0 : 0 < t) by apply bpow_gt_0. assert (E0 : 0 < eta) by apply bpow_gt_0.
  assert (TT : t * t = 4 * eta). { unfold t. rewrite <- bpow_plus. change 4 with (bpow radix2 2). rewrite <- bpow_plus. reflexivity. }
  assert (TE : 8 * eta <= t). { change 8 with (bpow radix2 3). unfold t. rewrite <- bpow_plus. apply bpow_le. lia. }
  replace (bpow radix2 (-535)) with (2 * t) by (unfold t; rewrite <- bp_double; reflexivity).
  assert (HU : sqrt (B2R C) <= (1 + u53) * N + t).
  { apply Rle_trans with (sqrt (((1 + u53) * N) * ((1 + u53) * N) + t * t)).
    - apply sqrt_le_1_alt. rewrite EC, TT. replace ((1 + u53) * N * ((1 + u53) * N)) with ((1 + u53) * (1 + u53) * (a + b)) by (rewrite <- NS; ring).
      apply Rle_trans with ((B2R A + B2R B) * (1 + u53)); [apply Rmult_le_compat_l; lra|].
      apply Rle_trans with (((1 + u53) * (a + b) + eta) * (1 + u53)); [apply Rmult_le_compat_r; lra|]. nra.
    - refine (Rle_trans _ _ _ (sqrt_plus _ t _ _) _); [nra|lra|]. rewrite sqrt_square by nra. lra. }
  assert (HL : (1 - u53) * N <= sqrt (B2R C) + t).
  { apply Rle_trans with (sqrt (B2R C + t * t)); [|apply sqrt_plus; lra].
    rewrite <- (sqrt_square ((1 - u53) * N)) by (apply Rmult_le_pos; lra). apply sqrt_le_1_alt.
    rewrite EC, TT. replace ((1 - u53) * N * ((1 - u53) * N)) with ((1 - u53) * (1 - u53) * (a + b)) by (rewrite <- NS; ring).
    assert ((B2R A + B2R B) * (1 - u53) <= (B2R A + B2R B) * (1 + e)) by (apply Rmult_le_compat_l; lra).
    assert (((1 - u53) * (a + b) - eta) * (1 - u53) <= (B2R A + B2R B) * (1 - u53)) by (apply Rmult_le_compat_r; lra). nra. }
  pose proof (sqrt_pos (B2R C)) as Q0. set (q := sqrt (B2R C)) in *. set (u := u53) in *. set (et := bpow radix2 (-1074)) in *. clearbody u q t N et. apply Rabs_le_inv in RR. clear - U0 U1 HU HL RR E0 TE T0 N0 Q0.
  assert (u * q <= u * ((1 + u) * N + t)) by (apply Rmult_le_compat_l; lra).
  assert (u * (u * N) <= / 1000 * (u * N)) by (apply Rmult_le_compat_r; nra). assert (0 <= u * N) by nra. assert (u * t <= / 1000 * t) by nra.
  apply Rabs_le. split; nra.
Qed.
Lemma radius_close (c p : f64 * f64) i j r : both (no_larger (bpow radix2 200)) c -> both (no_larger (bpow radix2 200)) p ->
  (Z.of_nat i <= 2 ^ 53)%Z -> (Z.of_nat j <= 2 ^ 53)%Z -> is_distance c p i j r ->
  fin (radiusF c p i j) /\ Rabs (B2R (radiusF c p i j) - r) <= bpow radix2 (-50) * r + bpow radix2 (-530).
Proof.
  intros [[Fc1 Bc1] [Fc2 Bc2]] [[Fp1 Bp1] [Fp2 Bp2]] Hi Hj [R0 RR].
  destruct (coord_ok (snd p) (snd c) j Fp2 Fc2 Bp2 Bc2 Hj) as (FX & BX & EX). destruct (coord_ok (fst p) (fst c) i Fp1 Fc1 Bp1 Bc1 Hi) as (FY & BY & EY).
  unfold radiusF. set (x := fmul (snd p) _) in *. set (y := fmul (fst p) _) in *. destruct (root_ok x y FX FY BX BY) as (FR & _ & ER). split; [exact FR|].
  set (X := B2R (snd p) * (INR j - B2R (snd c))) in *. set (Y := B2R (fst p) * (INR i - B2R (fst c))) in *.
  destruct u_small as [U0 U1]. assert (E0 : 0 < eta) by apply bpow_gt_0.
  assert (NR : norm X Y = r). { unfold norm. rewrite <- RR. apply sqrt_square. exact R0. }
  destruct (norm_close (B2R x) (B2R y) X Y (3 * u53) (eta / 2) ltac:(lra) ltac:(lra) EX EY) as [L1 L2]. rewrite NR in L1, L2.
  set (N := norm (B2R x) (B2R y)) in *. assert (N0 : 0 <= N) by apply norm_pos.
  assert (T1 : bpow radix2 (-50) = 8 * u53). { change 8 with (bpow radix2 3). rewrite <- bpow_plus. reflexivity. }
  assert (T2 : bpow radix2 (-530) = 32 * bpow radix2 (-535)). { change 32 with (bpow radix2 5). rewrite <- bpow_plus. reflexivity. }
  assert (T3 : eta <= bpow radix2 (-535)) by (apply bpow_le; lia). rewrite T1, T2. apply Rabs_le_inv in ER. set (v := B2R (fsqrt _)) in *. set (t := bpow radix2 (-535)) in *. set (u := u53) in *. set (et := bpow radix2 (-1074)) in *. clearbody u t v N et.
  clear - U0 U1 L1 L2 R0 N0 ER T3 E0. assert (u * N <= u * ((1 + 3 * u) * r + 2 * (et / 2))) by (apply Rmult_le_compat_l; lra).
  assert (0 <= u * r) by nra. assert (u * (u * r) <= / 1000 * (u * r)) by (apply Rmult_le_compat_r; lra). assert (u * et <= / 1000 * et) by nra.
  apply Rabs_le. split; nra.
Qed.
