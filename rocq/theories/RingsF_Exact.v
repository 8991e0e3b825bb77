From Coq Require Import Reals.
From Flocq Require Import Core BinarySingleNaN.
From Verif Require Import RunMean_Proofs MTauF_Acc TTimeF_Acc.
From Verif Require Import Common F64 GridF_Model GridF_Proofs Roi_Model Roi_Proofs RoiPolar_Model RoiPolar_Spec RoiPolar_Proofs RingsF_Model RingsF_Spec RingsF_Proofs RingsF_Acc.
From Coq Require Import Lra.
Local Open Scope R_scope.

Lemma half_bp k : IZR k / 2 = IZR k * bpow radix2 (-1).
Proof. reflexivity. Qed.
Lemma scaled_small n e : (Z.abs n <= 2 ^ 53)%Z -> (-1074 <= e <= 0)%Z -> Rabs (IZR n * bpow radix2 e) <= bpow radix2 1023.
Proof.
  intros Hn He. rewrite Rabs_mult, (Rabs_pos_eq (bpow radix2 e)) by apply bpow_ge_0. rewrite <- abs_IZR.
  apply Rle_trans with (bpow radix2 53 * bpow radix2 0).
  - apply Rmult_le_compat; [apply IZR_le; lia|apply bpow_ge_0|rewrite bpow_IZR by lia; apply IZR_le; exact Hn|apply bpow_le; lia].
  - rewrite <- bpow_plus. apply bpow_le. lia.
Qed.
(** one coordinate, exactly *)
Lemma coord_exact (c : f64) (j : nat) : halves (2 ^ 25) c -> (Z.of_nat j <= 2 ^ 24)%Z ->
  exists n, (Z.abs n <= 2 ^ 26)%Z /\ INR j - B2R c = IZR n * bpow radix2 (-1) /\
    fin (fmul fone (fsub (f64_of_Z (Z.of_nat j)) c)) /\ B2R (fmul fone (fsub (f64_of_Z (Z.of_nat j)) c)) = IZR n * bpow radix2 (-1).
Proof.
  intros [Fc (k & Hk & Ek)] Hj. exists (2 * Z.of_nat j - k)%Z. split; [lia|].
  assert (ED : INR j - B2R c = IZR (2 * Z.of_nat j - k) * bpow radix2 (-1)).
  { rewrite Ek, INR_Z, minus_IZR, mult_IZR. change (bpow radix2 (-1)) with (/ 2). field. }
  split; [exact ED|]. destruct (f64_of_Z_ok (Z.of_nat j) ltac:(lia)) as [Ej Fj]. rewrite <- INR_Z in Ej.
  assert (RI : rnd (INR j - B2R c) = INR j - B2R c). { rewrite ED. apply rnd_id, scaled_format; lia. }
  destruct (fsub_ok (f64_of_Z (Z.of_nat j)) c Fj Fc) as [E [F _]].
  { rewrite Ej. apply bound1022. rewrite ED. apply scaled_small; lia. }
  rewrite Ej, RI, ED in E. destruct (fmul_ok fone (fsub (f64_of_Z (Z.of_nat j)) c) fone_fin F) as [E2 F2].
  { rewrite fone_R, Rmult_1_l. apply bound1022. rewrite E. apply scaled_small; lia. }
  split; [exact F2|]. rewrite E2, fone_R, Rmult_1_l, E. apply rnd_id, scaled_format; lia.
Qed.
Lemma radius_exact (c : f64 * f64) i j r : both (halves (2 ^ 25)) c -> (Z.of_nat i <= 2 ^ 24)%Z -> (Z.of_nat j <= 2 ^ 24)%Z ->
  is_radius (B2R (fst c), B2R (snd c)) i j r ->
  fin (radiusF c (fone, fone) i j) /\ B2R (radiusF c (fone, fone) i j) = rnd r /\
  exists n, (0 <= n)%Z /\ 4 * (r * r) = IZR n.
Proof.
  intros [H1 H2] Hi Hj [R0 RR]. cbn [fst snd] in RR.
  destruct (coord_exact (snd c) j H2 Hj) as (n & Bn & Dn & Fx & Ex). destruct (coord_exact (fst c) i H1 Hi) as (m & Bm & Dm & Fy & Ey).
  unfold radiusF. cbn [fst snd]. set (x := fmul fone (fsub (f64_of_Z (Z.of_nat j)) (snd c))) in *. set (y := fmul fone (fsub (f64_of_Z (Z.of_nat i)) (fst c))) in *.
  assert (SQ : forall (z : f64) k, fin z -> (Z.abs k <= 2 ^ 26)%Z -> B2R z = IZR k * bpow radix2 (-1) -> fin (fmul z z) /\ B2R (fmul z z) = IZR (k * k) * bpow radix2 (-2)).
  { intros z k Fz Bk Ez. assert (EQ : B2R z * B2R z = IZR (k * k) * bpow radix2 (-2)).
    { rewrite Ez, mult_IZR. change (-2)%Z with (-1 + -1)%Z. rewrite bpow_plus. ring. }
    assert (Bq : (Z.abs (k * k) <= 2 ^ 53)%Z) by nia.
    destruct (fmul_ok z z Fz Fz) as [E F]. { rewrite EQ. apply bound1022, scaled_small; lia. }
    split; [exact F|]. rewrite E, EQ. apply rnd_id, scaled_format; lia. }
  destruct (SQ x n Fx Bn Ex) as [FA EA]. destruct (SQ y m Fy Bm Ey) as [FB EB].
  assert (ES : B2R (fmul x x) + B2R (fmul y y) = IZR (n * n + m * m) * bpow radix2 (-2)). { rewrite EA, EB, plus_IZR. ring. }
  assert (Bs : (Z.abs (n * n + m * m) <= 2 ^ 53)%Z) by nia.
  destruct (fadd_ok _ _ FA FB) as [EC FC]. { rewrite ES. apply bound1022, scaled_small; lia. }
  rewrite ES, rnd_id in EC by (apply scaled_format; lia).
  assert (ER : r * r = IZR (n * n + m * m) * bpow radix2 (-2)).
  { rewrite RR, Dn, Dm, plus_IZR, !mult_IZR. change (-2)%Z with (-1 + -1)%Z. rewrite bpow_plus. ring. }
  rewrite <- ER in EC. destruct (fsqrt_ok (fadd (fmul x x) (fmul y y)) FC) as [FR E]. { rewrite EC. nra. }
  rewrite EC, sqrt_square in E by exact R0. split; [exact FR|]. split; [exact E|]. exists (n * n + m * m)%Z. split; [nia|].
  rewrite ER. change (bpow radix2 (-2)) with (/ 4). field.
Qed.
(** a whole or half edge is not reached by rounding *)
Lemma edge_exact e r n : (0 <= n)%Z -> 0 <= r -> 4 * (r * r) = IZR n -> halves (2 ^ 26) e -> (B2R e <= r <-> B2R e <= rnd r).
Proof.
  intros N0 R0 RN [Fe (k & Hk & Ek)]. split; [intros H; apply rnd_ge; [apply B2R_format|exact H]|].
  intros H. destruct (Rle_or_lt (B2R e) r) as [L|L]; [exact L|]. exfalso.
  assert (K0 : (0 < k)%Z). { apply lt_IZR. rewrite Ek in L. lra. }
  assert (NK : (n <= k * k - 1)%Z). { assert (n < k * k)%Z; [|lia]. apply lt_IZR. rewrite <- RN, mult_IZR. rewrite Ek in L. nra. }
  apply IZR_le in NK. rewrite minus_IZR, mult_IZR in NK. assert (HK : IZR k <= IZR (2 ^ 26)) by (apply IZR_le; lia).
  assert (K1 : 1 <= IZR k) by (apply (IZR_le 1); lia).
  set (f := IZR (k * 2 ^ 27 - 1) * bpow radix2 (-28)).
  assert (Ef : f = B2R e - bpow radix2 (-28)).
  { unfold f. rewrite minus_IZR, mult_IZR, Ek. change (IZR (2 ^ 27)) with (bpow radix2 27). replace (/ 2) with (bpow radix2 27 * bpow radix2 (-28)) by (rewrite <- bpow_plus; reflexivity).
    unfold Rdiv. replace (/ 2) with (bpow radix2 27 * bpow radix2 (-28)) by (rewrite <- bpow_plus; reflexivity). ring. }
  assert (Ff : F64 f) by (apply scaled_format; lia). assert (D0 : 0 < bpow radix2 (-28)) by apply bpow_gt_0.
  assert (D1 : bpow radix2 (-28) * IZR (2 ^ 26) = / 4). { change (IZR (2 ^ 26)) with (bpow radix2 26). rewrite <- bpow_plus. reflexivity. }
  assert (rnd r <= f); [|lra]. apply rnd_le_g; [exact Ff|]. rewrite Ef, Ek. rewrite Ek in H, L. set (d := bpow radix2 (-28)) in *.
  assert (Dk : d * IZR k <= / 4) by (rewrite <- D1; apply Rmult_le_compat_l; lra).
  destruct (Rle_or_lt r (IZR k / 2 - d)) as [|G]; [assumption|]. exfalso.
  assert (0 <= IZR k / 2 - d) by nra. clear - RN NK G Dk D0 K1 H0. nra.
Qed.

(** ** rings *)
Lemma dist_radius c i j r : is_radius (B2R (fst c), B2R (snd c)) i j r -> is_distance c (fone, fone) i j r.
Proof. intros [R0 RR]. split; [exact R0|]. cbn [fst snd] in *. rewrite !fone_R, !Rmult_1_l. exact RR. Qed.
Section Rings.
Context (edges : list f64) (c : f64 * f64) (h w : nat).
Hypothesis F : Forall (fun e => fin e) edges.
Hypothesis HE : Nat.even (length edges) = true.
Hypothesis HI : increasing (values edges).
Lemma rings_close : (Z.of_nat h <= 2 ^ 53)%Z -> (Z.of_nat w <= 2 ^ 53)%Z -> both (no_larger (bpow radix2 200)) c ->
  exists out, ringsF edges c h w = Some out /\ length out = (h * w)%nat /\
  forall i j r, (i < h)%nat -> (j < w)%nat -> is_radius (B2R (fst c), B2R (snd c)) i j r ->
    (forall e, In e edges -> bpow radix2 (-50) * r + bpow radix2 (-530) < Rabs (r - B2R e)) ->
    exists k, nth_error out (i * w + j) = Some k /\ forall m, k = S m <-> in_ring (values edges) m r.
Proof.
  intros Hh Hw Hc. destruct (rings_labels edges c h w F HE HI) as (out & E & L & V). exists out. split; [exact E|]. split; [exact L|].
  intros i j r Hi Hj Hr Far. assert (B1 : no_larger (bpow radix2 200) fone).
  { split; [reflexivity|]. rewrite fone_R, Rabs_R1. change 1 with (bpow radix2 0). apply bpow_le. lia. }
  destruct (radius_close c (fone, fone) i j r Hc (conj B1 B1) ltac:(lia) ltac:(lia) (dist_radius _ _ _ _ Hr)) as [Fr Er].
  destruct (V i j Hi Hj Fr) as (k & Ek & Hk). exists k. split; [exact Ek|]. intros m. rewrite Hk. apply in_ring_same.
  intros e He. apply in_map_iff in He. destruct He as (e' & <- & He). specialize (Far e' He). apply Rabs_le_inv in Er.
  set (v := B2R (radiusF _ _ _ _)) in *. unfold Rabs in Far. destruct (Rcase_abs (r - B2R e')); lra.
Qed.
Hypothesis Hc : both (halves (2 ^ 25)) c.
Hypothesis Hh : (Z.of_nat h <= 2 ^ 24)%Z.
Hypothesis Hw : (Z.of_nat w <= 2 ^ 24)%Z.
Lemma rings_nearest :
  exists out, ringsF edges c h w = Some out /\ length out = (h * w)%nat /\
  forall i j r, (i < h)%nat -> (j < w)%nat -> is_radius (B2R (fst c), B2R (snd c)) i j r ->
    exists k, nth_error out (i * w + j) = Some k /\ forall m, k = S m <-> in_ring (values edges) m (nearest_double r).
Proof.
  destruct (rings_labels edges c h w F HE HI) as (out & E & L & V). exists out. split; [exact E|]. split; [exact L|].
  intros i j r Hi Hj Hr. destruct (radius_exact c i j r Hc ltac:(lia) ltac:(lia) Hr) as (Fr & Er & _).
  destruct (V i j Hi Hj Fr) as (k & Ek & Hk). exists k. split; [exact Ek|]. rewrite Er in Hk. exact Hk.
Qed.
Lemma rings_exact : Forall (halves (2 ^ 26)) edges ->
  exists out, ringsF edges c h w = Some out /\ length out = (h * w)%nat /\
  forall i j r, (i < h)%nat -> (j < w)%nat -> is_radius (B2R (fst c), B2R (snd c)) i j r ->
    exists k, nth_error out (i * w + j) = Some k /\ forall m, k = S m <-> in_ring (values edges) m r.
Proof.
  intros He. destruct rings_nearest as (out & E & L & V). exists out. split; [exact E|]. split; [exact L|].
  intros i j r Hi Hj Hr. destruct (V i j r Hi Hj Hr) as (k & Ek & Hk). exists k. split; [exact Ek|]. intros m. rewrite Hk.
  destruct (radius_exact c i j r Hc ltac:(lia) ltac:(lia) Hr) as (_ & _ & n & N0 & RN).
  apply in_ring_same. intros e Hin. apply in_map_iff in Hin. destruct Hin as (e' & <- & Hin). rewrite Forall_forall in He.
  symmetry. apply (edge_exact e' r n N0 (proj1 Hr) RN (He e' Hin)).
Qed.
End Rings.
