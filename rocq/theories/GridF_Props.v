(* C112: the sums, mean and standard error of a gridder cell in double precision (/repo/src/ctrans.c c_grid3d 490-540,
   /repo/skbeam/core/utils.py grid3d 939). *)
From Coq Require Import List ZArith Lia Reals Permutation.
From Flocq Require Import Core IEEE754.BinarySingleNaN.
From Verif Require Import F64 RunMean_Proofs EdgesF_Proofs EdgesF_Props GridF_Model GridF_Spec GridF_Proofs.
From Coq Require Import Lra.
Import ListNotations.
Local Open Scope R_scope.

(** The total of a cell, for any split of the data over the threads *)
Theorem C112_total : forall chunks, let l := map B2R (concat chunks) in let m := (length (concat chunks) + length chunks)%nat in
  Forall (fun x => fin x) (concat chunks) -> sum_abs l <= bpow radix2 1021 -> (Z.of_nat m <= 2 ^ 52)%Z ->
  fin (total chunks) /\ Rabs (B2R (total chunks) - sum l) <= INR m * bpow radix2 (-52) * sum_abs l /\
  occupancy chunks = Z.of_nat (length (concat chunks)).
Proof.
  intros chunks l m F B L. destruct (near_total (sum_abs l) B chunks F (Rle_refl _)) as [N1 N2].
  { rewrite INR_IZR_INZ. apply IZR_le. exact L. }
  split; [exact N1|]. split; [|apply occupancy_ok]. replace (bpow radix2 (-52)) with (2 * u53) by (change 2 with (bpow radix2 1); change u53 with (bpow radix2 (-53)); rewrite <- bpow_plus; reflexivity). exact N2.
Qed.
Print Assumptions C112_total.

(** The variance of a cell; the standard error is a number and not NaN when the values differ by more than the rounding *)
Theorem C112_spread : forall chunks, let l := map B2R (concat chunks) in let n := length (concat chunks) in let m := (n + length chunks)%nat in
  (forall x, In x (concat chunks) -> fin x /\ (B2R x = 0 \/ bpow radix2 (-480) <= Rabs (B2R x))) -> 0 < sum_sq l ->
  INR n * sum_sq l <= bpow radix2 1000 -> (Z.of_nat m <= 2 ^ 40)%Z ->
  fin (variance chunks) /\ Rabs (B2R (variance chunks) * INR n - spread l) <= INR (7 * m + 8) * bpow radix2 (-53) * sum_sq l /\
  (INR (7 * m + 8) * bpow radix2 (-53) * sum_sq l <= spread l ->
   fin (std_error chunks) /\ 0 <= B2R (std_error chunks) /\
   Rabs (B2R (std_error chunks) - sqrt (B2R (variance chunks) / INR n)) <= bpow radix2 (-51) * sqrt (B2R (variance chunks) / INR n)).
Proof.
  intros chunks l n m H P B L. assert (E : length l = n) by (unfold l; apply map_length). pose proof (spread_ok chunks) as S0. cbv zeta in S0. fold l in S0. rewrite E in S0. fold m in S0.
  destruct (S0 H P B L) as [V1 V2]. change u53 with (bpow radix2 (-53)) in V2. split; [exact V1|]. split; [exact V2|]. intros G.
  assert (N : (1 <= n)%nat). { destruct n eqn:En; [|lia]. exfalso. assert (l = []) as El by (destruct l; [reflexivity|discriminate E]). rewrite El in P. unfold sum_sq, sum in P. cbn in P. lra. }
  assert (V0 : 0 <= B2R (variance chunks)). { apply Rabs_le_inv in V2. assert (0 < INR n) by (apply lt_0_INR; lia). assert (0 <= B2R (variance chunks) * INR n) by lra. destruct (Rle_or_lt 0 (B2R (variance chunks))) as [|X]; [assumption|nra]. }
  assert (O : (0 < occupancy chunks <= 2 ^ 53)%Z) by (rewrite occupancy_ok; fold n; lia). destruct (se_ok chunks O V1 V0) as (S1 & S2 & _). pose proof (se_rel chunks O V1 V0) as S3.
  rewrite occupancy_ok in S3. fold n in S3. rewrite <- INR_IZR_INZ in S3. auto.
Qed.
Print Assumptions C112_spread.

(** Integer intensities with n * (sum of squares) within 2^53: exact total, rounded mean, and never NaN *)
Theorem C112_integers : forall chunks zss, Forall2 (Forall2 whole) chunks zss -> let l := concat zss in let n := Z.of_nat (length l) in
  (0 < n <= 2 ^ 53)%Z -> (n * zsq l <= 2 ^ 53)%Z ->
  occupancy chunks = n /\ whole (total chunks) (zsum l) /\ fin (mean chunks) /\ B2R (mean chunks) = rnd (IZR (zsum l) / IZR n) /\
  fin (variance chunks) /\ 0 <= B2R (variance chunks) /\
  Rabs (B2R (variance chunks) - (IZR (zsq l) - IZR (zsum l * zsum l) / IZR n) / IZR n) <= bpow radix2 (-51) * (IZR (zsq l) / IZR n) /\
  fin (std_error chunks) /\ 0 <= B2R (std_error chunks) /\
  Rabs (B2R (std_error chunks) - sqrt (B2R (variance chunks) / IZR n)) <= bpow radix2 (-51) * sqrt (B2R (variance chunks) / IZR n).
Proof. exact integers_ok. Qed.
Print Assumptions C112_integers.

(** ... whatever the order of the data and the number of threads *)
Theorem C112_order : forall chunks zss chunks' zss', Forall2 (Forall2 whole) chunks zss -> Forall2 (Forall2 whole) chunks' zss' ->
  Permutation (concat zss) (concat zss') -> let l := concat zss in let n := Z.of_nat (length l) in (0 < n <= 2 ^ 53)%Z -> (n * zsq l <= 2 ^ 53)%Z ->
  occupancy chunks = occupancy chunks' /\ B2R (total chunks) = B2R (total chunks') /\ B2R (mean chunks) = B2R (mean chunks') /\
  B2R (std_error chunks) = B2R (std_error chunks').
Proof. exact order_ok. Qed.
Print Assumptions C112_order.

(** ... and exactly 0 when all of them are the same *)
Theorem C112_equal : forall chunks zss a n, Forall2 (Forall2 whole) chunks zss -> concat zss = repeat a n -> (0 < Z.of_nat n <= 2 ^ 53)%Z ->
  (Z.of_nat n * (Z.of_nat n * (a * a)) <= 2 ^ 53)%Z -> B2R (mean chunks) = IZR a /\ fin (std_error chunks) /\ B2R (std_error chunks) = 0.
Proof. exact equal_ok. Qed.
Print Assumptions C112_equal.

(** Refuted for doubles: three points of intensity 0.1 have the mean 0.10000000000000002 and the standard error NaN *)
Theorem C112_equal_refuted : exists x : f64, fin x /\ B2R x = rnd (1 / 10) /\ is_nan (std_error [[x; x; x]]) = true /\
  fltb x (mean [[x; x; x]]) = true.
Proof.
  exists (ratio 1 10). destruct (ratio_ok 1 10) as [E F]; [lia|lia|apply Rabs_le; lra|]. split; [exact F|]. split; [exact E|]. split; vm_compute; reflexivity.
Qed.
Print Assumptions C112_equal_refuted.

(** Refuted for large integers: three points of intensity 100000001 *)
Theorem C112_large_refuted : exists x : f64, whole x 100000001 /\ is_nan (std_error [[x; x; x]]) = true.
Proof. exists (f64_of_Z 100000001). destruct (f64_of_Z_ok 100000001) as [E F]; [lia|]. split; [split; assumption|vm_compute; reflexivity]. Qed.
Print Assumptions C112_large_refuted.

(** Refuted for doubles: the total depends on the number of threads *)
Theorem C112_threads_refuted : exists x y z : f64, fin x /\ fin y /\ fin z /\ fltb (total [[x]; [y; z]]) (total [[x; y; z]]) = true.
Proof.
  exists (ratio 1 10), (ratio 2 10), (ratio 3 10). repeat split; vm_compute; reflexivity.
Qed.
Print Assumptions C112_threads_refuted.

(** Two threads, four points: 3, 5 and 4, 8 *)
Example C112_example : let i := f64_of_Z in let chunks := [[i 3%Z; i 5%Z]; [i 4%Z; i 8%Z]] in
  Forall2 (Forall2 whole) chunks [[3; 5]; [4; 8]]%Z /\ (4 * zsq [3%Z; 5%Z; 4%Z; 8%Z] <= 2 ^ 53)%Z /\
  B2SF (mean chunks) = B2SF (i 5%Z) /\ B2SF (variance chunks) = B2SF (ratio 7 2) /\ fltb (ratio 93 100) (std_error chunks) = true /\ fltb (std_error chunks) (ratio 94 100) = true.
Proof.
  cbv zeta. split.
  - repeat constructor; apply f64_of_Z_ok; lia.
  - repeat split; vm_compute; try reflexivity; discriminate.
Qed.

Example C112_example_spread : let x := f64_of_Z 1 in let y := f64_of_Z 2 in let l := map B2R (concat [[x; y]]) in
  (forall v, In v (concat [[x; y]]) -> fin v /\ (B2R v = 0 \/ bpow radix2 (-480) <= Rabs (B2R v))) /\ 0 < sum_sq l /\
  INR 2 * sum_sq l <= bpow radix2 1000 /\ INR (7 * 3 + 8) * bpow radix2 (-53) * sum_sq l <= spread l.
Proof.
  cbv zeta. destruct (f64_of_Z_ok 1) as [X1 X2]; [lia|]. destruct (f64_of_Z_ok 2) as [Y1 Y2]; [lia|]. assert (B : bpow radix2 (-480) <= 1) by (apply Rle_trans with (bpow radix2 0); [apply bpow_le; lia|cbn; lra]).
  assert (C : 10 <= bpow radix2 1000) by (apply Rle_trans with (bpow radix2 4); [cbn; lra|apply bpow_le; lia]).
  unfold spread, sum_sq, sum. cbn [concat app map fold_right length]. rewrite X1, Y1. split; [|split; [lra|split; [cbn [INR]; lra|]]].
  - intros v [<-|[<-|[]]]; (split; [assumption|right]); [rewrite X1|rewrite Y1]; rewrite Rabs_pos_eq; lra.
  - change (bpow radix2 (-53)) with (/ 9007199254740992). replace (INR (7 * 3 + 8)) with 29 by (cbn; lra). cbn [INR]. lra.
Qed.
