(* C111: bin_edges in double precision (/repo/skbeam/core/utils.py 747-793). *)
From Coq Require Import List ZArith Lia Reals.
From Flocq Require Import Core IEEE754.BinarySingleNaN.
From Verif Require Import F64 EdgesF_Model EdgesF_Spec EdgesF_Proofs.
From Coq Require Import Lra.
Import ListNotations.
Local Open Scope R_scope.

(** Ends and step: as many bins as whole steps fit into the rounded difference, or one fewer; edges finite, in order,
    starting at the lower end, never above the upper end, within 2^-51 B of the exact positions; less than a step and
    2^-50 B of the range is left over; all different if the step is more than 2^-50 B *)
Theorem C111_edges : forall (lo hi step : f64) (B : R) (q : Z), fin lo -> fin hi -> fin step ->
  B <= bpow radix2 1022 -> Rabs (B2R lo) <= B -> Rabs (B2R hi) <= B -> B2R lo < B2R hi -> 0 < B2R step <= rnd (B2R hi - B2R lo) ->
  whole_steps (rnd (B2R hi - B2R lo)) (B2R step) q -> (q < 2 ^ 50)%Z ->
  exists es n, edges_min_max_step lo hi step = Some es /\ length es = S n /\ (Z.of_nat n = q \/ Z.of_nat n = q - 1)%Z /\
  Forall (fun x => fin x /\ B2R x <= B2R hi) es /\ never_falls (map B2R es) /\ nth_error (map B2R es) 0 = Some (B2R lo) /\
  (forall k x, nth_error (map B2R es) k = Some x -> Rabs (x - (B2R lo + INR k * B2R step)) <= bpow radix2 (-51) * B) /\
  (forall x, nth_error (map B2R es) n = Some x -> B2R hi - x <= B2R step + bpow radix2 (-50) * B) /\
  (bpow radix2 (-50) * B < B2R step -> rises (map B2R es)).
Proof. intros lo hi step B q Fl Fh Fs HB Bl Bh LH [Ps SD] Wq Sq. exact (edges_ok lo hi step Fl Fh Fs B HB Bl Bh LH Ps q Wq Sq SD). Qed.
Print Assumptions C111_edges.

(** Ends and step whole multiples of a power of two: the exact grid, with every whole step that fits *)
Theorem C111_exact : forall (lo hi step : f64) (a b c e : Z), fin lo -> fin hi -> fin step ->
  B2R lo = IZR a * bpow radix2 e -> B2R hi = IZR b * bpow radix2 e -> B2R step = IZR c * bpow radix2 e ->
  (-1074 <= e <= 960)%Z -> (Z.abs a <= 2 ^ 51)%Z -> (Z.abs b <= 2 ^ 51)%Z -> (0 < c <= b - a)%Z -> ((b - a) / c < 2 ^ 50)%Z ->
  exists es, edges_min_max_step lo hi step = Some es /\ Forall (fun x => fin x) es /\
  map B2R es = map (fun k => IZR (a + Z.of_nat k * c) * bpow radix2 e) (seq 0 (S (Z.to_nat ((b - a) / c)))).
Proof. exact grid_value. Qed.
Print Assumptions C111_exact.

(** Lower end, step, number of bins *)
Theorem C111_from_min : forall (lo step : f64) (B : R) (n : Z), fin lo -> fin step -> B <= bpow radix2 1022 -> Rabs (B2R lo) <= B ->
  (0 < n <= 2 ^ 53)%Z -> 0 <= B2R step -> IZR n * B2R step <= B ->
  exists es, edges_min_step lo step n = Some es /\ length es = S (Z.to_nat n) /\ Forall (fun x => fin x) es /\
  never_falls (map B2R es) /\ nth_error (map B2R es) 0 = Some (B2R lo) /\
  (forall k x, nth_error (map B2R es) k = Some x -> Rabs (x - (B2R lo + INR k * B2R step)) <= bpow radix2 (-51) * B).
Proof. intros lo step B n Fl Fs HB Bl Hn Ps Bn. exact (min_step_ok lo step Fl Fs B HB Bl n Hn Ps Bn). Qed.
Print Assumptions C111_from_min.

(** Upper end, step, number of bins: the last edge is the upper end *)
Theorem C111_from_max : forall (hi step : f64) (B : R) (n : Z), fin hi -> fin step -> B <= bpow radix2 1022 -> Rabs (B2R hi) <= B ->
  (0 < n <= 2 ^ 53)%Z -> 0 <= B2R step -> IZR n * B2R step <= B ->
  exists es, edges_max_step hi step n = Some es /\ length es = S (Z.to_nat n) /\ Forall (fun x => fin x) es /\
  never_falls (map B2R es) /\ nth_error (map B2R es) (Z.to_nat n) = Some (B2R hi) /\
  (forall k x, nth_error (map B2R es) k = Some x -> Rabs (x - (B2R hi - (IZR n - INR k) * B2R step)) <= bpow radix2 (-51) * B).
Proof. intros hi step B n Fh Fs HB Bh Hn Ps Bn. exact (max_step_ok hi step Fh Fs B HB Bh n Hn Ps Bn). Qed.
Print Assumptions C111_from_max.

(** Both ends and the number of bins: both ends exact *)
Theorem C111_from_ends : forall (lo hi : f64) (B : R) (n : Z), fin lo -> fin hi -> B <= bpow radix2 1022 -> Rabs (B2R lo) <= B -> Rabs (B2R hi) <= B ->
  B2R lo < B2R hi -> (0 < n <= 2 ^ 50)%Z -> IZR n * bpow radix2 (-1022) <= rnd (B2R hi - B2R lo) ->
  exists es, edges_min_max lo hi n = Some es /\ length es = S (Z.to_nat n) /\ Forall (fun x => fin x) es /\
  never_falls (map B2R es) /\ nth_error (map B2R es) 0 = Some (B2R lo) /\ nth_error (map B2R es) (Z.to_nat n) = Some (B2R hi) /\
  (forall k x, nth_error (map B2R es) k = Some x -> Rabs (x - (B2R lo + INR k * ((B2R hi - B2R lo) / IZR n))) <= bpow radix2 (-50) * B) /\
  (bpow radix2 (-49) * B < (B2R hi - B2R lo) / IZR n -> rises (map B2R es)).
Proof. intros lo hi B n Fl Fh HB Bl Bh LH Hn Hd. exact (linspace_ok lo hi Fl Fh B HB Bl Bh LH n Hn Hd). Qed.
Print Assumptions C111_from_ends.

(** Inverted ranges, steps above the rounded difference and numbers of bins below one are refused *)
Theorem C111_refuses :
  (forall lo hi step n, fin lo -> fin hi -> B2R hi <= B2R lo -> edges_min_max_step lo hi step = None /\ edges_min_max lo hi n = None) /\
  (forall lo hi step, fin lo -> fin hi -> fin step -> fin (fsub hi lo) -> rnd (B2R hi - B2R lo) < B2R step -> edges_min_max_step lo hi step = None) /\
  (forall a b n, (n <= 0)%Z -> edges_min_max a b n = None /\ edges_min_step a b n = None /\ edges_max_step a b n = None).
Proof.
  split; [|split].
  - intros lo hi step n Fl Fh H. unfold edges_min_max_step, edges_min_max. rewrite fleb_ok, Rle_bool_true by assumption. split; reflexivity.
  - intros lo hi step Fl Fh Fs Fd H. unfold edges_min_max_step. destruct (fleb hi lo); [reflexivity|].
    destruct (fsub_finite_ok hi lo Fh Fl Fd) as [E _]. rewrite fltb_ok, E, Rlt_bool_true by assumption. reflexivity.
  - intros a b n H. unfold edges_min_max, edges_min_step, edges_max_step. destruct (Z.leb_spec n 0); [|lia]. destruct (fleb b a); repeat split; reflexivity.
Qed.
Print Assumptions C111_refuses.

Definition ratio (a b : Z) : f64 := fdiv (f64_of_Z a) (f64_of_Z b).
Lemma ratio_ok a b : (Z.abs a <= 2 ^ 53)%Z -> (0 < b <= 2 ^ 53)%Z -> Rabs (IZR a / IZR b) <= 1 -> B2R (ratio a b) = rnd (IZR a / IZR b) /\ fin (ratio a b).
Proof.
  intros A Bb H. destruct (f64_of_Z_ok a A) as [A1 A2]. destruct (f64_of_Z_ok b) as [B1 B2]; [lia|]. unfold ratio.
  assert (0 < IZR b) by (apply IZR_lt; lia). destruct (fdiv_ok (f64_of_Z a) (f64_of_Z b) A2) as [E F]; rewrite ?A1, ?B1 in *; [lra| |split; assumption].
  apply small_bound. apply Rabs_le_inv in H. apply Rabs_le. split; [apply rnd_ge; [apply generic_format_opp, F64_1|lra]|apply rnd_le_g; [apply F64_1|lra]].
Qed.

Lemma counted {A} (o : option (list A)) n : option_map (@length _) o = Some n -> exists l, o = Some l /\ length l = n.
Proof. destruct o as [l|]; [|discriminate]. intros [= <-]. exists l. auto. Qed.

(** The ten steps of a tenth from 0 to 1 give nine bins *)
Theorem C111_tenths_refuted : exists step es, fin step /\ B2R step = rnd (1 / 10) /\
  edges_min_max_step (f64_of_Z 0) (f64_of_Z 1) step = Some es /\ length es = 10%nat.
Proof.
  destruct (ratio_ok 1 10) as [E F]; [lia|lia|rewrite Rabs_pos_eq; lra|].
  assert (L : option_map (@length _) (edges_min_max_step (f64_of_Z 0) (f64_of_Z 1) (ratio 1 10)) = Some 10%nat) by (vm_compute; reflexivity).
  apply counted in L. destruct L as (es & L1 & L2). exists (ratio 1 10), es. auto.
Qed.
Print Assumptions C111_tenths_refuted.

(** The case the source marks "should never happen" happens: -0.1 to 0.3 in one step of 0.4 gives one edge and no bin;
    in steps of 0.1 it gives three bins *)
Theorem C111_no_bin_refuted : exists lo hi st1 st4 es1 es4,
  B2R lo = rnd (- 1 / 10) /\ B2R hi = rnd (3 / 10) /\ B2R st1 = rnd (1 / 10) /\ B2R st4 = rnd (4 / 10) /\
  edges_min_max_step lo hi st4 = Some es4 /\ length es4 = 1%nat /\ edges_min_max_step lo hi st1 = Some es1 /\ length es1 = 4%nat.
Proof.
  destruct (ratio_ok (-1) 10) as [E1 _]; [lia|lia|apply Rabs_le; lra|]. destruct (ratio_ok 3 10) as [E2 _]; [lia|lia|apply Rabs_le; lra|].
  destruct (ratio_ok 1 10) as [E3 _]; [lia|lia|apply Rabs_le; lra|]. destruct (ratio_ok 4 10) as [E4 _]; [lia|lia|apply Rabs_le; lra|].
  assert (L : option_map (@length _) (edges_min_max_step (ratio (-1) 10) (ratio 3 10) (ratio 1 10)) = Some 4%nat) by (vm_compute; reflexivity).
  assert (M : option_map (@length _) (edges_min_max_step (ratio (-1) 10) (ratio 3 10) (ratio 4 10)) = Some 1%nat) by (vm_compute; reflexivity).
  apply counted in L, M. destruct L as (es & L1 & L2), M as (es' & M1 & M2). exists (ratio (-1) 10), (ratio 3 10), (ratio 1 10), (ratio 4 10), es, es'. auto 10.
Qed.
Print Assumptions C111_no_bin_refuted.

(** A step below the spacing of the doubles gives repeated edges *)
Theorem C111_repeats_refuted : exists es x, edges_min_max_step (f64_of_Z (2 ^ 53)) (f64_of_Z (2 ^ 53 + 4)) (f64_of_Z 1) = Some es /\
  nth_error (map B2R es) 0 = Some x /\ nth_error (map B2R es) 1 = Some x.
Proof.
  set (o := edges_min_max_step _ _ _). set (a := SpecFloat.S754_finite false 4503599627370496 1).
  assert (L : option_map (fun l => firstn 2 (map B2SF l)) o = Some [a; a]) by (vm_compute; reflexivity).
  clearbody o. destruct o as [es|]; [|discriminate L]. exists es, (SF2R radix2 a). split; [reflexivity|].
  destruct es as [|x [|y t]]; try discriminate L. cbn [option_map map firstn] in L. injection L as L1 L2. cbn [map nth_error]. rewrite <- !SF2R_B2SF, L1, L2. auto.
Qed.
Print Assumptions C111_repeats_refuted.

(** 0 to 10 in steps of 3: 0, 3, 6, 9 *)
Example C111_example : exists es, edges_min_max_step (f64_of_Z 0) (f64_of_Z 10) (f64_of_Z 3) = Some es /\ map B2R es = [0; 3; 6; 9].
Proof.
  destruct (f64_of_Z_ok 0) as [A1 A2]; [lia|]. destruct (f64_of_Z_ok 10) as [B1 B2]; [lia|]. destruct (f64_of_Z_ok 3) as [D1 D2]; [lia|].
  destruct (C111_exact (f64_of_Z 0) (f64_of_Z 10) (f64_of_Z 3) 0 10 3 0) as (es & E & _ & V); try assumption; try (rewrite ?A1, ?B1, ?D1; cbn [bpow]; lra); try lia; [reflexivity|].
  exists es. split; [exact E|]. rewrite V. change (Z.to_nat ((10 - 0) / 3)) with 3%nat. cbn [seq map]. change (bpow radix2 0) with 1. repeat (apply f_equal2; [rewrite Rmult_1_r; reflexivity|]). reflexivity.
Qed.
(** hypotheses of the general theorem: 1 to 2 by the double nearest to 0.3 *)
Example C111_example_edges : let step := ratio 3 10 in whole_steps (rnd (B2R (f64_of_Z 2) - B2R (f64_of_Z 1))) (B2R step) 3 /\ 0 < B2R step <= rnd (B2R (f64_of_Z 2) - B2R (f64_of_Z 1)) /\
  bpow radix2 (-50) * 2 < B2R step.
Proof.
  destruct (f64_of_Z_ok 2) as [A1 _]; [lia|]. destruct (f64_of_Z_ok 1) as [B1 _]; [lia|]. destruct (ratio_ok 3 10) as [E _]; [lia|lia|apply Rabs_le; lra|]. cbv zeta. rewrite A1, B1, E.
  replace (2 - 1) with 1 by ring. rewrite (rnd_id 1 F64_1). assert (A : Rabs (rnd (3 / 10) - 3 / 10) <= / 1000).
  { pose proof (rnd_rel (3 / 10)) as R. rewrite (Rabs_pos_eq (3 / 10)) in R by lra. rewrite u53_val in R.
    assert (bpow radix2 (-1022) <= 3 / 10). { apply Rle_trans with (bpow radix2 (-2)); [apply bpow_le; lia|]. change (bpow radix2 (-2)) with (/ 4). lra. } specialize (R H). lra. }
  apply Rabs_le_inv in A. change (bpow radix2 (-50)) with (/ 1125899906842624). unfold whole_steps. repeat split; lra.
Qed.
(** 0 to 1 in ten equal bins, and ten steps of a half up from and down to 1 *)
Example C111_example_more : option_map (@length _) (edges_min_max (f64_of_Z 0) (f64_of_Z 1) 10) = Some 11%nat /\
  option_map (fun es => B2SF (last es fzero)) (edges_min_step (f64_of_Z 1) (ratio 1 2) 10) = Some (B2SF (f64_of_Z 6)) /\
  option_map (fun es => B2SF (hd fzero es)) (edges_max_step (f64_of_Z 1) (ratio 1 2) 10) = Some (B2SF (f64_of_Z (-4))).
Proof. repeat split; vm_compute; reflexivity. Qed.
