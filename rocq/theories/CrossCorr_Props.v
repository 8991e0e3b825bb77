(* Property theorem C10 (spatial cross-correlation). *)
From Verif Require Import Common Sums CrossCorr_Model CrossCorr_Spec CrossCorr_Main.
From Coq Require Import Sorting.Sorted.

Definition cc_q (l : list Z) : list Qc := map qz l.

(** C10, 1-D: the value at centred lag d is the sum over m of img1[m]*img2[m-d]. *)
Theorem C10_lag_convention : forall x y d, length x = length y ->
  (- Z.of_nat (length x) < d < Z.of_nat (length x))%Z ->
  lag1 x y d = Some (sumn (length x) (fun m => (nth m x 0 * ext y (Z.of_nat m - d))%Qc)).
Proof. exact lag1_ok. Qed.
Print Assumptions C10_lag_convention.
Example C10_ex1 : map (fun d => option_map this (lag1 (cc_q [1;2;3]%Z) (cc_q [4;5;6]%Z) d)) [-2;-1;0;1;2]%Z
  = [Some 6; Some 17; Some 32; Some 23; Some 12]%Q.
Proof. vm_compute. reflexivity. Qed.

(** C10, 1-D: an image moved right by s has its unique peak at lag -s. *)
Theorem C10_shift_moves_peak_left : forall x y s, moved_right x y s ->
  (- Z.of_nat (length x) < s < Z.of_nat (length x))%Z ->
  (exists v, In v x /\ v <> 0%Qc) ->
  exists top, lag1 x y (- s) = Some top /\
    forall d v, (- Z.of_nat (length x) < d < Z.of_nat (length x))%Z -> d <> (- s)%Z ->
      lag1 x y d = Some v -> (v < top)%Qc.
Proof. exact shifted_peak. Qed.
Print Assumptions C10_shift_moves_peak_left.
Example C10_ex2 : moved_right (cc_q [1;2;0;0]%Z) (cc_q [0;1;2;0]%Z) 1 /\
  map (fun d => option_map this (lag1 (cc_q [1;2;0;0]%Z) (cc_q [0;1;2;0]%Z) d)) [-3;-2;-1;0;1;2;3]%Z
  = [Some 0; Some 2; Some 5; Some 2; Some 0; Some 0; Some 0]%Q.
Proof.
  split; [|vm_compute; reflexivity].
  split; [reflexivity|]. intros z. unfold ext, cc_q. cbn [map].
  assert (C : (z < 0 \/ z = 0 \/ z = 1 \/ z = 2 \/ z = 3 \/ z = 4 \/ 4 < z)%Z) by lia.
  destruct C as [C|[->|[->|[->|[->|[->|C]]]]]]; try reflexivity.
  - replace (0 <=? z)%Z with false by lia. replace (0 <=? z - 1)%Z with false by lia. reflexivity.
  - rewrite !nth_overflow by (cbn; lia). destruct (_ <=? _)%Z, (_ <=? _)%Z; reflexivity.
Qed.

Lemma good_shape_iff hh ww m : good_shape hh ww m = true <-> length m = hh /\ forall r, In r m -> length r = ww.
Proof.
  unfold good_shape. rewrite andb_true_iff, Nat.eqb_eq, forallb_forall. split; intros [A B]; split; auto; intros r R; specialize (B r R); [apply Nat.eqb_eq in B|apply Nat.eqb_eq]; exact B.
Qed.

(** C10, 2-D with mask: for every region id and every lag of the returned array the
    value is the overlap sum with the selected normalisations; lags outside the
    array have an empty overlap. *)
Theorem C10_masked : forall symavg regular mask hh ww img1 img2,
  wfmask hh ww mask ->
  length img1 = hh -> (forall r, In r img1 -> length r = ww) ->
  (forall i2, img2 = Some i2 -> length i2 = hh /\ forall r, In r i2 -> length r = ww) ->
  let second := match img2 with None => img1 | Some i2 => i2 end in
  exists outs ids, correlate symavg regular mask hh ww img1 img2 = Some outs /\
    length outs = length ids /\ StronglySorted lt ids /\
    (forall id, In id ids <-> id <> 0 /\ In id (concat mask)) /\
    forall k id, nth_error ids k = Some id ->
      exists out h w, nth_error outs k = Some out /\ 1 <= h /\ 1 <= w /\
        length out = 2 * h - 1 /\ (forall r, In r out -> length r = 2 * w - 1) /\
        (forall dy dx, (- Z.of_nat h < dy < Z.of_nat h)%Z -> (- Z.of_nat w < dx < Z.of_nat w)%Z ->
           entry2 out h w dy dx
           = Some (spec_call symavg regular mask hh ww id (zpix img1) (zpix second) (dy, dx))) /\
        (forall dy dx, ~ ((- Z.of_nat h < dy < Z.of_nat h)%Z /\ (- Z.of_nat w < dx < Z.of_nat w)%Z) ->
           overlap mask hh ww id (dy, dx) = []).
Proof.
  intros symavg regular mask hh ww img1 img2 M A B C. apply (correlate_ok symavg regular mask hh ww img1 img2 M).
  - apply good_shape_iff. auto.
  - intros i2 E. apply good_shape_iff. exact (C i2 E).
Qed.
Print Assumptions C10_masked.
Definition cc_mask := [[0; 2; 2]; [7; 2; 0]].
Definition cc_img1 := [cc_q [9; 1; 2]; cc_q [5; 3; 9]]%Z.
Definition cc_img2 := [cc_q [9; 4; 1]; cc_q [2; 6; 9]]%Z.
Example C10_ex3 : wfmask 2 3 cc_mask /\ map (@length Qc) cc_img1 = [3; 3] /\ map (@length Qc) cc_img2 = [3; 3]
  /\ option_map (map (map (map (option_map this)))) (correlate false false cc_mask 2 3 cc_img1 (Some cc_img2))
  = Some [[[Some 0; Some 6; Some 12]; [Some 1; Some 24; Some 8]; [Some 3; Some 12; Some 0]]; [[Some 10]]]%Q
  /\ option_map (map (map (map (option_map this)))) (correlate true false cc_mask 2 3 cc_img1 (Some cc_img2))
  = Some [[[None; Some 1; Some 1]; [Some 1; Some (12 # 11); Some 1]; [Some 1; Some 1; None]]; [[Some 1]]]%Q.
Proof.
  split; [split; [reflexivity|intros r [<-|[<-|[]]]; reflexivity]|].
  repeat split; vm_compute; reflexivity.
Qed.

(** Autocorrelation is symmetric about the centre. *)
Theorem C10_autocorrelation_symmetric : forall symavg regular mask hh ww img outs,
  wfmask hh ww mask ->
  correlate symavg regular mask hh ww img None = Some outs ->
  forall out, In out outs -> map (@rev (option Qc)) (rev out) = out.
Proof. exact auto_symmetric. Qed.
Print Assumptions C10_autocorrelation_symmetric.
Example C10_ex4 : option_map (map (map (map (option_map this)))) (correlate false true cc_mask 2 3 cc_img1 None)
  = Some [[[None; Some (3 # 4); Some (3 # 2)]; [Some (1 # 2); Some (7 # 6); Some (1 # 2)];
           [Some (3 # 2); Some (3 # 4); None]]; [[Some 1]]]%Q.
Proof. vm_compute. reflexivity. Qed.

(** Images of the wrong shape are rejected. *)
Theorem C10_bad_shape : forall symavg regular mask hh ww img1 img2 i,
  i = img1 \/ img2 = Some i -> length i <> hh \/ (exists r, In r i /\ length r <> ww) ->
  correlate symavg regular mask hh ww img1 img2 = None.
Proof.
  intros symavg regular mask hh ww img1 img2 i I D. apply correlate_bad_shape.
  assert (E : good_shape hh ww i = false).
  { destruct (good_shape hh ww i) eqn:E; [|reflexivity]. apply good_shape_iff in E as [E1 E2]. destruct D as [D|(r & R & D)]; [congruence|]. destruct (D (E2 r R)). }
  destruct I as [<-|I]; [left; exact E|right; eauto].
Qed.
Print Assumptions C10_bad_shape.
Example C10_ex5 : correlate false false cc_mask 2 3 cc_img1 (Some [cc_q [1; 2]]%Z) = None. Proof. reflexivity. Qed.
(** Curves of different lengths are not correlated. *)
Theorem C10_lengths : forall x y d, length x <> length y -> lag1 x y d = None.
Proof.
  intros x y d N. unfold lag1, cross_corr, shape. cbn [length]. rewrite Nat.eqb_refl. destruct (Nat.eqb_spec (length x) (length y)); [congruence|reflexivity].
Qed.
Print Assumptions C10_lengths.
