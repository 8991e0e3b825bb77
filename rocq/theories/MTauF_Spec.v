(* Specification of the correlator in double precision, without ring buffers, cursors or label renumbering: which doubles
   are computed from which, in which order.  Blocks, lags and ROI positions as in MultiTau_Spec.v; [running_mean] is the
   stepwise average x1, then m + (x - m) / k for k = 2, 3, ... of RunMean_Model.v, studied on its own under C109. *)
From Coq Require Import Reals.
From Flocq Require Import IEEE754.BinarySingleNaN.
From Verif Require Import Common F64 RunMean_Model RunMean_Spec MultiTau_Spec.
Local Open Scope nat_scope.

(** Pixel p of block k of level l: a frame, or half the sum of the two blocks it consists of. *)
Fixpoint fblock (images : list (list f64)) (l k p : nat) : f64 :=
  match l with
  | O => nth p (nth k images []) fzero
  | S l' => fdiv (fadd (fblock images l' (2 * k) p) (fblock images l' (2 * k + 1) p)) (f64_of_Z 2)
  end.
(** A block is used when none of its ROI pixels is NaN (infinite pixels do not count as bad). *)
Definition fgood (labels : list Z) (images : list (list f64)) (l k : nat) : bool :=
  forallb (fun p => negb (is_nan (fblock images l k p))) (all_positions labels).
Definition fgood_pairs labels images l i : list nat :=
  filter (fun k => fgood labels images l k && fgood labels images l (k + i)) (seq 0 (length images / 2 ^ l - i)).
(** ROI average: pixels added in raster order from 0.0, the sum divided by their number. *)
Definition froi (labels : list Z) (f : nat -> f64) (r : nat) : f64 :=
  fdiv (fold_left fadd (map f (roi_positions labels r)) fzero) (f64_of_Z (Z.of_nat (length (roi_positions labels r)))).

Definition float_G labels images l i r : f64 :=
  running_mean (map (fun k => froi labels (fun p => fmul (fblock images l k p) (fblock images l (k + i) p)) r)
                    (fgood_pairs labels images l i)).
Definition float_past labels images l i r : f64 :=
  running_mean (map (fun k => froi labels (fblock images l k) r) (fgood_pairs labels images l i)).
Definition float_fut labels images l i r : f64 :=
  running_mean (map (fun k => froi labels (fblock images l (k + i)) r) (fgood_pairs labels images l i)).
Definition float_g2 labels images l i r : f64 :=
  fdiv (float_G labels images l i r) (fmul (float_past labels images l i r) (float_fut labels images l i r)).

(** The result: rows up to the first lag where some ROI's past average equals zero. *)
Definition float_result nb L labels images (g2 : list (list f64)) (lags : list nat) : Prop :=
  length g2 = length lags /\ 2 * length g2 <= (L + 1) * nb /\
  (forall l i, is_lag nb L l i -> lag_pos nb l i < length g2 ->
     nth_error lags (lag_pos nb l i) = Some (i * 2 ^ l) /\
     nth_error g2 (lag_pos nb l i) = Some (map (float_g2 labels images l i) (seq 1 (n_rois labels))) /\
     forall r, 1 <= r <= n_rois labels -> Beqb fzero (float_past labels images l i r) = false) /\
  (2 * length g2 < (L + 1) * nb ->
     exists l i r, is_lag nb L l i /\ lag_pos nb l i = length g2 /\
       1 <= r <= n_rois labels /\ Beqb fzero (float_past labels images l i r) = true).

(** What is meant, for images of counts: exact averages over the frames of a block, the pixels of a ROI, and all pairs of
    complete blocks at the lag. *)
Definition exact_block (images : list (list Z)) (l k p : nat) : R :=
  exact_mean (map (fun f => IZR (nth p f 0%Z)) (block_frames images l k)).
Definition exact_roi (labels : list Z) (f : nat -> R) (r : nat) : R := exact_mean (map f (roi_positions labels r)).
Definition block_pairs (images : list (list Z)) (l i : nat) : list nat := seq 0 (length images / 2 ^ l - i).
Definition exact_G labels images l i r : R :=
  exact_mean (map (fun k => exact_roi labels (fun p => exact_block images l k p * exact_block images l (k + i) p)%R r)
                  (block_pairs images l i)).
Definition exact_past labels images l i r : R :=
  exact_mean (map (fun k => exact_roi labels (exact_block images l k) r) (block_pairs images l i)).
Definition exact_fut labels images l i r : R :=
  exact_mean (map (fun k => exact_roi labels (exact_block images l (k + i)) r) (block_pairs images l i)).
Definition exact_g2 labels images l i r : R :=
  (exact_G labels images l i r / (exact_past labels images l i r * exact_fut labels images l i r))%R.
