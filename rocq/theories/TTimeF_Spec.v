(* Specification of two-time correlation in double precision, without ring buffers, time stamps or label renumbering: which
   double stands at which pair of frames.  Blocks of averaged frames as in MTauF_Spec.v, pairs of frames at a reported lag
   as in TwoTime_Spec.v. *)
From Coq Require Import Reals.
From Flocq Require Import Core IEEE754.BinarySingleNaN.
From Verif Require Import Common F64 RunMean_Spec MultiTau_Spec MTauF_Spec.
Local Open Scope nat_scope.

(** ROI sum: pixels added in raster order from 0.0. *)
Definition fsum (labels : list Z) (f : nat -> f64) (r : nat) : f64 := fold_left fadd (map f (roi_positions labels r)) fzero.
(** sum of products / (sum * sum) * number of pixels, for blocks k and k' of level l (frames k and k' when l = 0) *)
Definition float_tt labels images l k k' r : f64 :=
  fmul (fdiv (fsum labels (fun p => fmul (fblock images l k p) (fblock images l k' p)) r)
             (fmul (fsum labels (fblock images l k) r) (fsum labels (fblock images l k') r)))
       (f64_of_Z (Z.of_nat (length (roi_positions labels r)))).
(** The sign of a zero is lost when 0.0 is added; the diagonal is added to itself and taken off again. *)
Definition plain_zero (x : f64) : f64 := match x with B754_zero _ => fzero | _ => x end.
Definition shown (a b : nat) (x : f64) : f64 := if a =? b then fsub (fadd x x) x else plain_zero x.

Definition fentry (g : list (list (list f64))) (q a b : nat) : option f64 :=
  row <- nth_error g a ;; v <- nth_error row b ;; nth_error v q.

(** The pair of frames a >= b belongs to complete blocks k and k - i of level l, at equal offset. *)
Definition on_lag (nb L n a b l k i : nat) : Prop :=
  is_lag nb L l i /\ i <= k /\ (k + 1) * 2 ^ l <= n /\
  exists s, s < 2 ^ l /\ a = k * 2 ^ l + s /\ b = (k - i) * 2 ^ l + s.

(** The whole array, indexed [time][time][roi]: nf x nf, symmetric to the bit, the computed double at every pair of frames
    on a reported lag and 0.0 at the others. *)
Definition float_two_time (nb L nf : nat) (labels : list Z) (images : list (list f64)) (g : list (list (list f64))) : Prop :=
  length g = nf /\ (forall row, In row g -> length row = nf) /\
  (forall row v, In row g -> In v row -> length v = n_rois labels) /\
  (forall q a b, q < n_rois labels -> a < nf -> b < nf -> fentry g q a b = fentry g q b a) /\
  (forall q a b l k i, q < n_rois labels -> on_lag nb L (length images) a b l k i ->
     fentry g q a b = Some (shown a b (float_tt labels images l (k - i) k (q + 1)))) /\
  (forall q a b, q < n_rois labels -> b <= a < nf ->
     (forall l k i, ~ on_lag nb L (length images) a b l k i) -> fentry g q a b = Some fzero).

(** What is meant, for images of counts. *)
Definition exact_tt labels z l k k' r : R :=
  (exact_roi labels (fun p => exact_block z l k p * exact_block z l k' p) r /
   (exact_roi labels (exact_block z l k) r * exact_roi labels (exact_block z l k') r))%R.
