(* Independent specification of two-time correlation. *)
From Verif Require Import Common MultiTau_Spec.

(** All pixels of ROI [r] are numbers in every frame of block [k], level [l]. *)
Definition roi_numeric (labels : list Z) (fs : list (list (option Qc))) (l k r : nat) : bool :=
  forallb (fun p => forallb (fun f => is_num (nth p f None)) (block_frames fs l k))
          (roi_positions labels r).

(** <I(k) I(k')> / (<I(k)> <I(k')>) over ROI [r], for blocks k, k' of level l
    (at level 0 block k is frame k); None for the nan/inf of a bad pixel or of
    a zero denominator. *)
Definition spec_tt (labels : list Z) (fs : list (list (option Qc))) (l k k' r : nat) : option Qc :=
  if roi_numeric labels fs l k r && roi_numeric labels fs l k' r then
    let d := (roi_avg labels (block_pix fs l k) r * roi_avg labels (block_pix fs l k') r)%Qc in
    if Qc_eqb d 0%Qc then None
    else Some (roi_avg labels (fun p => (block_pix fs l k p * block_pix fs l k' p)%Qc) r / d)%Qc
  else None.

(** Entry (a, b) of ROI number q (counted from 0) in a stack indexed [time][time][roi]. *)
Definition entry (g : list (list (list (option Qc)))) (q a b : nat) : option (option Qc) :=
  row <- nth_error g a ;; v <- nth_error row b ;; nth_error v q.

(** The pair of frames (a, b), a >= b, lies on a reported lag: it belongs to
    complete blocks k and k - i of some level, at equal offset s. *)
Definition on_lag (nb L n a b l k i : nat) : Prop :=
  is_lag nb L l i /\ i <= k /\ (k + 1) * 2 ^ l <= n /\
  exists s, s < 2 ^ l /\ a = k * 2 ^ l + s /\ b = (k - i) * 2 ^ l + s.

(** Mean of the numbers in a list; None when there are none. *)
Fixpoint numbers (l : list (option Qc)) : list Qc :=
  match l with [] => [] | Some x :: r => x :: numbers r | None :: r => numbers r end.
