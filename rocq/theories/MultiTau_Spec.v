(* Independent specification of multi-tau correlation: no ring buffer, no
   cursor, no running mean, no label renumbering.  Images are lists of pixels
   (None = NaN) in raster order; [labels] is the raster label array given by
   the user, background being every label <= 0. *)
From Verif Require Import Common.

(** The frames of block [k] at level [l]: 2^l consecutive frames, aligned. *)
Definition block_frames {A} (fs : list A) (l k : nat) : list A :=
  firstn (2 ^ l) (skipn (k * 2 ^ l) fs).

(** Arithmetic mean of a list of rationals; the empty mean is reported as 0. *)
Definition mean (l : list Qc) : Qc :=
  match l with [] => 0%Qc | _ => (qsum l / qn (length l))%Qc end.

Definition is_num (p : option Qc) : bool := match p with Some _ => true | None => false end.
Definition num (p : option Qc) : Qc := match p with Some x => x | None => 0%Qc end.

(** ROI number of a positive label [x]: how many distinct positive labels are
    at most [x]; so the smallest positive label is ROI 1, and so on. *)
Definition roi_no (labels : list Z) (x : Z) : nat :=
  length (nodup Z.eq_dec (filter (fun y => (0 <? y)%Z && (y <=? x)%Z) labels)).
Definition n_rois (labels : list Z) : nat :=
  length (nodup Z.eq_dec (filter (fun y => (0 <? y)%Z) labels)).

(** Raster positions of the pixels of ROI [r], and of all ROIs. *)
Definition roi_positions (labels : list Z) (r : nat) : list nat :=
  filter (fun p => (0 <? nth p labels 0%Z)%Z && (roi_no labels (nth p labels 0%Z) =? r))
         (seq 0 (length labels)).
Definition all_positions (labels : list Z) : list nat :=
  filter (fun p => (0 <? nth p labels 0%Z)%Z) (seq 0 (length labels)).

(** Pixel [p] of the block image: mean over the frames of the block. *)
Definition block_pix (fs : list (list (option Qc))) (l k p : nat) : Qc :=
  mean (map (fun f => num (nth p f None)) (block_frames fs l k)).

(** Mean of possibly-NaN pixels: NaN as soon as one of them is NaN. *)
Definition pmean (u : list (option Qc)) : option Qc :=
  if forallb is_num u then Some (mean (map num u)) else None.

(** A block is good when no ROI pixel of any of its frames is NaN. *)
Definition good (labels : list Z) (fs : list (list (option Qc))) (l k : nat) : bool :=
  forallb (fun f => forallb (fun p => is_num (nth p f None)) (all_positions labels))
          (block_frames fs l k).

(** All pairs (k, k+i) of complete blocks at level [l], both good; listed by
    the index k of the earlier block. *)
Definition good_pairs labels fs l i : list nat :=
  filter (fun k => good labels fs l k && good labels fs l (k + i))
         (seq 0 (length fs / 2 ^ l - i)).

(** ROI average of a pixel function. *)
Definition roi_avg (labels : list Z) (f : nat -> Qc) (r : nat) : Qc :=
  mean (map f (roi_positions labels r)).

Definition spec_G labels fs l i r : Qc :=
  mean (map (fun k => roi_avg labels
                        (fun p => (block_pix fs l k p * block_pix fs l (k + i) p)%Qc) r)
            (good_pairs labels fs l i)).
Definition spec_past labels fs l i r : Qc :=
  mean (map (fun k => roi_avg labels (block_pix fs l k) r) (good_pairs labels fs l i)).
Definition spec_fut labels fs l i r : Qc :=
  mean (map (fun k => roi_avg labels (block_pix fs l (k + i)) r) (good_pairs labels fs l i)).

(** g2 = G / (past * future); None stands for the nan/inf numpy produces when
    the denominator is zero. *)
Definition spec_g2 labels fs l i r : option Qc :=
  let d := (spec_past labels fs l i r * spec_fut labels fs l i r)%Qc in
  if Qc_eqb d 0%Qc then None else Some (spec_G labels fs l i r / d)%Qc.

(** The (level, multiple) pairs that are reported: all multiples below nb at
    level 0, the upper half at every other level; the lag is i * 2^l and its
    position on the lag axis is l * nb / 2 + i. *)
Definition is_lag (nb L l i : nat) : Prop :=
  l < L /\ i < nb /\ (l = 0 \/ nb / 2 <= i).
Definition lag_pos (nb l i : nat) : nat := l * (nb / 2) + i.
