(* Model of circular_average of /repo/skbeam/core/roi.py, 413-469.
   The radii of the pixels (radial_grid, modelled over the reals in RoiPolar_Model.v) are given: the
   code computes them as binary64 numbers, which are rationals.  Images and masks are the raveled
   arrays, the mask having the shape of the image; values are exact rationals. *)
From Verif Require Import Common Utils_Model.

(** indexing an array by a boolean array of its shape *)
Definition take_mask {A} (m : list bool) (l : list A) : list A := map snd (filter fst (combine m l)).
(** 456-459: np.where(mask == 1) *)
Definition select {A} (mask : option (list Z)) (l : list A) : list A :=
  match mask with Some m => take_mask (map (fun z => (z =? 1)%Z) m) l | None => l end.
(** a numpy division; None is nan or an infinity *)
Definition np_div (a b : Qc) : option Qc := if Qc_eqb b 0%Qc then None else Some (a / b)%Qc.
(** circular_average, 413-469; None is an exception *)
Definition circular_average (radial image : list Qc) (threshold : Qc) (nx : Z) (min_x max_x : option Qc) (mask : option (list Z))
  : option (list Qc * list (option Qc)) :=
  let radial := select mask radial in
  let image := select mask image in
  b <- bin_1D radial image (Some nx) min_x max_x ;;
  let '(edges, sums, counts) := b in
  let th_mask := map (fun c => Qc_ltb threshold c) counts in
  let averages := map (fun p => np_div (fst p) (snd p)) (combine (take_mask th_mask sums) (take_mask th_mask counts)) in
  Some (take_mask th_mask (bin_edges_to_centers edges), averages).
