(* Binary64 model of /repo/skbeam/core/utils.py radial_grid and /repo/skbeam/core/roi.py
   rings, operation by operation.  Results are flat, in raster order; None is a
   ValueError.  Simplified: the centre, the pixel sizes and the edges are doubles (an
   integer centre gives int64 coordinates, equal to these while they are below 2^26);
   the edges are the raveled list.  np.digitize of a NaN counts every edge, which for an
   even number of edges gives label 0, as here. *)
From Verif Require Import Common F64 GridF_Model Roi_Model.

(** radial_grid, utils.py 592-596, one pixel *)
Definition radiusF (center pixel_size : f64 * f64) (i j : nat) : f64 :=
  let x := fmul (snd pixel_size) (fsub (f64_of_Z (Z.of_nat j)) (snd center)) in
  let y := fmul (fst pixel_size) (fsub (f64_of_Z (Z.of_nat i)) (fst center)) in
  fsqrt (fadd (fmul x x) (fmul y y)).
Definition radial_gridF (center : f64 * f64) (pixel_size : option (f64 * f64)) (h w : nat) : list f64 :=
  let p := match pixel_size with Some p => p | None => (fone, fone) end in       (* 589-590 *)
  concat (tab2 h w (radiusF center p)).
(** roi.py 130: np.diff(edges) >= 0 on two consecutive edges *)
Definition risingF (a b : f64) : bool := fleb fzero (fsub b a).
(** rings, roi.py 99-137; np.digitize and the label of a bin as in Roi_Model *)
Definition ringsF (edges : list f64) (center : f64 * f64) (h w : nat) : option (list nat) :=
  if negb (Nat.even (length edges)) then None                                     (* 125-128 *)
  else if negb (ordered risingF edges) then None                                  (* 130-135 *)
  else Some (make_roi fleb edges (radial_gridF center None h w)).                 (* 136-137 *)
