(* Model of /repo/skbeam/core/utils.py radial_grid and angle_grid and of
   /repo/skbeam/core/roi.py rings and segmented_rings over the real numbers.
   Rounding is not modelled.  Shapes are natural numbers; results are flat, in
   raster order.  None is a ValueError. *)
From Coq Require Import Reals.
From Verif Require Import Common Roi_Model.
Local Open Scope R_scope.

Definition Rleb (x y : R) : bool := if Rle_dec x y then true else false.
(** the grid coordinates of pixel (i, j): utils.py 593-595 and 632-635 *)
Definition grid_x (center pixel_size : R * R) (j : nat) : R := snd pixel_size * (INR j - snd center).
Definition grid_y (center pixel_size : R * R) (i : nat) : R := fst pixel_size * (INR i - fst center).
(** radial_grid, utils.py 566-596, one pixel *)
Definition radius (center pixel_size : R * R) (i j : nat) : R :=
  let x := grid_x center pixel_size j in let y := grid_y center pixel_size i in sqrt (x * x + y * y).
Definition radial_grid (center pixel_size : R * R) (h w : nat) : list R :=
  concat (tab2 h w (radius center pixel_size)).
(** np.arctan2 (zeros are unsigned here) *)
Definition atan2 (y x : R) : R :=
  if Rlt_dec 0 x then atan (y / x)
  else if Rlt_dec x 0 then (if Rlt_dec y 0 then atan (y / x) - PI else atan (y / x) + PI)
  else if Rlt_dec 0 y then PI / 2 else if Rlt_dec y 0 then - (PI / 2) else 0.
(** angle_grid, utils.py 599-636, one pixel *)
Definition angle (center pixel_size : R * R) (i j : nat) : R :=
  atan2 (grid_y center pixel_size i) (grid_x center pixel_size j).
Definition angle_grid (center pixel_size : R * R) (h w : nat) : list R :=
  concat (tab2 h w (angle center pixel_size)).

(** rings, roi.py 99-137 *)
Definition rings (edges : list R) (center : R * R) (h w : nat) : option (list nat) :=
  if negb (edges_ok Rleb edges) then None
  else Some (make_roi Rleb edges (radial_grid center (1, 1) h w)).

(** segmented_rings, roi.py 224-298 *)
Inductive segments := SegNum (n : nat) | SegList (l : list R).
(** 275-281; np.linspace(0, 2 pi, num = 1 + n) *)
Definition segment_edges (s : segments) (offset : R) : list R :=
  match s with
  | SegList l => map (fun x => x + offset) l
  | SegNum n => map (fun k => 2 * PI * INR k / INR n + offset) (seq 0 (1 + n))
  end.
(** 273 *)
Definition wrap_angle (a : R) : R := if Rlt_dec a 0 then 2 * PI + a else a.
(** 285 np.digitize: non-decreasing bins, else non-increasing, else ValueError *)
Definition Rgtb (x y : R) : bool := if Rlt_dec y x then true else false.
Definition bins_ok (bins : list R) : bool := ordered Rleb bins || ordered Rleb (rev bins).
Definition np_digitize (bins : list R) (x : R) : nat :=
  if ordered Rleb bins then digitize Rleb bins x else digitize Rgtb bins x.
(** 292-296, one pixel: the loop over rings i = 0, 1, ... *)
Fixpoint seg_loop (edges : list R) (len ind i : nat) (r : R) (label : nat) : nat :=
  match edges with
  | lo :: hi :: rest =>
      seg_loop rest len ind (S i) r (if Rleb lo r && Rgtb hi r then ind + (len - 1) * i else label)%nat
  | _ => label
  end.
Definition seg_pixel (edges segs : list R) (ind : nat) (r : R) : nat := seg_loop edges (length segs) ind 0 r 0.
(** An empty list of segments (labels -i in the code) is not modelled. *)
Definition segmented_rings (edges : list R) (s : segments) (center : R * R) (h w : nat) (offset : R)
  : option (list nat) :=
  let segs := segment_edges s offset in
  if negb (edges_ok Rleb edges) || negb (bins_ok segs) then None else
  Some (concat (tab2 h w (fun i j =>
    let ind := np_digitize segs (wrap_angle (angle center (1, 1) i j)) in
    seg_pixel edges segs ind (radius center (1, 1) i j)))).

(** radius_to_twotheta, /repo/skbeam/core/utils.py 638-657, one element; R gives no infinity, so dist_sample must not be 0 *)
Definition radius_to_twotheta (dist_sample radius : R) : R := atan (radius / dist_sample).
