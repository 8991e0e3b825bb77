(* Model of auto_find_center_rings, /repo/skbeam/core/roi.py 713-772.  Library calls are parameters: [ransac i pts] is the
   result of the i-th call of skimage.measure.ransac with CircleModel (None if it raises or finds no model), [perimeter r c radius]
   the pixels of draw.circle_perimeter inside the image.  The grey image after rgb2gray/img_as_float and the pixels found by
   feature.canny, in row-major order, are inputs.  Coordinates and radii in exact arithmetic, no NaN.  None is an exception. *)
From Verif Require Import Common Utils_Model.
Local Open Scope list_scope.

Definition circle := (Qc * Qc * Qc)%type.
Section Auto.
Variables (ransac : nat -> list (nat * nat) -> option (circle * list bool)) (perimeter : Z -> Z -> Z -> list (nat * nat)).
Variables (h w : nat).

(** edge_pts_xy[~inliers], 770: a boolean index of another length raises *)
Definition outliers (pts : list (nat * nat)) (inliers : list bool) : option (list (nat * nat)) :=
  if length inliers =? length pts then Some (map fst (filter (fun t => negb (snd t)) (combine pts inliers))) else None.
(** image[rr, cc] = v, 769 *)
Definition paint (v : Qc) (img : list Qc) (pts : list (nat * nat)) : option (list Qc) :=
  foldM (fun im p => if (fst p <? h) && (snd p <? w) then upd im (fst p * w + snd p) v else None) pts img.
Record state := mkState { st_center : option (Z * Z); st_image : list Qc; st_radii : list Qc; st_pts : list (nat * nat) }.
(** 761-770, the body of the loop *)
Definition ring (s : state) (i : nat) : option state :=
  fit <- ransac i (st_pts s) ;;
  let '((x, y, r), inliers) := fit in
  let center := if i =? 0 then Some (qtrunc x, qtrunc y) else st_center s in
  c <- center ;;
  img <- paint (qn (i + 1)) (st_image s) (perimeter (snd c) (fst c) (qtrunc r)) ;;
  pts <- outliers (st_pts s) inliers ;;
  Some (mkState center img (st_radii s ++ [r]) pts).
(** 757-772; edge_pts_xy = coords[:, ::-1] *)
Definition auto_find_center_rings (image : list Qc) (edges : list (nat * nat)) (no_rings : nat) : option ((Z * Z) * list Qc * list Qc) :=
  s <- foldM ring (seq 0 no_rings) (mkState None image [] (map (fun p => (snd p, fst p)) edges)) ;;
  c <- st_center s ;;
  Some (c, st_image s, st_radii s).
End Auto.
