(* Model of construct_circ_avg_image, /repo/skbeam/core/image.py 104-174, over the real numbers.
   np.interp is modelled for ascending sample points (numpy does not check; other orders give garbage).
   Arrays are flat lists in raster order.  None is an exception. *)
From Coq Require Import Reals.
From Verif Require Import Common Roi_Model RoiPolar_Model Snip_Model.
Local Open Scope R_scope.
Local Open Scope list_scope.

(** np.interp between the ends, piecewise linear *)
Fixpoint seg (x : R) (xp fp : list R) : R :=
  match xp, fp with
  | a :: ((b :: _) as xr), u :: ((v :: _) as fr) => if Rlt_dec x b then (v - u) / (b - a) * (x - a) + u else seg x xr fr
  | _, u :: _ => u
  | _, [] => 0
  end.
(** np.interp(x, xp, fp, right=right) *)
Definition interp (x : R) (xp fp : list R) (right : R) : R :=
  if Rlt_dec x (hd 0 xp) then hd 0 fp else if Rlt_dec (last xp 0) x then right else seg x xp fp.
(** np.max *)
Definition rmax_list (l : list R) : option R := match l with [] => None | a :: r => Some (fold_left Rmax r a) end.
(** int(np.max(radii / pixel_size) + 0.5), 165: division by zero ends in an OverflowError *)
Definition max_pixels (radii : list R) (size : R) : option Z :=
  if Req_EM_T size 0 then None else m <- rmax_list (map (fun r => r / size) radii) ;; Some (trunc (m + 1 / 2)).
(** the function; left and right are arguments it never reads *)
Definition construct_circ_avg_image (radii intensities : list R) (dims : option (nat * nat)) (center : option (R * R)) (size : R * R) (left right : R) : option (nat * nat * list R) :=
  d <- match dims, center with
       | Some d, _ => Some d
       | None, Some _ => None                                                             (* 159-162 *)
       | None, None =>                                                                    (* 165-166 *)
           y <- max_pixels radii (fst size) ;; x <- max_pixels radii (snd size) ;;
           Some (Z.to_nat (2 * y + 1), Z.to_nat (2 * x + 1))
       end ;;
  let c := match center with Some c => c | None => ((INR (fst d) - 1) / 2, (INR (snd d) - 1) / 2) end in   (* 168-169 *)
  if ((length radii =? 0) || negb (length radii =? length intensities))%nat then None
  else Some (d, map (fun r => interp r radii intensities 0) (radial_grid c size (fst d) (snd d))).        (* 171-172 *)
