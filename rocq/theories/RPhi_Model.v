(* Model of construct_rphi_avg_image, /repo/skbeam/core/image.py 177-292, over the real numbers.
   A pixel is None when it is nan; an exception is None.  angles and image are the caller's arrays:
   the run returns what they hold afterwards.  Both are taken to be float arrays.
   RegularGridInterpolator is written out for the default (linear) method on two axes of at least two
   points; it is taken to refuse axes that are not strictly ascending (recent scipy also takes strictly
   descending ones). *)
From Coq Require Import Reals.
From Verif Require Import Common Roi_Model RoiPolar_Model Snip_Model ImgCirc_Model.
Local Open Scope R_scope.
Local Open Scope list_scope.

Record picture := Pic { nr : nat; nc : nat; data : list (option R) }.
Definition px (p : picture) (k l : nat) : option R := nth (k * nc p + l)%nat (data p) None.
(** x % (2 pi): the remainder of the floor division *)
Definition fmod (x : R) : R := x - 2 * PI * IZR (Int_part (x / (2 * PI))).
Fixpoint non_decreasing (l : list R) : bool := match l with a :: ((b :: _) as r) => negb (if Rlt_dec b a then true else false) && non_decreasing r | _ => true end.
Fixpoint ascending (l : list R) : bool := match l with a :: ((b :: _) as r) => (if Rlt_dec a b then true else false) && ascending r | _ => true end.
(** image[np.where(mask == 0)] = np.nan, 236 *)
Definition masked (p : picture) (m : list bool) : picture := Pic (nr p) (nc p) (map (fun q => if snd q : bool then fst q else None) (combine (data p) m)).
(** imagep, 276-279: the last column in front, the first one behind *)
Definition padded (p : picture) (k m : nat) : option R :=
  if (m =? 0)%nat then px p k (nc p - 1) else if (m =? S (nc p))%nat then px p k 0 else px p k (m - 1).
(** the interval of the grid that holds x *)
Fixpoint cell (x : R) (grid : list R) : nat :=
  match grid with _ :: ((b :: _ :: _) as r) => if Rle_dec x b then 0%nat else S (cell x r) | _ => 0%nat end.
Definition frac (x : R) (grid : list R) (k : nat) : R := (x - nth k grid 0) / (nth (S k) grid 0 - nth k grid 0).
(** RegularGridInterpolator((radii, anglesp), imagep, bounds_error=False, fill_value=nan) at one point *)
Definition interpolate (radii anglesp : list R) (val : nat -> nat -> option R) (r t : R) : option R :=
  if Rlt_dec r (hd 0 radii) then None else if Rlt_dec (last radii 0) r then None else
  if Rlt_dec t (hd 0 anglesp) then None else if Rlt_dec (last anglesp 0) t then None else
  let k := cell r radii in let m := cell t anglesp in
  let u := frac r radii k in let s := frac t anglesp m in
  v00 <- val k m ;; v01 <- val k (S m) ;; v10 <- val (S k) m ;; v11 <- val (S k) (S m) ;;
  Some (v00 * (1 - u) * (1 - s) + v01 * (1 - u) * s + v10 * u * (1 - s) + v11 * u * s).
(** 259-292, after the caller's angles have been shifted by anglemin *)
Definition rphi_body (radii : list R) (anglemin : R) (angles : list R) (p : picture) (center size : R * R) (h w : nat) : option (nat * nat * list (option R)) :=
  let am := map fmod angles in
  if negb (non_decreasing am) then None
  else
    let anglesp := (last am 0 - 2 * PI) :: am ++ [hd 0 am + 2 * PI] in
    if (nc p =? 0)%nat then None                                                          (* image[:, -1] *)
    else if negb (ascending radii && ascending anglesp && (length radii =? nr p)%nat && (length anglesp =? nc p + 2)%nat && (2 <=? length radii)%nat) then None
    else Some (h, w, map (fun q => interpolate radii anglesp (padded p) (fst q) (fmod (snd q - anglemin))) (combine (radial_grid center size h w) (angle_grid center size h w))).
(** what the call returns, and what the caller's angles and image hold afterwards *)
Record outcome := Out { returned : option (nat * nat * list (option R)); angles_after : list R; image_after : picture }.
(** 237-257 *)
Definition rphi_rest (radii angles : list R) (p : picture) (center : option (R * R)) (shape : option (nat * nat)) (size : R * R) : outcome :=
  match (match shape, center with
         | Some d, _ => Some d
         | None, Some _ => None
         | None, None => y <- max_pixels radii (fst size) ;; x <- max_pixels radii (snd size) ;; Some (Z.to_nat (2 * y + 1), Z.to_nat (2 * x + 1))
         end) with
  | None => Out None angles p
  | Some (h, w) =>
      let c := match center with Some c => c | None => ((INR h - 1) / 2, (INR w - 1) / 2) end in
      match angles with
      | [] => Out None angles p
      | a0 :: _ => let shifted := map (fun a => a - a0) angles in Out (rphi_body radii a0 shifted p c size h w) shifted p
      end
  end.
Definition construct_rphi_avg_image (radii angles : list R) (p : picture) (mask : option (nat * nat * list bool)) (center : option (R * R)) (shape : option (nat * nat)) (size : R * R) : outcome :=
  match mask with
  | Some (mh, mw, m) => if negb ((mh =? nr p) && (mw =? nc p))%nat then Out None angles p else rphi_rest radii angles (masked p m) center shape size
  | None => rphi_rest radii angles p center shape size
  end.
