(* Model of lines, /repo/skbeam/core/roi.py 674-710.  skimage.draw.line is library code: the midpoint line
   algorithm it uses is written out.  Integer end points.  None is an exception. *)
From Verif Require Import Common.
Local Open Scope list_scope.
Local Open Scope Z_scope.

(** skimage.draw.line(r0, c0, r1, c1): one pixel per step along the longer direction; [steep] exchanges rows and columns *)
Fixpoint walk (n : nat) (r c d dr dc sr sc : Z) (steep : bool) : list (Z * Z) :=
  match n with
  | O => []
  | S n' => (if steep then (c, r) else (r, c)) ::
            (if 0 <=? d then walk n' (r + sr) (c + sc) (d - 2 * dc + 2 * dr) dr dc sr sc steep
             else walk n' r (c + sc) (d + 2 * dr) dr dc sr sc steep)
  end.
Definition line (r0 c0 r1 c1 : Z) : list (Z * Z) :=
  let dr := Z.abs (r1 - r0) in
  let dc := Z.abs (c1 - c0) in
  let sr := if 0 <? r1 - r0 then 1 else -1 in
  let sc := if 0 <? c1 - c0 then 1 else -1 in
  (if dc <? dr then walk (Z.to_nat dr) c0 r0 (2 * dc - dr) dc dr sc sr true
   else walk (Z.to_nat dc) r0 c0 (2 * dr - dc) dr dc sr sc false) ++ [(r1, c1)].

(** label_array[rr, cc] = label: negative indices count from the end, others outside raise *)
Definition flat_index (h w : Z) (p : Z * Z) : option nat :=
  i <- pyindex h (fst p) ;; j <- pyindex w (snd p) ;; Some (i * Z.to_nat w + j)%nat.
Definition paint (h w : Z) (label : nat) (img : list nat) (pts : list (Z * Z)) : option (list nat) :=
  foldM (fun im p => k <- flat_index h w p ;; upd im k label) pts img.
(** 693-710 *)
Definition lines (end_points : list (list Z)) (h w : Z) : option (list nat) :=
  s <- foldM (fun s points =>
    match points with
    | [p0; p1; p2; p3] =>
        img <- paint h w (S (fst s)) (snd s) (line (Z.max p0 0) (Z.max p1 0) (Z.min p2 (h - 1)) (Z.min p3 (w - 1))) ;;
        Some (S (fst s), img)
    | _ => None
    end) end_points (0%nat, repeat 0%nat (Z.to_nat h * Z.to_nat w)) ;;
  Some (snd s).
