(* Images whose pixels are of an integer type (detector counts as uint8, uint16, ...).
   /repo/skbeam/core/utils.py: subtract_reference_images 407-456 and bin_1D 520-563; /repo/skbeam/core/roi.py:
   circular_average 413-469; /repo/skbeam/core/accumulators/binned_statistic.py: the standard deviation, 296-301.
   numpy.histogram with given edges and weights of type t works in blocks of 65536 samples (here [block]): it sorts a
   block, sums the weights up in the 64-bit type of the same signedness, looks up the sum at every edge, and adds that
   to an array of type t; the result is the difference of neighbouring entries in type t.  The order numpy's argsort
   gives to equal samples is not fixed: [sort] is any way of sorting the samples.  Radii and edges are exact rationals;
   quotients of integer arrays are floating point, taken as exact. *)
From Verif Require Import Common Utils_Model CircAvg_Model IntType_Model BinStat_Model.

(** ** subtract_reference_images, 454: imgs - ref_imge, pixel by pixel, in the images' type *)
Definition sub_img (t : int_type) (a b : list Z) : list Z := map (fun p => store t (fst p - snd p)%Z) (combine a b).
Definition subtract_reference_ints (t : int_type) (imgs : list (list Z)) (is_reference : list bool) : option (list (list Z)) :=
  subtract_reference_images (sub_img t) imgs is_reference.

(** ** numpy.histogram(a=x, bins=bins, weights=y) *)
Section Hist.
Context (t : int_type) (block : nat) (sort : list (Qc * Z) -> list (Qc * Z)).
Definition wide : int_type := IntType (signed t) 64.
Fixpoint cumsum (acc : Z) (l : list Z) : list Z :=
  match l with [] => [] | w :: r => let a := store wide (acc + w) in a :: cumsum a r end.
Definition searchsorted (right : bool) (l : list Qc) (e : Qc) : nat :=
  length (filter (fun x => if right then Qc_leb x e else Qc_ltb x e) l).
Definition block_cum (bins : list Qc) (blk : list (Qc * Z)) : list Z :=
  let s := sort blk in
  let cw := 0%Z :: cumsum 0 (map snd s) in
  map (fun k => nth (searchsorted (S k =? length bins) (map fst s) (nth k bins 0%Qc)) cw 0%Z) (seq 0 (length bins)).
Fixpoint blocks (fuel : nat) (l : list (Qc * Z)) : list (list (Qc * Z)) :=
  match fuel, l with
  | S fuel', _ :: _ => firstn block l :: blocks fuel' (skipn block l)
  | _, _ => []
  end.
Definition hist_step (bins : list Qc) (cum : list Z) (blk : list (Qc * Z)) : list Z :=
  map (fun p => store t (fst p + snd p)%Z) (combine cum (block_cum bins blk)).
Definition histogram_int (xs : list (Qc * Z)) (bins : list Qc) : list Z :=
  let cum := fold_left (hist_step bins) (blocks (length xs) xs) (repeat 0%Z (length bins)) in
  map (fun k => store t (nth (S k) cum 0 - nth k cum 0)%Z) (seq 0 (length bins - 1)).

(** bin_1D with integer values, 520-563 *)
Definition bin_1D_int (x : list Qc) (y : list Z) (nx : option Z) (min_x max_x : option Qc) : option (list Qc * list Z * list Qc) :=
  lo <- (match min_x with Some m => Some m | None => lmin_q x end) ;;
  hi <- (match max_x with Some m => Some m | None => lmax_q x end) ;;
  let n := match nx with Some n => n | None => qtrunc (hi - lo)%Qc end in
  if (n <? 0)%Z then None else
  if negb (length x =? length y) then None else
  let bins := linspace lo hi (Z.to_nat n) in
  if negb (non_decreasing bins) then None else
  Some (bins, histogram_int (combine x y) bins, histogram_w (map (fun v => (v, 1%Qc)) x) bins).
(** circular_average of an integer image, 413-469 *)
Definition circular_average_int (radial : list Qc) (image : list Z) (threshold : Qc) (nx : Z) (min_x max_x : option Qc) (mask : option (list Z))
  : option (list Qc * list (option Qc)) :=
  let radial := CircAvg_Model.select mask radial in
  let image := CircAvg_Model.select mask image in
  b <- bin_1D_int radial image (Some nx) min_x max_x ;;
  let '(edges, sums, counts) := b in
  let th_mask := map (fun c => Qc_ltb threshold c) counts in
  let averages := map (fun p => np_div (qz (fst p)) (snd p)) (combine (take_mask th_mask sums) (take_mask th_mask counts)) in
  Some (take_mask th_mask (bin_edges_to_centers edges), averages).
End Hist.

(** ** The square of the standard deviation of one flat bin, 296-301: values**2 is of the type of the values, the two
    bincounts are floating point.  A negative number here is the square of nan. *)
Definition std2_int (t : int_type) (xy : list nat) (values : list Z) (j : nat) : option Qc :=
  let k := flatcount xy j in
  if k =? 0 then Some 0%Qc
  else Some (bincount xy (map (fun v => qz (store t (v * v))) values) j / qn k
             - (bincount xy (map qz values) j / qn k) * (bincount xy (map qz values) j / qn k))%Qc.
(** BinnedStatisticDD(..., statistic="std") called with an integer array: as [binned_statistic] of BinStat_Model *)
Definition binned_std2_int (t : int_type) (edges : list (list Qc)) (points : list (list Qc)) (mask : option (list bool)) (values : list Z)
  : option (list nat -> option Qc) :=
  let keep := match mask with Some m => m | None => map (fun _ => true) points end in
  if negb (forallb edges_fine edges && negb (length edges =? 0) && (length keep =? length points)
           && (length values =? length points) && forallb (fun p => length p =? length edges) points) then None else
  let nb := map (fun e => S (length e)) edges in
  let ni := argsort nb in
  let xy := map (fun p => flat_xy nb (BinStat_Model.counts edges (fst p) (snd p)) ni) (combine points keep) in
  Some (fun idx => unsort (std2_int t xy values) nb ni (map S idx)).
