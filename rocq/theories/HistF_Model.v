(* Bin totals and ring averages of floating-point images, in the precision of the image.
   /repo/skbeam/core/utils.py bin_1D 520-563; /repo/skbeam/core/roi.py circular_average 413-469.
   numpy.histogram with given edges and weights works in blocks of 65536 samples (here [block]): it sorts a block by
   position, sums its weights up one after another in the weights' own type (float32 sums stay float32), looks the
   running sum up at every edge, adds that to the array of the earlier blocks, and returns the differences of
   neighbouring entries.  The order numpy's argsort gives to equal positions is not fixed: [sort] is any way of sorting
   the samples.  Positions and edges are doubles compared exactly, here rationals; the edges are those bin_1D has
   computed (EdgesF and Utils_Model treat their computation).  The unweighted histogram counts in integers.  The
   quotient of totals (float32 or float64) by counts (int64) is computed in float64. *)
From Flocq Require Import IEEE754.BinarySingleNaN.
From Verif Require Import Common F64.

Definition searchsorted (right : bool) (l : list Qc) (e : Qc) : nat :=
  length (filter (fun x => if right then Qc_leb x e else Qc_ltb x e) l).
Fixpoint blocks {A} (block fuel : nat) (l : list A) : list (list A) :=
  match fuel, l with
  | S fuel', _ :: _ => firstn block l :: blocks block fuel' (skipn block l)
  | _, _ => []
  end.

Section Hist.
Context (prec emax : Z) {p0 : Prec_gt_0 prec} {p1 : Prec_lt_emax prec emax}.
Local Notation fl := (binary_float prec emax).
Context (block : nat) (sort : list (Qc * fl) -> list (Qc * fl)).
Definition add : fl -> fl -> fl := Bplus mode_NE.
Definition sub : fl -> fl -> fl := Bminus mode_NE.
(** sw.cumsum() *)
Fixpoint running (acc : fl) (l : list fl) : list fl :=
  match l with [] => [] | w :: r => let a := add acc w in a :: running a r end.
Definition cumsum (l : list fl) : list fl := match l with [] => [] | w :: r => w :: running w r end.
Definition block_cum (bins : list Qc) (blk : list (Qc * fl)) : list fl :=
  let s := sort blk in
  let cw := B754_zero false :: cumsum (map snd s) in
  map (fun k => nth (searchsorted (S k =? length bins) (map fst s) (nth k bins 0%Qc)) cw B754_nan) (seq 0 (length bins)).
Definition hist_step (bins : list Qc) (cum : list fl) (blk : list (Qc * fl)) : list fl :=
  map (fun p => add (fst p) (snd p)) (combine cum (block_cum bins blk)).
Definition histogram_float (xs : list (Qc * fl)) (bins : list Qc) : list fl :=
  let cum := fold_left (hist_step bins) (blocks block (length xs) xs) (repeat (B754_zero false) (length bins)) in
  map (fun k => sub (nth (S k) cum B754_nan) (nth k cum B754_nan)) (seq 0 (length bins - 1)).
(** the unweighted histogram *)
Definition histogram_count (xs : list Qc) (bins : list Qc) : list Z :=
  let cum := map (fun k => Z.of_nat (searchsorted (S k =? length bins) xs (nth k bins 0%Qc))) (seq 0 (length bins)) in
  map (fun k => (nth (S k) cum 0 - nth k cum 0)%Z) (seq 0 (length bins - 1)).
(** bin_1D from its edges on, 559-563 *)
Definition bin_1D_float (x : list Qc) (y : list fl) (bins : list Qc) : option (list fl * list Z) :=
  if negb (length x =? length y) then None else Some (histogram_float (combine x y) bins, histogram_count x bins).
(** a float32 or float64 number as float64 *)
Definition widen (x : fl) : f64 :=
  match x with
  | B754_zero s => B754_zero s
  | B754_infinity s => B754_infinity s
  | B754_nan => B754_nan
  | B754_finite s m e _ => f64_of (if s then Zneg m else Zpos m) e
  end.
(** circular_average, 463-465: sums[counts > threshold] / counts[counts > threshold] *)
Definition ring_averages (radial : list Qc) (image : list fl) (bins : list Qc) (threshold : Z) : option (list f64) :=
  b <- bin_1D_float radial image bins ;;
  Some (map (fun p => fdiv (widen (fst p)) (f64_of_Z (snd p))) (filter (fun p => (threshold <? snd p)%Z) (combine (fst b) (snd b)))).
End Hist.
