(* Model of the classes built on BinnedStatisticDD, /repo/skbeam/core/accumulators/binned_statistic.py:
   BinnedStatistic1D 352-441, BinnedStatistic2D 444-545, RPhiBinnedStatistic 548-661 and
   RadialBinnedStatistic 664-..., and of the constructor of BinnedStatisticDD with the array it masks
   made explicit (154-161).  Exact rationals.  The maps of radii and angles are arguments. *)
From Coq Require Import Qround.
From Verif Require Import Common Utils_Model Roi_Model BinStat_Model.
Local Open Scope list_scope.

(** element type of the sample array; storing into an integer array truncates towards zero *)
Inductive dtype := Float | Int.
Definition to_int (x : Qc) : Z := if Qc_ltb x 0%Qc then (- Qfloor (this (- x)%Qc))%Z else Qfloor (this x).
Definition store (d : dtype) (x : Qc) : Qc := match d with Float => x | Int => qz (to_int x) end.
(** 155-161: masked rows of the sample are overwritten, axis by axis *)
Definition masked_sample (d : dtype) (edges points : list (list Qc)) (mask : option (list bool)) : list (list Qc) :=
  match mask with
  | None => points
  | Some m => map (fun p => if snd p : bool then fst p else map (fun e => store d (masked_value e)) edges) (combine points m)
  end.
(** an (N, D) array is used in place, a sequence of D arrays is copied first (103-109) *)
Inductive source := NDArray | Sequence.
Definition sample_after (src : source) (d : dtype) (edges points : list (list Qc)) (mask : option (list bool)) : list (list Qc) :=
  match src with NDArray => masked_sample d edges points mask | Sequence => points end.
Definition statistic_dd (d : dtype) (edges points : list (list Qc)) (mask : option (list bool)) (order : list nat -> list nat) (st : stat) (values : list Qc) : option (list nat -> option Qc) :=
  if match mask with Some m => length m =? length points | None => true end
  then binned_statistic edges (masked_sample d edges points mask) None order st values else None.

(** ** bins and range *)
Inductive item := Num (x : Qc) | Arr (e : list Qc).
Inductive bins_arg := Count (n : nat) | Seqn (l : list item).
(** 141-147: bins[i] a number (stored in an integer array) or edges *)
Definition axis_bins (i : item) : bins1 := match i with Num x => BNum (Z.to_nat (to_int x)) | Arr e => BEdges e end.
Fixpoint numbers (l : list item) : option (list Qc) :=
  match l with [] => Some [] | Num x :: r => n <- numbers r ;; Some (x :: n) | Arr _ :: _ => None end.
Definition limits (range : option (Qc * Qc)) (x : list Qc) : option (Qc * Qc) :=
  match range with Some r => Some r | None => lo <- lmin_q x ;; hi <- lmax_q x ;; Some (lo, hi) end.
(** BinnedStatistic1D, 413-425 *)
Definition bins_1d (b : bins_arg) : option bins1 :=
  match b with Count n => Some (BNum n) | Seqn [i] => Some (axis_bins i) | Seqn l => e <- numbers l ;; Some (BEdges e) end.
Definition statistic_1d (d : dtype) (x : list Qc) (bins : bins_arg) (range : option (Qc * Qc)) (mask : option (list bool)) order st values : option (list nat -> option Qc) :=
  b <- bins_1d bins ;; r <- limits range x ;;
  statistic_dd d [edges_of b (fst r) (snd r)] (map (fun v => [v]) x) mask order st values.
(** BinnedStatistic2D, 501-511 *)
Definition bins_2d (b : bins_arg) : option (bins1 * bins1) :=
  match b with
  | Count n => Some (BNum n, BNum n)
  | Seqn [i; j] => Some (axis_bins i, axis_bins j)
  | Seqn [_] => None
  | Seqn l => e <- numbers l ;; Some (BEdges e, BEdges e)
  end.
Definition statistic_2d (d : dtype) (x y : list Qc) (bins : bins_arg) (range : option ((Qc * Qc) * (Qc * Qc))) (mask : option (list bool)) order st values : option (list nat -> option Qc) :=
  if negb (length x =? length y) then None else
  b <- bins_2d bins ;; rx <- limits (option_map fst range) x ;; ry <- limits (option_map snd range) y ;;
  statistic_dd d [edges_of (fst b) (fst rx) (snd rx); edges_of (snd b) (fst ry) (snd ry)] (map (fun p => [fst p; snd p]) (combine x y)) mask order st values.
(** RadialBinnedStatistic and RPhiBinnedStatistic: shapes of mask and values are checked, the rest is flattened *)
Definition shaped (h w : nat) (s : nat * nat) : bool := ((fst s =? h) && (snd s =? w))%nat.
Definition radial_statistic (h w : nat) (d : dtype) (r_map : list Qc) (mask : option ((nat * nat) * list bool)) bins range order st (values : (nat * nat) * list Qc) : option (list nat -> option Qc) :=
  if negb (match mask with Some m => shaped h w (fst m) | None => true end && shaped h w (fst values)) then None
  else statistic_1d d r_map bins range (option_map snd mask) order st (snd values).
Definition rphi_statistic (h w : nat) (d : dtype) (r_map phi_map : list Qc) (mask : option ((nat * nat) * list bool)) bins range order st (values : (nat * nat) * list Qc) : option (list nat -> option Qc) :=
  if negb (match mask with Some m => shaped h w (fst m) | None => true end && shaped h w (fst values)) then None
  else statistic_2d d r_map phi_map bins range (option_map snd mask) order st (snd values).
