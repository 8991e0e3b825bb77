(* Model of statistics_1D (/repo/skbeam/core/stats.py 51-93) and bin_grid (/repo/skbeam/core/utils.py
   1210-1253).  scipy.stats.binned_statistic is library code: it is taken to do what it documents, half-open bins,
   the last one closed, samples outside left out; it raises unless there are two strictly increasing edges.
   Its rounding next to the last edge and floating-point rounding of the edges are not modelled.
   statistics_1D over exact rationals, bin_grid over the reals (np.hypot is a square root).  None is an exception. *)
From Coq Require Import Reals.
From Verif Require Import Common Utils_Model.
Local Open Scope list_scope.

Section Scipy.
Context {T V W : Type} (le_b lt_b : T -> T -> bool).
Fixpoint rising (e : list T) : bool := match e with a :: ((b :: _) as r) => lt_b a b && rising r | _ => true end.
Definition within (e : list T) (k : nat) (x : T) : bool :=
  match nth_error e k, nth_error e (S k) with
  | Some a, Some b => le_b a x && (if S (S k) =? length e then le_b x b else lt_b x b)
  | _, _ => false
  end.
Definition scipy_binned (stat : list V -> W) (e : list T) (x : list T) (y : list V) : option (list W) :=
  if (2 <=? length e) && rising e && (length x =? length y)
  then Some (map (fun k => stat (map snd (filter (fun p => within e k (fst p)) (combine x y)))) (seq 0 (length e - 1)))
  else None.
End Scipy.

(** statistics_1D: default interval and number of bins 81-86, edges 89 *)
Definition statistics_1D {W} (x y : list Qc) (stat : list Qc -> W) (nx : option nat) (min_x max_x : option Qc) : option (list Qc * list W) :=
  lo <- (match min_x with Some m => Some m | None => lmin_q x end) ;;
  hi <- (match max_x with Some m => Some m | None => lmax_q x end) ;;
  let bins := linspace lo hi (match nx with Some n => n | None => 100 end) in
  v <- scipy_binned Qc_leb Qc_ltb stat bins x y ;; Some (bins, v).

(** ** bin_grid *)
Local Open Scope R_scope.
Definition rle_b (a b : R) : bool := if Rle_dec a b then true else false.
Definition rlt_b (a b : R) : bool := if Rlt_dec a b then true else false.
Definition least (l : list R) : option R := match l with [] => None | a :: r => Some (fold_left Rmin r a) end.
Definition greatest (l : list R) : option R := match l with [] => None | a :: r => Some (fold_left Rmax r a) end.
Definition ceil (x : R) : Z := (- Int_part (- x))%Z.
(** np.arange(a, b, s) *)
Definition arange (a b s : R) : list R := map (fun k => a + INR k * s) (seq 0 (Z.to_nat (ceil ((b - a) / s)))).
(** r_array[mask], image[mask] *)
Definition keep {A} (mask : list bool) (l : list A) : list A := map fst (filter (fun p => snd p) (combine l mask)).
Fixpoint mid_points (e : list R) : list R := match e with a :: ((b :: _) as r) => (a + b) * / 2 :: mid_points r | _ => [] end.
(** 1243-1253 *)
Definition bin_grid {W} (image r_array : list R) (pixel_sizes : R * R) (stat : list R -> W) (mask : option (list bool)) (bins : option (list R)) : option (list R * list W) :=
  let m := match mask with Some m => m | None => map (fun _ => true) image end in
  e <- (match bins with
        | Some b => Some b
        | None => lo <- least r_array ;; hi <- greatest r_array ;;
                  let res := sqrt (fst pixel_sizes * fst pixel_sizes + snd pixel_sizes * snd pixel_sizes) in
                  Some (arange (lo - res * / 2) (hi + res * / 2) res)
        end) ;;
  v <- scipy_binned rle_b rlt_b stat e (keep m r_array) (keep m image) ;; Some (mid_points e, v).
