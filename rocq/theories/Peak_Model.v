(* Model of /repo/skbeam/core/feature.py, /repo/skbeam/core/fitting/funcs.py
   (fit_quad_to_peak) and find_largest_peak / align_and_scale of
   /repo/skbeam/core/spectroscopy.py.

   Fits are over the reals; np.linalg.lstsq is a parameter.  A value that is not finite in
   the code (0/0, log of a non-positive number, root of a negative one) is None; a non-finite
   logarithm makes lstsq fail.  np.argsort is a parameter: its order of ties is not
   specified. *)
From Coq Require Import Reals.
From Verif Require Import Common.
Local Open Scope R_scope.

(** ** feature.py *)
(** what a refine function does: return, raise PeakRejection, raise anything else *)
Inductive refined (B : Type) := Found (b : B) | Rejected | Raised.
Arguments Found {B} b. Arguments Rejected {B}. Arguments Raised {B}.
(** slice(max(0, ind - window), min(max_ind, ind + window + 1)), 129, 288 *)
Definition window_of {A} (n : Z) (l : list A) (ind w : Z) : list A := pyslice l (Z.max 0 (ind - w)) (Z.min n (ind + w + 1)).
Section Refine.
Context {A B C : Type} (refine : list A -> list A -> refined (B * C)).
Fixpoint refine_all (x y : list A) (w : Z) (cands : list Z) : option (list (B * C)) :=
  match cands with
  | [] => Some []
  | ind :: r =>
      let n := Z.of_nat (length x) in
      match refine (window_of n x ind w) (window_of n y ind w) with
      | Found p => rest <- refine_all x y w r ;; Some (p :: rest)
      | Rejected => refine_all x y w r
      | Raised => None
      end
  end.
(** peak_refinement, 62-139: the empty tuple (None inside) when nothing was found *)
Definition peak_refinement (x y : list A) (cands : list Z) (w : Z) : option (option (list B * list C)) :=
  l <- refine_all x y w cands ;; Some (match l with [] => None | _ => Some (map fst l, map snd l) end).
End Refine.

(** l[i] for every i of a list of indices *)
Fixpoint takes {A} (l : list A) (is : list Z) : option (list A) :=
  match is with [] => Some [] | i :: r => k <- pyindex (Z.of_nat (length l)) i ;; v <- nth_error l k ;; rest <- takes l r ;; Some (v :: rest) end.
Inductive ferr := ValueErr | IndexErr.
(** filter_n_largest, 220-254 *)
Definition filter_n_largest (argsort : list Qc -> list nat) (y : list Qc) (cands : list Z) (N : Z) : list Z + ferr :=
  if (N <=? 0)%Z then inr ValueErr
  else match takes y cands with
       | None => inr IndexErr
       | Some h =>
           let s := argsort h in
           let s := if (Z.of_nat (length cands) <? N)%Z then s else pyslice s (- N) (Z.of_nat (length s)) in
           match takes cands (map Z.of_nat s) with Some r => inl (rev r) | None => inr IndexErr end
       end.
(** np.ptp *)
Fixpoint qmaxl (a : Qc) (l : list Qc) : Qc := match l with [] => a | b :: r => qmaxl (if Qc_ltb a b then b else a) r end.
Fixpoint qminl (a : Qc) (l : list Qc) : Qc := match l with [] => a | b :: r => qminl (if Qc_ltb b a then b else a) r end.
Definition ptp (l : list Qc) : option Qc := match l with [] => None | a :: r => Some (qmaxl a r - qminl a r)%Qc end.
(** filter_peak_height, 257-293; ptp of nothing raises *)
Fixpoint filter_peak_height (y : list Qc) (cands : list Z) (thresh : Qc) (w : Z) : option (list Z) :=
  match cands with
  | [] => Some []
  | ind :: r =>
      h <- ptp (window_of (Z.of_nat (length y)) y ind w) ;;
      rest <- filter_peak_height y r thresh w ;;
      Some (if Qc_ltb thresh h then ind :: rest else rest)
  end.

(** ** fit_quad_to_peak, funcs.py 6-44 *)
Definition beta := (R * R * R)%type.
Definition polyval (b : beta) (x : R) : R := let '(b0, b1, b2) := b in b0 * x * x + b1 * x + b2.
Fixpoint rsuml (l : list R) : R := match l with [] => 0 | a :: r => a + rsuml r end.
Definition sserr (b : beta) (xs ys : list R) : R := rsuml (map (fun p => (polyval b (fst p) - snd p) * (polyval b (fst p) - snd p)) (combine xs ys)).
Definition mean (ys : list R) : R := rsuml ys / INR (length ys).
Definition sstot (ys : list R) : R := rsuml (map (fun y => (y - mean ys) * (y - mean ys)) ys).
Definition fin_div (a b : R) : option R := if Req_EM_T b 0 then None else Some (a / b).
Section Fit.
Context (lstsq : list R -> list R -> beta).
(** (b0, centre, height) and R^2 *)
Definition quad : Type := (R * option R * option R) * option R.
Definition fit_quad_to_peak (xs ys : list R) : option quad :=
  if (length xs <? 3)%nat || negb (length xs =? length ys)%nat then None
  else
    let '(b0, b1, b2) := lstsq xs ys in
    let c := fin_div (- b1) (2 * b0) in
    let h := q <- fin_div b1 (2 * b0) ;; Some (b2 - b0 * (q * q)) in
    let r2 := q <- fin_div (sserr (b0, b1, b2) xs ys) (sstot ys) ;; Some (1 - q) in
    Some ((b0, c, h), r2).
(** R2 < Rval_thresh; a nan is not below anything *)
Definition below (r2 : option R) (thr : option R) : bool :=
  match thr, r2 with Some t, Some r => if Rlt_dec r t then true else false | _, _ => false end.
(** refine_quadratic, 142-178 *)
Definition refine_quadratic (thr : option R) (xs ys : list R) : refined (option R * option R) :=
  match fit_quad_to_peak xs ys with
  | None => Raised
  | Some ((_, c, h), r2) => if below r2 thr then Rejected else Found (c, h)
  end.
Definition all_pos (ys : list R) : bool := forallb (fun y => if Rlt_dec 0 y then true else false) ys.
(** refine_log_quadratic, 181-217 *)
Definition refine_log_quadratic (thr : option R) (xs ys : list R) : refined (option R * option R) :=
  if all_pos ys then
    match fit_quad_to_peak xs (map ln ys) with
    | None => Raised
    | Some ((_, c, h), r2) => if below r2 thr then Rejected else Found (c, option_map exp h)
    end
  else Raised.
(** ** spectroscopy.py *)
(** np.argmax: the first largest *)
Fixpoint argmax_from (j best : nat) (m : R) (l : list R) : nat :=
  match l with [] => best | a :: r => if Rlt_dec m a then argmax_from (S j) j a r else argmax_from (S j) best m r end.
Definition argmax (l : list R) : option nat := match l with [] => None | a :: r => Some (argmax_from 1 0 a r) end.
(** find_largest_peak, 91-139: np.max(j - window, 0) is j - window *)
Definition find_largest_peak (x y : list R) (window : option Z) : option (option R * option R * option R) :=
  j <- argmax y ;;
  let roi {T} (l : list T) := match window with Some w => pyslice l (Z.of_nat j - w) (Z.of_nat j + w + 1) | None => pyslice l 0 (-1) end in
  if all_pos (roi y) then
    r <- fit_quad_to_peak (roi x) (map ln (roi y)) ;;
    let '((b0, c, h), _) := r in
    Some (c, option_map exp h, if Rlt_dec b0 0 then Some (1 / sqrt (-2 * b0)) else None)
  else None.
(** align_and_scale, 51-90, with a peak finder returning (E0, max, sigma) *)
Fixpoint align_from (find : list R -> list R -> option (R * R * R)) (base : option R) (l : list (list R * list R)) : option (list (list R * list R)) :=
  match l with
  | [] => Some []
  | (e, c) :: r =>
      p <- find e c ;;
      let '(e0, _, sigma) := p in
      let b := match base with None => sigma | Some b => b end in
      rest <- align_from find (Some b) r ;;
      Some ((map (fun v => (v - e0) * b / sigma) e, c) :: rest)
  end.
Definition align_and_scale find (l : list (list R * list R)) := align_from find None l.
End Fit.
