(* Model of /repo/skbeam/core/correlation.py one_time_from_two_time, 909-948, with calc_errors=True, over the real
   numbers; None is nan.  Rounding and infinite entries are not modelled.  A matrix is a list of rows. *)
From Coq Require Import Reals.
From Verif Require Import Common.
Local Open Scope R_scope.

(** np.diag(g, k=j) of a square matrix *)
Definition diagonal (m : list (list (option R))) (j : nat) : list (option R) :=
  map (fun a => match nth_error m a with
                | Some row => match nth_error row (a + j) with Some x => x | None => None end
                | None => None end) (seq 0 (length m - j)).
Definition keep (l : list (option R)) : list R := concat (map (fun p => match p with Some x => [x] | None => [] end) l).
Definition rsum (l : list R) : R := fold_right Rplus 0 l.
(** np.nanmean, np.nanvar (ddof = 0) and np.nanstd *)
Definition nanmean (l : list (option R)) : option R :=
  match keep l with [] => None | xs => Some (rsum xs / INR (length xs)) end.
Definition nanvar (l : list (option R)) : option R :=
  m <- nanmean l ;; Some (rsum (map (fun x => (x - m) * (x - m)) (keep l)) / INR (length (keep l))).
Definition nanstd (l : list (option R)) : option R := option_map sqrt (nanvar l).
(** 941: np.nanstd(diag_array) / np.sqrt(len(diag_array)) *)
Definition diag_error (l : list (option R)) : option R := option_map (fun s => s / sqrt (INR (length l))) (nanstd l).
(** 934-948 *)
Definition one_time_with_errors (stack : list (list (list (option R)))) : list (list (option R)) * list (list (option R)) :=
  (map (fun g => map (fun j => nanmean (diagonal g j)) (seq 0 (length g))) stack,
   map (fun g => map (fun j => diag_error (diagonal g j)) (seq 0 (length g))) stack).
