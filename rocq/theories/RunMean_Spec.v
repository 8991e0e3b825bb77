(* Specification: the exact average of numbers. *)
From Coq Require Import List Reals.
Open Scope R_scope.
Definition exact_mean (l : list R) : R := fold_right Rplus 0 l / INR (length l).
