(* Specification for C111: whole steps that fit into a length. *)
From Coq Require Import List ZArith Reals.
Local Open Scope R_scope.
(** q is the number of whole steps in D *)
Definition whole_steps (D step : R) (q : Z) : Prop := IZR q * step <= D < (IZR q + 1) * step.
Definition never_falls (l : list R) : Prop := forall i j a b, (i <= j)%nat -> nth_error l i = Some a -> nth_error l j = Some b -> a <= b.
Definition rises (l : list R) : Prop := forall i j a b, (i < j)%nat -> nth_error l i = Some a -> nth_error l j = Some b -> a < b.
