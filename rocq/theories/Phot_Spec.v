(* Distributions on counts and on the half line. *)
From Coq Require Import Reals.
From Coquelicot Require Import Coquelicot.
Local Open Scope R_scope.

(** total 1, given mean and variance; the moments are convergent series *)
Definition counts_with (P : nat -> R) (mean var : R) : Prop :=
  (forall n, 0 <= P n) /\ is_series P 1 /\ is_series (fun n => INR n * P n) mean /\ is_series (fun n => (INR n - mean) * (INR n - mean) * P n) var.
(** improper integral over the half line *)
Definition half_line (f : R -> R) (I : R) : Prop := is_RInt_gen f (at_point 0) (Rbar_locally p_infty) I.
Definition density_with (f : R -> R) (mean var : R) : Prop :=
  (forall x, 0 <= f x) /\ (forall x, x < 0 -> f x = 0) /\ half_line f 1 /\ half_line (fun x => x * f x) mean /\ half_line (fun x => (x - mean) * (x - mean) * f x) var.
(** the formulas printed in the documentation *)
Definition documented_gamma (n : nat) (K : R) (M : nat) : R :=
  INR (fact (n + M - 1)) / (INR (fact n) * INR (fact (M - 1))) * (INR M / (INR M + K)) ^ M * (K / (INR M + K)) ^ n.
Definition documented_nbinom (x K : R) (M : nat) : R := (INR M / K) ^ M * (x ^ (M - 1) / INR (fact (M - 1))) * exp (- INR M * (x / K)).
