(* Specification for C112: sums, mean and spread of the intensities in a cell, in the reals. *)
From Coq Require Import List ZArith Reals.
From Flocq Require Import Core IEEE754.BinarySingleNaN.
From Verif Require Import F64.
Local Open Scope R_scope.
Definition sum (l : list R) : R := fold_right Rplus 0 l.
Definition sum_abs (l : list R) : R := sum (map Rabs l).
Definition sum_sq (l : list R) : R := sum (map (fun x => x * x) l).
(** the number of values times their variance *)
Definition spread (l : list R) : R := sum_sq l - sum l * sum l / INR (length l).
(** a double holding an integer; sums of integers and of their squares *)
Definition whole (x : f64) (z : Z) : Prop := is_finite x = true /\ B2R x = IZR z.
Definition zsum (l : list Z) : Z := fold_right Z.add 0%Z l.
Definition zsq (l : list Z) : Z := zsum (map (fun z => z * z)%Z l).
