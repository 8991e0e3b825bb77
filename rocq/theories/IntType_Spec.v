(* Specification: the values of a type of integers, and when a stored number stands for a mathematical one. *)
From Coq Require Import ZArith.
From Verif Require Import IntType_Model.
Local Open Scope Z_scope.
(** the types numpy has *)
Definition numpy_int (t : int_type) : Prop := bits t = 8 \/ bits t = 16 \/ bits t = 32 \/ bits t = 64.
Definition of_type (t : int_type) (v : Z) : Prop :=
  if signed t then - 2 ^ (bits t - 1) <= v < 2 ^ (bits t - 1) else 0 <= v < 2 ^ bits t.
(** v is the value of the type that differs from z by a multiple of 2^bits *)
Definition reduced (t : int_type) (z v : Z) : Prop := of_type t v /\ exists m, v = z + m * 2 ^ bits t.
