(* Fixed-width integers as numpy's int8 ... int64 and uint8 ... uint64: sums, differences and products of arrays of one
   such type are of that type again and are reduced modulo 2^bits without a warning. *)
From Coq Require Import ZArith.
Local Open Scope Z_scope.

Record int_type := IntType { signed : bool; bits : Z }.
(** the value stored for the mathematical result z (two's complement) *)
Definition store (t : int_type) (z : Z) : Z :=
  if signed t then (z + 2 ^ (bits t - 1)) mod 2 ^ bits t - 2 ^ (bits t - 1) else z mod 2 ^ bits t.
Definition uint8 := IntType false 8.
Definition uint16 := IntType false 16.
Definition uint32 := IntType false 32.
Definition uint64 := IntType false 64.
Definition int8 := IntType true 8.
Definition int16 := IntType true 16.
Definition int32 := IntType true 32.
Definition int64 := IntType true 64.
