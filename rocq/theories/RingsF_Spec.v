(* Distances between a pixel and the centre, and the doubles nearest to them. *)
From Coq Require Import Reals.
From Flocq Require Import Core BinarySingleNaN.
From Verif Require Import Common F64.
Local Open Scope R_scope.
(** r is the physical distance of pixel (i, j) from the centre for pixels of the given size (row, column). *)
Definition is_distance (center size : f64 * f64) (i j : nat) (r : R) : Prop :=
  0 <= r /\ r * r = (B2R (snd size) * (INR j - B2R (snd center))) * (B2R (snd size) * (INR j - B2R (snd center)))
                  + (B2R (fst size) * (INR i - B2R (fst center))) * (B2R (fst size) * (INR i - B2R (fst center))).
(** the double nearest to x, ties to even *)
Definition nearest_double (x : R) : R := round radix2 (FLT_exp (-1074) 53) ZnearestE x.
(** x is a whole number of halves, at most n halves in size *)
Definition halves (n : Z) (x : f64) : Prop := is_finite x = true /\ exists k, (Z.abs k <= n)%Z /\ B2R x = IZR k / 2.
Definition both (P : f64 -> Prop) (c : f64 * f64) : Prop := P (fst c) /\ P (snd c).
Definition no_larger (b : R) (x : f64) : Prop := is_finite x = true /\ Rabs (B2R x) <= b.
Definition values (l : list f64) : list R := map B2R l.
