(* The scatter of the numbers of a list, by defining equations. *)
From Coq Require Import Reals.
From Verif Require Import Common.
Local Open Scope R_scope.

Fixpoint the_numbers (l : list (option R)) : list R :=
  match l with [] => [] | Some x :: r => x :: the_numbers r | None :: r => the_numbers r end.
Fixpoint total (l : list R) : R := match l with [] => 0 | x :: r => x + total r end.
(** m is the arithmetic mean *)
Definition is_mean (l : list R) (m : R) : Prop := total l = INR (length l) * m.
(** the sum of squared distances from m *)
Definition scatter (l : list R) (m : R) : R := total (map (fun x => (x - m) * (x - m)) l).
(** d is the j-th superdiagonal of the square matrix g *)
Definition is_diagonal (g : list (list (option R))) (j : nat) (d : list (option R)) : Prop :=
  (length d + j = length g)%nat /\
  forall a, (a < length d)%nat -> exists row, nth_error g a = Some row /\ nth_error row (a + j) = nth_error d a.
(** the standard error of the mean of the numbers: s / sqrt n, s the (population) standard deviation *)
Definition standard_error (l : list R) (s : R) : Prop :=
  0 <= s /\ exists m, is_mean l m /\ s * s * (INR (length l) * INR (length l)) = scatter l m.
Definition all_equal (l : list R) : Prop := forall x y, In x l -> In y l -> x = y.
