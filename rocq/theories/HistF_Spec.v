(* Vocabulary of C114. *)
From Coq Require Import Reals Permutation Sorted.
From Flocq Require Import Core IEEE754.BinarySingleNaN.
From Verif Require Import Common.

(** [sort] returns the samples ordered by position, equal ones in any order *)
Definition sorts {A} (sort : list (Qc * A) -> list (Qc * A)) : Prop :=
  forall l, Permutation l (sort l) /\ StronglySorted (fun a b => (fst a <= fst b)%Qc) (sort l).
(** bin k of the edges e: from its lower to below its upper edge, the last bin with its upper edge *)
Definition inside (e : list Qc) (k : nat) (x : Qc) : bool :=
  Qc_leb (nth k e 0%Qc) x && (Qc_ltb x (nth (S k) e 0%Qc) || ((S (S k) =? length e) && Qc_eqb x (nth (S k) e 0%Qc))).
(** everything up to the upper edge of bin k *)
Definition up_to (e : list Qc) (k : nat) (x : Qc) : bool :=
  Qc_ltb x (nth (S k) e 0%Qc) || ((S (S k) =? length e) && Qc_eqb x (nth (S k) e 0%Qc)).
Definition edges_ok (e : list Qc) : Prop := forall i, S i < length e -> (nth i e 0 <= nth (S i) e 0)%Qc.
Definition of_bin {A} (P : Qc -> bool) (xs : list (Qc * A)) : list A := map snd (filter (fun p => P (fst p)) xs).
Local Open Scope R_scope.
Definition rsum (l : list R) : R := fold_right Rplus 0 l.
Definition zsum (l : list Z) : Z := fold_right Z.add 0%Z l.
(** the number of blocks of n samples *)
Definition n_blocks (block n : nat) : nat := ((n + block - 1) / block)%nat.
