(* Vocabulary of C64, independent of the model: polynomials in two variables, matrices. *)
From Verif Require Import Common Sums.

(** a term is a coefficient with the exponents of the first and of the second variable *)
Definition term := (Qc * (nat * nat))%type.
Definition ev (T : list term) (x y : Z) : Qc := qsum (map (fun t => (fst t * (qz x ^ fst (snd t) * qz y ^ snd (snd t)))%Qc) T).
(** its partial derivatives *)
Definition ev_x (T : list term) (x y : Z) : Qc := qsum (map (fun t => (fst t * (qn (fst (snd t)) * qz x ^ (fst (snd t) - 1) * qz y ^ snd (snd t)))%Qc) T).
Definition ev_y (T : list term) (x y : Z) : Qc := qsum (map (fun t => (fst t * (qn (snd (snd t)) * qz x ^ fst (snd t) * qz y ^ (snd (snd t) - 1)))%Qc) T).
Definition total_degree (n : nat) (T : list term) : Prop := Forall (fun t => fst (snd t) + snd (snd t) <= n) T.
(** matrices, as lists of rows *)
Definition ent (A : list (list Qc)) (i j : nat) : Qc := nth j (nth i A []) 0%Qc.
Definition shape (A : list (list Qc)) (r c : nat) : Prop := length A = r /\ Forall (fun l => length l = c) A.
(** P is a generalised inverse of the r x c matrix A: A P A = A, the first Moore-Penrose equation *)
Definition ginv (r c : nat) (A P : list (list Qc)) : Prop :=
  shape P c r /\
  forall i j, i < r -> j < c -> sumn c (fun k => (ent A i k * sumn r (fun l => (ent P k l * ent A l j)%Qc))%Qc) = ent A i j.
