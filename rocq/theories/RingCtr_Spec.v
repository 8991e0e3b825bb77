(* What find_ring_center_acorr_1D must do, said without the model. *)
From Verif Require Import Common.
Local Open Scope Qc_scope.
Local Open Scope list_scope.

(** pairs of positions that a mirror at k/2 exchanges *)
Definition pairs (n k : nat) : list (nat * nat) := filter (fun p => (fst p + snd p =? k)%nat) (list_prod (seq 0 n) (seq 0 n)).
(** how well a row agrees with its mirror image about k/2: the mean product over the overlap *)
Definition agreement (v : list Qc) (k : nat) : Qc :=
  qsum (map (fun p => nth (fst p) v 0 * nth (snd p) v 0) (pairs (length v) k)) / qn (length (pairs (length v) k)).
(** the row votes for pixel b: b is the whole part of half the first k with the best agreement *)
Definition votes (v : list Qc) (b : nat) : Prop :=
  exists k, (k <= 2 * (length v - 1))%nat /\ b = Nat.div k 2 /\
    (forall k', (k' <= 2 * (length v - 1))%nat -> agreement v k' <= agreement v k) /\
    (forall k', (k' < k)%nat -> agreement v k' < agreement v k).
(** c is the first of the pixels 0..n-1 with most votes *)
Definition elected (n : nat) (lines : list (list Qc)) (c : nat) : Prop :=
  exists bs, Forall2 votes lines bs /\ (c < n)%nat /\
    (forall c', (c' < n)%nat -> (count_occ Nat.eq_dec bs c' <= count_occ Nat.eq_dec bs c)%nat) /\
    (forall c', (c' < c)%nat -> (count_occ Nat.eq_dec bs c' < count_occ Nat.eq_dec bs c)%nat).
(** row i, column j of an image with w columns *)
Definition row (w : nat) (img : list Qc) (i : nat) : list Qc := map (fun j => nth (i * w + j)%nat img 0) (seq 0 w).
Definition column (h w : nat) (img : list Qc) (j : nat) : list Qc := map (fun i => nth (i * w + j)%nat img 0) (seq 0 h).
Definition rows (h w : nat) (img : list Qc) := map (row w img) (seq 0 h).
Definition columns (h w : nat) (img : list Qc) := map (column h w img) (seq 0 w).
(** size of the overlap *)
Definition overlap (n k : nat) : nat := Nat.min (S k) (2 * n - 1 - k).
