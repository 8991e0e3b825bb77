(* Independent specifications for Utils_Model. *)
From Verif Require Import Common.

(** r is the last reference before position i. *)
Definition last_ref_before (refs : list bool) (i r : nat) : Prop :=
  r < i /\ nth_error refs r = Some true /\
  forall j, r < j -> j < i -> nth_error refs j = Some false.
Definition count_false (l : list bool) : nat := length (filter negb l).

(** k-th of n equal bins of [lo, hi]; the last one is closed on the right. *)
Definition bin_edge (lo hi : Qc) (n k : nat) : Qc := (lo + qn k * ((hi - lo) / qn n))%Qc.
Definition in_bin (lo hi : Qc) (n k : nat) (x : Qc) : Prop :=
  (bin_edge lo hi n k <= x)%Qc /\
  ((x < bin_edge lo hi n (S k))%Qc \/ (S k = n /\ x = hi)).
(** Sum of the weights of the samples satisfying a decidable predicate. *)
Inductive weight (P : Qc -> Prop) : list (Qc * Qc) -> Qc -> Prop :=
| w_nil : weight P [] 0%Qc
| w_in x w l s : P x -> weight P l s -> weight P ((x, w) :: l) (w + s)%Qc
| w_out x w l s : ~ P x -> weight P l s -> weight P ((x, w) :: l) s.

Fixpoint qpow (r : Qc) (k : nat) : Qc := match k with 0 => 1%Qc | S k' => (r * qpow r k')%Qc end.
(** Uniform grid from a with spacing s. *)
Definition is_grid (l : list Qc) (a s : Qc) (n : nat) : Prop :=
  length l = n /\ forall k, k < n -> nth_error l k = Some (a + qn k * s)%Qc.
