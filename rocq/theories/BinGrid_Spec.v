(* What binning by position or radius should give. *)
From Coq Require Import Reals.
From Verif Require Import Common Utils_Spec Roi_Spec.
Local Open Scope list_scope.
Local Open Scope R_scope.

(** x lies in the k-th bin of the edges e: half open, the last bin closed *)
Definition in_ring (e : list R) (k : nat) (x : R) : Prop :=
  exists a b, nth_error e k = Some a /\ nth_error e (S k) = Some b /\ a <= x /\ (x < b \/ (x = b /\ S (S k) = length e)).
Definition increasing (e : list R) : Prop := forall k a b, nth_error e k = Some a -> nth_error e (S k) = Some b -> a < b.
Definition least_of (l : list R) (m : R) : Prop := In m l /\ forall x, In x l -> m <= x.
Definition greatest_of (l : list R) (m : R) : Prop := In m l /\ forall x, In x l -> x <= m.
(** a pixel counts if its mask entry is True; without a mask all do *)
Definition unmasked (mask : option (list bool)) (p : nat) : Prop := forall m, mask = Some m -> nth_error m p = Some true.
(** the result for given edges *)
Definition rings {W} (e : list R) (image r_array : list R) (mask : option (list bool)) (stat : list R -> W) (centers : list R) (val : list W) : Prop :=
  length centers = (length e - 1)%nat /\ length val = (length e - 1)%nat /\
  forall k a b, nth_error e k = Some a -> nth_error e (S k) = Some b ->
    nth_error centers k = Some ((a + b) / 2) /\
    exists vs, picked (fun p => unmasked mask p /\ exists r, nth_error r_array p = Some r /\ in_ring e k r) 0 image vs /\
      nth_error val k = Some (stat vs).
