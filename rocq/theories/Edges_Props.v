(* C68: bin centres and neighbouring pairs. *)
From Verif Require Import Common Utils_Model Edges_Proofs.

(** C68: one centre per pair of neighbouring edges (none for fewer than two). *)
Theorem C68_centers_length : forall e, length (bin_edges_to_centers e) = length e - 1.
Proof. exact centers_length. Qed.
Print Assumptions C68_centers_length.
(** C68: centre k is equidistant from edges k and k+1 ... *)
Theorem C68_centers_midpoint : forall e k a b, nth_error e k = Some a -> nth_error e (S k) = Some b ->
  exists c, nth_error (bin_edges_to_centers e) k = Some c /\ (c - a = b - c)%Qc.
Proof. exact centers_nth. Qed.
Print Assumptions C68_centers_midpoint.
(** ... and strictly inside the bin when the edges increase. *)
Theorem C68_centers_inside : forall e k a b, nth_error e k = Some a -> nth_error e (S k) = Some b -> (a < b)%Qc ->
  exists c, nth_error (bin_edges_to_centers e) k = Some c /\ (a < c)%Qc /\ (c < b)%Qc.
Proof. exact centers_inside. Qed.
Print Assumptions C68_centers_inside.
Example C68_ex1 : map this (bin_edges_to_centers (map qz [0; 1; 4]%Z)) = [(1 # 2)%Q; (5 # 2)%Q].
Proof. vm_compute. reflexivity. Qed.
Example C68_ex2 : nth_error (map qz [0; 1; 4]%Z) 1 = Some (qz 1) /\ nth_error (map qz [0; 1; 4]%Z) 2 = Some (qz 4) /\ (qz 1 < qz 4)%Qc.
Proof. repeat split. Qed.

(** C68: pairwise lists exactly the neighbouring pairs, in order. *)
Theorem C68_pairwise : forall (A : Type) (l : list A), length (pairwise l) = length l - 1 /\
  forall k p, nth_error (pairwise l) k = Some p <-> nth_error l k = Some (fst p) /\ nth_error l (S k) = Some (snd p).
Proof. exact (fun A l => conj (pairwise_length l) (pairwise_nth l)). Qed.
Print Assumptions C68_pairwise.
Example C68_ex3 : pairwise [1; 2; 3] = [(1, 2); (2, 3)]. Proof. reflexivity. Qed.
