(* Vocabulary of C62, independent of the model. *)
From Verif Require Import Common Utils_Spec.

(** the pixels whose mask entry is 1, in order *)
Inductive picks {A} : list Z -> list A -> list A -> Prop :=
| picks_nil : picks [] [] []
| picks_in m x l k : picks m l k -> picks (1%Z :: m) (x :: l) (x :: k)
| picks_out z m x l k : z <> 1%Z -> picks m l k -> picks (z :: m) (x :: l) k.
(** ring k of N equal rings between lo and hi: the number of its pixels and the sum of their values *)
Definition ring (lo hi : Qc) (N k : nat) (px : list (Qc * Qc)) (count total : Qc) : Prop :=
  weight (in_bin lo hi N k) px total /\ weight (in_bin lo hi N k) (map (fun p => (fst p, 1%Qc)) px) count.
(** the pixels used *)
Definition used (mask : option (list Z)) (radial image rs vs : list Qc) : Prop :=
  match mask with Some m => picks m radial rs /\ picks m image vs | None => rs = radial /\ vs = image end.
