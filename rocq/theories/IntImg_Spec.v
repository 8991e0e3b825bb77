(* Vocabulary of C110. *)
From Coq Require Import Permutation Sorted.
From Verif Require Import Common CircAvg_Spec.

(** [sort] returns the samples ordered by position, equal ones in any order *)
Definition sorts_samples (sort : list (Qc * Z) -> list (Qc * Z)) : Prop :=
  forall l, Permutation l (sort l) /\ StronglySorted (fun a b => (fst a <= fst b)%Qc) (sort l).
Definition mean_of (l : list Z) : Qc := (qsum (map qz l) / qn (length l))%Qc.
(** the pixels the mask leaves, with their radii *)
Definition usedz (mask : option (list Z)) (radial : list Qc) (image : list Z) (rs : list Qc) (vs : list Z) : Prop :=
  match mask with Some m => picks m radial rs /\ picks m image vs | None => rs = radial /\ vs = image end.
