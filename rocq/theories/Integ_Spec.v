(* What integrating regions of a sampled spectrum must do. *)
From Coq Require Import Sorted.
From Verif Require Import Common.
Local Open Scope Qc_scope.

Definition ascending (pts : list (Qc * Qc)) : Prop := StronglySorted (fun p q => fst p < fst q) pts.
(** the samples from the first one at or after a to the first one at or after b *)
Definition region (pts : list (Qc * Qc)) (a b : Qc) (used : list (Qc * Qc)) : Prop :=
  exists pre mid e post, pts = pre ++ mid ++ e :: post /\ used = mid ++ [e] /\
  Forall (fun p => fst p < a) pre /\ Forall (fun p => a <= fst p /\ fst p < b) mid /\ a <= fst e /\ b <= fst e.
Definition applied (rule : list Qc -> list Qc -> Qc) (used : list (Qc * Qc)) : Qc := rule (map snd used) (map fst used).
Definition good_bounds (pts : list (Qc * Qc)) (bounds : list (Qc * Qc)) : Prop :=
  forall a b, In (a, b) bounds -> a < b /\ (exists p, In p pts /\ fst p <= a) /\ (exists p, In p pts /\ b <= fst p).
