(* Model of /repo/skbeam/core/cdi.py: generate_random_phase_field, over the reals, with the transforms of Fourier.v.
   np.random.uniform is the list of phases: nothing is assumed about it but its length. *)
From Coq Require Import Reals List.
From Verif Require Import Common Cdi_RealModel Fourier.
Import ListNotations.
Local Open Scope R_scope.

(** generate_random_phase_field 183-185 *)
Definition random_phase_field (dims : list nat) (d phases : list R) : list C :=
  map (cmul (sqrt (INR (length d)))) (ifftn dims (map (fun p => cmul (fst p) (cos (snd p), sin (snd p))) (combine d phases))).
(** pi_modulus 119-122 and cal_diff_error 165-166 with numpy's transforms *)
Definition modulus_step (dims : list nat) (offset : R) (x : list C) (d : list R) : list C := pi_modulus (fftn dims) (ifftn dims) offset x d.
Definition q_error (dims : list nat) (x : list C) (d : list R) : R := diff_error (fftn dims) x d.
