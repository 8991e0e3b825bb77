(* C106: the Voigt line shape. *)
From Coq Require Import Reals.
From Coquelicot Require Import Coquelicot.
From Verif Require Import Line_Model Line_Proofs Voigt Voigt_Proofs.
From Coq Require Import Lra.
Local Open Scope R_scope.

(** C106: voigt is the convolution of the gaussian and the lorentzian of this module *)
Theorem C106_convolution x area center sigma gamma : 0 < sigma -> 0 < gamma ->
  whole_integral (fun u => gaussian u area 0 sigma * lorentzian (x - u) 1 center gamma) (voigt x area center sigma (Some gamma)).
Proof. exact (voigt_convolution x area center sigma gamma). Qed.
Print Assumptions C106_convolution.
(** its area is [area] *)
Theorem C106_area area center sigma gamma : 0 < sigma -> 0 < gamma -> whole_integral (fun x => voigt x area center sigma (Some gamma)) area.
Proof. exact (voigt_area area center sigma gamma). Qed.
Print Assumptions C106_area.
(** it is symmetric, positive, largest at the centre, and nowhere higher than the gaussian peak *)
Theorem C106_shape area center sigma gamma x y : 0 < sigma -> 0 < gamma -> 0 < area ->
  voigt (center + x) area center sigma (Some gamma) = voigt (center - x) area center sigma (Some gamma) /\
  0 < voigt y area center sigma (Some gamma) <= voigt center area center sigma (Some gamma) /\
  voigt y area center sigma (Some gamma) <= gaussian center area center sigma.
Proof. exact (voigt_shape area center sigma gamma x y). Qed.
Print Assumptions C106_shape.
(** without lorentzian width it is the gaussian *)
Theorem C106_no_width x area center sigma : 0 < sigma -> voigt x area center sigma (Some 0) = gaussian x area center sigma.
Proof. exact (voigt_no_width x area center sigma). Qed.
Print Assumptions C106_no_width.
(** without gamma the widths are equal; a negative sigma then only changes the sign *)
Theorem C106_default x area center sigma : sigma <> 0 ->
  voigt x area center sigma None = voigt x area center (Rabs sigma) (Some (Rabs sigma)) * (sigma / Rabs sigma).
Proof. exact (voigt_default x area center sigma). Qed.
Print Assumptions C106_default.

Example C106_ex1 : whole_integral (fun x => voigt x 3 2 (1 / 2) None) 3.
Proof.
  apply (whole_ext (fun x => voigt x 3 2 (1 / 2) (Some (1 / 2)))); [|apply C106_area; lra].
  intros x. rewrite C106_default, Rabs_pos_eq by lra. field.
Qed.
Example C106_ex2 : voigt 2 3 2 (1 / 2) (Some 0) = 3 / (sqrt (2 * PI) * (1 / 2)).
Proof.
  rewrite C106_no_width by lra. unfold gaussian, s2pi. replace (-1 * (1 * 2 - 2) ^ 2 / (2 * (1 / 2) ^ 2)) with 0 by field. rewrite exp_0. ring.
Qed.
