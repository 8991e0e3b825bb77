(* Property theorem C17. *)
From Coq Require Import Reals Lra.
From Verif Require Import QSpace_Model QSpace_Proofs.
Open Scope R_scope.

(** q_to_d and d_to_q undo each other on non-zero values. *)
Theorem C17_q_d_inverse : forall q, q <> 0 -> d_to_q (q_to_d q) = q /\ q_to_d (d_to_q q) = q.
Proof. exact qd_inverse. Qed.
Print Assumptions C17_q_d_inverse.
Example C17_ex1 : 3 <> 0. Proof. lra. Qed.

(** twotheta -> q -> twotheta on [0, pi] (indeed on [-pi, pi]). *)
Theorem C17_twotheta_roundtrip : forall tt wl, wl <> 0 -> - PI <= tt <= PI ->
  q_to_twotheta (twotheta_to_q tt wl) wl = tt.
Proof. exact tt_roundtrip. Qed.
Print Assumptions C17_twotheta_roundtrip.
Example C17_ex2 : twotheta_to_q PI 1 = 4 * PI.
Proof. unfold twotheta_to_q. rewrite sin_PI2. field. Qed.

(** q -> twotheta -> q for |q| <= 4 pi / wavelength. *)
Theorem C17_q_roundtrip : forall q wl, 0 < wl -> Rabs q <= 4 * PI / wl ->
  twotheta_to_q (q_to_twotheta q wl) wl = q.
Proof. exact q_roundtrip. Qed.
Print Assumptions C17_q_roundtrip.
Example C17_ex3 : 0 < 1 /\ Rabs 1 <= 4 * PI / 1.
Proof. split; [lra|]. rewrite Rabs_R1. pose proof PI2_1. lra. Qed.

(** Beyond that limit (no physical angle) the round trip is not the identity. *)
Theorem C17_q_too_large : forall q wl, 0 < wl -> 4 * PI / wl < Rabs q ->
  twotheta_to_q (q_to_twotheta q wl) wl <> q.
Proof. exact q_no_roundtrip. Qed.
Print Assumptions C17_q_too_large.
Example C17_ex4 : 4 * PI / 1 < Rabs 17.
Proof. rewrite Rabs_right by lra. pose proof PI_4. lra. Qed.

(** twotheta_to_q is strictly increasing on [0, pi]. *)
Theorem C17_monotone : forall a b wl, 0 < wl -> 0 <= a -> a < b -> b <= PI ->
  twotheta_to_q a wl < twotheta_to_q b wl.
Proof. exact tt_increasing. Qed.
Print Assumptions C17_monotone.
Example C17_ex5 : 0 <= 1 /\ 1 < 2 /\ 2 <= PI.
Proof. pose proof PI2_1. lra. Qed.

(** d spacing composed with the angle is Bragg's law: wavelength = 2 d sin(theta). *)
Theorem C17_bragg : forall tt wl, 0 < wl -> 0 < tt -> tt <= PI ->
  wl = 2 * q_to_d (twotheta_to_q tt wl) * sin (tt / 2).
Proof. exact bragg. Qed.
Print Assumptions C17_bragg.
Example C17_ex6 : 0 < PI / 3 /\ PI / 3 <= PI. Proof. pose proof PI_RGT_0. lra. Qed.
