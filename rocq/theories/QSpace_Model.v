(* Model of /repo/skbeam/core/utils.py 984-1106 over the real numbers (np.pi is PI;
   np.arcsin is asin; arrays element-wise).  Rounding is not modelled. *)
From Coq Require Import Reals.
Open Scope R_scope.
(** q_to_d, 1007 *)
Definition q_to_d (q : R) : R := (2 * PI) / q.
(** d_to_q, 1033 *)
Definition d_to_q (d : R) : R := (2 * PI) / d.
(** q_to_twotheta, 1065-1068 *)
Definition q_to_twotheta (q wavelength : R) : R := 2 * asin (q * (wavelength / (4 * PI))).
(** twotheta_to_q, 1103-1106 *)
Definition twotheta_to_q (two_theta wavelength : R) : R := (4 * PI) / wavelength * sin (two_theta / 2).
