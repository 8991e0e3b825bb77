(* C41, C42, C76: reciprocal space. *)
From Coq Require Import String Reals Lra Lia.
From Verif Require Import Common Recip_Model Recip_Spec Recip_Proofs.
From Coq Require Import List.
Local Open Scope R_scope.

(** C41: what every pixel of every image gets, in every frame, and where it is stored:
    image by image, row by row.  q = k (kf - ki) with unit kf and ki, rotated by chi and
    phi, then turned into the axes of the UB matrix and multiplied by its inverse. *)
Theorem C41_every_pixel delgam q d lambda mode n angles ubinv : let size := (xSize d * ySize d)%nat in
  (1 <= mode <= 4)%nat -> length angles = (n * 6)%nat -> length ubinv = 9%nat ->
  length delgam = (n * size * 2)%nat -> length q = (n * size * 3)%nat ->
  exists out, process_images delgam q d lambda mode n angles ubinv = Some out /\ length out = (n * size * 3)%nat /\
  forall i j c del theta chi phi mu gam, (i < n)%nat -> (j < ySize d)%nat -> (c < xSize d)%nat -> six angles i del theta chi phi mu gam ->
    let p := ((i * ySize d + j) * xSize d + c)%nat in
    let v := q_value mode (del - atan ((INR j - yCen d) * (yPixSize d / cdist d))) theta chi phi mu
                     (gam - atan ((INR c - xCen d) * (xPixSize d / cdist d))) lambda ubinv in
    nth_error out (p * 3) = Some (vx v) /\ nth_error out (p * 3 + 1) = Some (vy v) /\ nth_error out (p * 3 + 2) = Some (vz v).
Proof. exact (process_ok delgam q d lambda mode n angles ubinv). Qed.
Print Assumptions C41_every_pixel.
(** C41: the Ewald sphere. *)
Theorem C41_unit_beams del gam mu theta :
  inner (kf_dir del gam theta) (kf_dir del gam theta) = 1 /\ inner (ki_dir mu theta) (ki_dir mu theta) = 1.
Proof. exact (conj (kf_unit del gam theta) (ki_unit mu theta)). Qed.
Print Assumptions C41_unit_beams.
(** C41: |q| is the same in the theta, phi and cart frames and does not depend on chi and
    phi: |q|^2 = 2 k^2 (1 - cos of the angle between the beams). *)
Theorem C41_norm_all_frames mode del theta chi phi mu gam lambda u : (1 <= mode <= 3)%nat ->
  let q := q_value mode del theta chi phi mu gam lambda u in let k := 2 * PI / lambda in
  inner q q = k * k * (2 - 2 * inner (kf_dir del gam theta) (ki_dir mu theta)).
Proof. exact (q_norm mode del theta chi phi mu gam lambda u). Qed.
Print Assumptions C41_norm_all_frames.
(** C41: in the plane |q| = (4 pi / lambda) |sin(delta / 2)|. *)
Theorem C41_in_plane mode del theta chi phi lambda u : (1 <= mode <= 3)%nat -> lambda > 0 ->
  len (q_value mode del theta chi phi 0 0 lambda u) = 4 * PI / lambda * Rabs (sin (del / 2)).
Proof. exact (q_in_plane mode del theta chi phi lambda u). Qed.
Print Assumptions C41_in_plane.
(** C41: multiplying hkl by UB gives q back (in the axes of the UB matrix), so |UB hkl| = |q|. *)
Theorem C41_ub_roundtrip del theta chi phi mu gam lambda ub ubinv : (forall v, apply9 ub (apply9 ubinv v) = v) ->
  let hkl := q_value 4 del theta chi phi mu gam lambda ubinv in
  len (apply9 ub hkl) = len (q_value 1 del theta chi phi mu gam lambda ubinv) /\
  apply9 ub hkl = to_ub (q_value 2 del theta chi phi mu gam lambda ubinv).
Proof. exact (hkl_norm del theta chi phi mu gam lambda ub ubinv). Qed.
Print Assumptions C41_ub_roundtrip.
(** C41: hkl_to_q, documented to compute |q| from an hkl array, does not. *)
Theorem C41_hkl_to_q_refuted : (forall v, apply9 double9 (apply9 half9 v) = v) /\
  exists del, hkl_to_q (q_value 4 del 0 0 0 0 0 1 half9) <> len (q_value 1 del 0 0 0 0 0 1 half9).
Proof. exact hkl_to_q_wrong. Qed.
Print Assumptions C41_hkl_to_q_refuted.
(** C41: it does for the frames that are not reciprocal lattice units; cart is phi. *)
Theorem C41_hkl_to_q_norm v : hkl_to_q v = len v.
Proof. exact (hkl_to_q_len v). Qed.
Print Assumptions C41_hkl_to_q_norm.
(** The modes, and a rotation that does something. *)
Example C41_ex : frame_mode None = Some 4%nat /\ frame_mode (Some "theta"%string) = Some 1%nat /\ frame_mode (Some "cart"%string) = Some 3%nat /\
  frame_mode (Some "xyz"%string) = None /\
  (forall del theta chi phi mu gam lambda u, q_value 3 del theta chi phi mu gam lambda u = q_value 2 del theta chi phi mu gam lambda u) /\
  rot_y (PI / 2) (1, 2, 3) = (-3, 2, 1).
Proof.
  repeat split; try reflexivity. unfold rot_y, vx, vy, vz. cbn [fst snd]. rewrite cos_PI2, sin_PI2. f_equal; [f_equal|]; ring.
Qed.

(** C76: with a UB inverse of fewer than nine numbers (a 2 x 2 matrix passes every check of
    the Python wrapper) the C code reads beyond its end. *)
Theorem C76_small_ub_refuted delgam q d lambda mode n angles ubinv : (length ubinv < 9)%nat ->
  process_images delgam q d lambda mode n angles ubinv = None.
Proof. exact (process_short_ub delgam q d lambda mode n angles ubinv). Qed.
Print Assumptions C76_small_ub_refuted.
(** C76: of a larger one the first nine numbers are used, silently. *)
Theorem C76_large_ub delgam q d lambda mode n angles ubinv rest : length ubinv = 9%nat ->
  process_images delgam q d lambda mode n angles (ubinv ++ rest) = process_images delgam q d lambda mode n angles ubinv.
Proof. exact (process_long_ub delgam q d lambda mode n angles ubinv rest). Qed.
Print Assumptions C76_large_ub.
(** C76: with nine numbers no access is outside a buffer and every output cell is set, whatever
    the memory held before. *)
Theorem C76_memory_safe delgam q delgam' q' d lambda mode n angles ubinv : let size := (xSize d * ySize d)%nat in
  (1 <= mode <= 4)%nat -> length angles = (n * 6)%nat -> length ubinv = 9%nat ->
  length delgam = (n * size * 2)%nat -> length q = (n * size * 3)%nat -> length delgam' = (n * size * 2)%nat -> length q' = (n * size * 3)%nat ->
  exists out, process_images delgam q d lambda mode n angles ubinv = Some out /\ process_images delgam' q' d lambda mode n angles ubinv = Some out.
Proof. exact (process_fresh delgam q delgam' q' d lambda mode n angles ubinv). Qed.
Print Assumptions C76_memory_safe.
Example C76_ex : process_images (repeat 0 16) (repeat 0 24) (Ccd 2 2 1 1 0 0 10) 1 4 2 (repeat 0 12) [1; 0; 0; 1] = None /\
  length half9 = 9%nat.
Proof. split; [apply process_short_ub; cbn; lia|reflexivity]. Qed.

(** C42: q parallel, and the norm: q is k times the difference of two unit vectors (so at
    most 2 k long), whatever the tilt of the sample. *)
Theorem C42_gisaxs_norm inc refl pixel dist wavelength theta_i y x : wavelength > 0 ->
  let g := gisaxs_at inc refl pixel dist wavelength theta_i y x in let k := 2 * PI / wavelength in
  0 <= qr g /\ qr g * qr g = qx g * qx g + qy g * qy g /\
  qx g * qx g + qy g * qy g + qz g * qz g = k * k * inner (minus (out_dir (alpha_f g) (theta_f g)) (out_dir (- alpha_i g) theta_i))
                                                        (minus (out_dir (alpha_f g) (theta_f g)) (out_dir (- alpha_i g) theta_i)) /\
  sqrt (qx g * qx g + qy g * qy g + qz g * qz g) <= 2 * k.
Proof. exact (gisaxs_norm inc refl pixel dist wavelength theta_i y x). Qed.
Print Assumptions C42_gisaxs_norm.
(** C42: the specularly reflected beam has q = (0, 0, 2 k sin alpha_i). *)
Theorem C42_specular inc refl pixel dist wavelength : fst refl = fst inc -> 0 < snd pixel -> 0 < fst pixel -> 0 < dist -> snd inc < snd refl ->
  let g := gisaxs_at inc refl pixel dist wavelength 0 (snd refl) (fst refl) in
  qx g = 0 /\ qy g = 0 /\ qz g = 2 * (2 * PI / wavelength) * sin (alpha_i g) /\ alpha_f g = alpha_i g /\ 2 * alpha_i g = atan ((snd refl - snd inc) * snd pixel / dist).
Proof. exact (gisaxs_specular inc refl pixel dist wavelength). Qed.
Print Assumptions C42_specular.
(** C42: the first number of detector_size counts rows (vertical pixels), although it is
    documented as the x direction; the first index of the result is the vertical one. *)
Theorem C42_axes_swapped_refuted inc refl pixel n0 n1 dist wavelength theta_i a b :
  (gisaxs inc refl pixel n0 n1 dist wavelength theta_i a b <> None <-> (a < n0)%nat /\ (b < n1)%nat) /\
  forall g, gisaxs inc refl pixel n0 n1 dist wavelength theta_i a b = Some g -> 0 < dist ->
    alpha_f g + alpha_i g = atan ((INR a - snd inc) * snd pixel / dist) /\
    2 * (theta_f g + theta_i) = atan ((INR b - fst inc) * fst pixel / dist).
Proof. exact (gisaxs_axes inc refl pixel n0 n1 dist wavelength theta_i a b). Qed.
Print Assumptions C42_axes_swapped_refuted.
(** C42: arctan2 is the polar angle. *)
Theorem C42_atan2 x y : x <> 0 \/ y <> 0 ->
  cos (atan2 y x) * sqrt (x * x + y * y) = x /\ sin (atan2 y x) * sqrt (x * x + y * y) = y.
Proof. exact (cos_atan2 x y). Qed.
Print Assumptions C42_atan2.
Example C42_ex : let g := gisaxs_at (5, 5) (5, 6) (1, 1) 1 1 0 6 5 in alpha_i g = PI / 8 /\ qx g = 0.
Proof.
  cbv zeta. destruct (gisaxs_specular (5, 5) (5, 6) (1, 1) 1 1) as [Hx [_ [_ [_ Ha]]]]; cbn [fst snd]; try lra. cbn [fst snd] in *.
  split; [|exact Hx]. replace ((6 - 5) * 1 / 1) with 1 in Ha by field. rewrite atan_1 in Ha. lra.
Qed.
