(* Model of /repo/skbeam/core/fitting/lineshapes.py over the reals: gaussian (63-77),
   lorentzian (80-95), lorentzian2 (98-114), pvoigt (142-159), gausssian_step (162-192),
   gaussian_tail (195-234), elastic (237-284) and compton (287-392).  scipy.special.erfc is
   1 - 2/sqrt(pi) times the integral of exp(-t^2) from 0.  voigt is in Voigt.v.  Not modelled: the
   distributions gamma_dist, nbinom_dist and poisson_dist. *)
From Coq Require Import Reals.
From Coquelicot Require Import Coquelicot.
Local Open Scope R_scope.

Definition s2pi : R := sqrt (2 * PI).
Definition gaussian (x area center sigma : R) : R :=
  (area / (s2pi * sigma)) * exp (-1 * (1 * x - center) ^ 2 / (2 * sigma ^ 2)).
Definition lorentzian (x area center sigma : R) : R :=
  (area / (1 + ((1 * x - center) / sigma) ^ 2)) / (PI * sigma).
Definition lorentzian2 (x area center sigma : R) : R :=
  (area / (1 + ((x - center) / sigma) ^ 2) ^ 2) / (PI * sigma).
Definition pvoigt (x area center sigma fraction : R) : R :=
  (1 - fraction) * gaussian x area center sigma + fraction * lorentzian x area center sigma.
Definition erfc (x : R) : R := 1 - 2 / sqrt PI * RInt (fun t => exp (- (t * t))) 0 x.
Definition gausssian_step (x area center sigma peak_e : R) : R :=
  area * erfc ((x - center) / (sqrt 2 * sigma)) / (2 * peak_e).
Definition gaussian_tail (x area center sigma gamma : R) : R :=
  let dx := x - center in
  let dx_neg := if Rlt_dec 0 dx then 0 else dx in
  let temp_a := exp (dx_neg / (gamma * sigma)) in
  let v1 := erfc ((x - center) / (sqrt 2 * sigma) + 1 / (gamma * sqrt 2)) in
  let v2 := 2 * gamma * sigma * exp (-1 / 2 / gamma ^ 2) in
  area * temp_a * (v1 / v2).
Definition temp_val : R := 2 * sqrt (2 * ln 2).
Definition calibrated (e_offset e_linear e_quadratic x : R) : R := e_offset + x * e_linear + x ^ 2 * e_quadratic.
Definition peak_sigma (fwhm_offset fwhm_fanoprime epsilon e : R) : R :=
  sqrt ((fwhm_offset / temp_val) ^ 2 + e * epsilon * fwhm_fanoprime).
Definition elastic (x amplitude energy fwhm_offset fwhm_fanoprime e_offset e_linear e_quadratic epsilon : R) : R :=
  gaussian (calibrated e_offset e_linear e_quadratic x) amplitude energy (peak_sigma fwhm_offset fwhm_fanoprime epsilon energy).
(** np.deg2rad(a) = a * pi / 180 *)
Definition deg2rad (a : R) : R := a * PI / 180.
Definition compton_energy (energy angle : R) : R := energy / (1 + energy / 511 * (1 - cos (deg2rad angle))).
Definition compton (x amplitude energy fwhm_offset fwhm_fanoprime e_offset e_linear e_quadratic
                      angle fwhm_corr f_step f_tail gamma hi_f_tail hi_gamma epsilon : R) : R :=
  let x := calibrated e_offset e_linear e_quadratic x in
  let e := compton_energy energy angle in
  let sigma := peak_sigma fwhm_offset fwhm_fanoprime epsilon e in
  let factor := 1 / (1 + f_step + f_tail + hi_f_tail) in
  let peak := factor * gaussian x amplitude e (sigma * fwhm_corr) in
  let step := if Rlt_dec 0 f_step then factor * f_step * gausssian_step x amplitude e sigma e else 0 in
  let tail := factor * f_tail * gaussian_tail x amplitude e sigma gamma in
  let hi_tail := factor * hi_f_tail * gaussian_tail (-1 * x) amplitude (-1 * e) sigma hi_gamma in
  peak + step + tail + hi_tail.
