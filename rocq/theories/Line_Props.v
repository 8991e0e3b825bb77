(* C45, C46, C77, C78: line shapes. *)
From Coq Require Import Reals.
From Coquelicot Require Import Coquelicot.
From Verif Require Import Gauss Line_Model Line_Proofs Line_Tail Line_Compton.
From Coq Require Import Lra.
Local Open Scope R_scope.

(** C45: integrals over the whole line (improper Riemann integrals). *)
Theorem C45_lorentzian area c s : 0 < s -> whole_integral (fun x => lorentzian x area c s) area.
Proof. exact (lorentzian_area area c s). Qed.
Print Assumptions C45_lorentzian.
Theorem C45_gaussian area c s : 0 < s -> whole_integral (fun x => gaussian x area c s) area.
Proof. exact (gaussian_area area c s). Qed.
Print Assumptions C45_gaussian.
Theorem C45_pvoigt area c s fraction : 0 < s -> whole_integral (fun x => pvoigt x area c s fraction) area.
Proof. exact (pvoigt_area area c s fraction). Qed.
Print Assumptions C45_pvoigt.
Theorem C45_lorentzian2 area c s : 0 < s -> whole_integral (fun x => lorentzian2 x area c s) (area / 2).
Proof. exact (lorentzian2_area area c s). Qed.
Print Assumptions C45_lorentzian2.
(** C45: so lorentzian2's documented unit area is wrong for every area but 0. *)
Theorem C45_lorentzian2_refuted area c s : 0 < s -> area <> 0 -> ~ whole_integral (fun x => lorentzian2 x area c s) area.
Proof. intros Hs Ha W. pose proof (whole_unique _ _ _ W (lorentzian2_area area c s Hs)). lra. Qed.
Print Assumptions C45_lorentzian2_refuted.
Example C45_ex : whole_integral (fun x => lorentzian x 3 1 2) 3 /\ whole_integral (fun x => lorentzian2 x 3 1 2) (3 / 2) /\
  lorentzian 1 3 1 2 = 3 / (PI * 2) /\ lorentzian 3 3 1 2 = lorentzian 1 3 1 2 / 2.
Proof.
  pose proof PI_RGT_0. split; [apply C45_lorentzian; lra|]. split; [apply C45_lorentzian2; lra|]. unfold lorentzian. split; field; lra.
Qed.

(** C46: the Compton peak. *)
Theorem C46_below e a : 0 < e -> 0 < compton_energy e a <= e /\ (compton_energy e a = e <-> cos (deg2rad a) = 1).
Proof. exact (compton_below e a). Qed.
Print Assumptions C46_below.
Theorem C46_decreasing e a b : 0 < e -> 0 <= a -> a < b -> b <= 180 -> compton_energy e b < compton_energy e a.
Proof. exact (compton_decreasing e a b). Qed.
Print Assumptions C46_decreasing.
Theorem C46_increasing_in_energy a e e' : 0 < e -> e < e' -> compton_energy e a < compton_energy e' a.
Proof. exact (compton_energy_monotone a e e'). Qed.
Print Assumptions C46_increasing_in_energy.
(** C46: Compton's formula, in inverse keV. *)
Theorem C46_formula e a : 0 < e -> / compton_energy e a - / e = (1 - cos (deg2rad a)) / 511.
Proof. exact (compton_formula e a). Qed.
Print Assumptions C46_formula.
Example C46_ex : compton_energy 511 90 = 511 / 2 /\ compton_energy 511 180 = 511 / 3.
Proof.
  unfold compton_energy, deg2rad. replace (90 * PI / 180) with (PI / 2) by field. replace (180 * PI / 180) with PI by field. rewrite cos_PI2, cos_PI. split; field.
Qed.

(** C77: the step falls from area / peak_e to 0, through half of it at the centre. *)
Theorem C77_step area c s e : 0 < area -> 0 < s -> 0 < e ->
  is_lim (fun x => gausssian_step x area c s e) m_infty (area / e) /\ is_lim (fun x => gausssian_step x area c s e) p_infty 0 /\
  gausssian_step c area c s e = area / e / 2 /\ (forall x y, x < y -> gausssian_step y area c s e < gausssian_step x area c s e).
Proof. exact (step_ok area c s e). Qed.
Print Assumptions C77_step.
(** C77: the tail's integral is area times a fraction that depends on gamma alone ... *)
Theorem C77_tail area c s gamma : 0 < s -> 0 < gamma -> whole_integral (fun x => gaussian_tail x area c s gamma) (area * tail_fraction gamma).
Proof. exact (tail_area area c s gamma). Qed.
Print Assumptions C77_tail.
(** ... strictly between one half and one, ... *)
Theorem C77_fraction gamma : 0 < gamma -> 1 / 2 < tail_fraction gamma < 1.
Proof. exact (tail_fraction_bounds gamma). Qed.
Print Assumptions C77_fraction.
(** ... so the documented unit area is never reached. *)
Theorem C77_tail_unit_refuted c s gamma : 0 < s -> 0 < gamma -> ~ whole_integral (fun x => gaussian_tail x 1 c s gamma) 1.
Proof.
  intros Hs Hg W. pose proof (whole_unique _ _ _ W (tail_area 1 c s gamma Hs Hg)). pose proof (tail_fraction_bounds gamma Hg). lra.
Qed.
Print Assumptions C77_tail_unit_refuted.
Example C77_ex : ~ whole_integral (fun x => gaussian_tail x 1 10 (1 / 10) 2) 1 /\ gausssian_step 5 6 5 1 3 = 1.
Proof.
  split; [apply C77_tail_unit_refuted; lra|]. destruct (C77_step 6 5 1 3 ltac:(lra) ltac:(lra) ltac:(lra)) as [_ [_ [-> _]]]. lra.
Qed.

(** C78: areas of the elastic and Compton peaks on the energy axis (calibration x -> x). *)
Theorem C78_elastic amplitude e fo ff eps : 0 < peak_sigma fo ff eps e -> whole_integral (fun x => elastic x amplitude e fo ff 0 1 0 eps) amplitude.
Proof. exact (elastic_area amplitude e fo ff eps). Qed.
Print Assumptions C78_elastic.
Theorem C78_compton amplitude e fo ff angle corr f_tail gamma hi_f_tail hi_gamma eps :
  0 < peak_sigma fo ff eps (compton_energy e angle) -> 0 < corr -> 0 < gamma -> 0 < hi_gamma -> 0 <= f_tail -> 0 <= hi_f_tail ->
  whole_integral (fun x => compton x amplitude e fo ff 0 1 0 angle corr 0 f_tail gamma hi_f_tail hi_gamma eps)
    (amplitude * (1 + f_tail * tail_fraction gamma + hi_f_tail * tail_fraction hi_gamma) / (1 + f_tail + hi_f_tail)).
Proof. exact (compton_area amplitude e fo ff angle corr f_tail gamma hi_f_tail hi_gamma eps). Qed.
Print Assumptions C78_compton.
(** C78: the amplitude is the area only without tails. *)
Theorem C78_compton_short amplitude e fo ff angle corr f_tail gamma hi_f_tail hi_gamma eps :
  0 < amplitude -> 0 < peak_sigma fo ff eps (compton_energy e angle) -> 0 < corr -> 0 < gamma -> 0 < hi_gamma -> 0 <= f_tail -> 0 <= hi_f_tail -> 0 < f_tail + hi_f_tail ->
  exists I, whole_integral (fun x => compton x amplitude e fo ff 0 1 0 angle corr 0 f_tail gamma hi_f_tail hi_gamma eps) I /\ amplitude / 2 < I < amplitude.
Proof. exact (compton_short amplitude e fo ff angle corr f_tail gamma hi_f_tail hi_gamma eps). Qed.
Print Assumptions C78_compton_short.
Example C78_ex : whole_integral (fun x => elastic x 7 10 temp_val 0 0 1 0 3) 7.
Proof.
  apply C78_elastic. unfold peak_sigma. assert (0 < temp_val) by (unfold temp_val; apply Rmult_lt_0_compat; [lra|]; apply sqrt_lt_R0; apply Rmult_lt_0_compat; [lra|]; rewrite <- ln_1; apply ln_increasing; lra).
  replace ((temp_val / temp_val) ^ 2 + 10 * 3 * 0) with 1 by (field; lra). rewrite sqrt_1. lra.
Qed.
(** C78: channels are turned into energies with the calibration polynomial and by nothing else. *)
Theorem C78_calibration x e0 e1 e2 energy : energy = e0 + e1 * x + e2 * (x * x) ->
  (forall amplitude e fo ff eps, elastic x amplitude e fo ff e0 e1 e2 eps = elastic energy amplitude e fo ff 0 1 0 eps) /\
  (forall amplitude e fo ff angle corr f_step f_tail gamma hi_f_tail hi_gamma eps,
    compton x amplitude e fo ff e0 e1 e2 angle corr f_step f_tail gamma hi_f_tail hi_gamma eps = compton energy amplitude e fo ff 0 1 0 angle corr f_step f_tail gamma hi_f_tail hi_gamma eps).
Proof.
  intros H. assert (C : calibrated e0 e1 e2 x = calibrated 0 1 0 energy) by (unfold calibrated; rewrite H; ring).
  split; intros; unfold elastic, compton; now rewrite C.
Qed.
Print Assumptions C78_calibration.
Example C78_calibration_ex : forall a, elastic 3 a 10 1 1 1 2 5 3 = elastic 52 a 10 1 1 0 1 0 3.
Proof. intros a. apply (C78_calibration 3 1 2 5). ring. Qed.
(** C78: the elastic peak is the normal density at the incident energy, scaled to its amplitude; its full
    width at half maximum f satisfies f^2 = fwhm_offset^2 + 8 ln 2 * energy * epsilon * fwhm_fanoprime.
    Without step and tails the Compton peak is the same at its own energy, its width times the correction. *)
Definition normal (amplitude center sigma x : R) : R := amplitude / sqrt (2 * PI * (sigma * sigma)) * exp (- ((x - center) * (x - center)) / (2 * (sigma * sigma))).
Lemma gaussian_normal x a c s : 0 < s -> gaussian x a c s = normal a c s x.
Proof.
  intros Hs. pose proof PI_RGT_0. unfold gaussian, normal, s2pi. rewrite (sqrt_mult (2 * PI) (s * s)) by nra. rewrite (sqrt_square s) by lra. f_equal. f_equal. field. lra.
Qed.
Lemma sigma_is fo ff eps e s : 0 < s -> 8 * ln 2 * (s * s) = fo * fo + 8 * ln 2 * (e * eps * ff) -> peak_sigma fo ff eps e = s.
Proof.
  intros Hs E. assert (L : 0 < ln 2) by (rewrite <- ln_1; apply ln_increasing; lra).
  assert (T : temp_val * temp_val = 8 * ln 2). { unfold temp_val. replace (2 * sqrt (2 * ln 2) * (2 * sqrt (2 * ln 2))) with (4 * (sqrt (2 * ln 2) * sqrt (2 * ln 2))) by ring. rewrite sqrt_sqrt by lra. ring. }
  assert (N : temp_val <> 0) by (intros Z; rewrite Z in T; lra).
  unfold peak_sigma. replace ((fo / temp_val) ^ 2 + e * eps * ff) with (s * s); [apply sqrt_square; lra|].
  apply (Rmult_eq_reg_l (8 * ln 2)); [|lra]. rewrite E. rewrite Rmult_plus_distr_l. f_equal. rewrite <- T. field. exact N.
Qed.
Theorem C78_shape amplitude e fo ff eps sigma x : 0 < sigma ->
  (8 * ln 2 * (sigma * sigma) = fo * fo + 8 * ln 2 * (e * eps * ff) -> elastic x amplitude e fo ff 0 1 0 eps = normal amplitude e sigma x) /\
  (forall angle corr gamma hi_gamma ce, 0 < corr -> ce = compton_energy e angle -> 8 * ln 2 * (sigma * sigma) = fo * fo + 8 * ln 2 * (ce * eps * ff) ->
    compton x amplitude e fo ff 0 1 0 angle corr 0 0 gamma 0 hi_gamma eps = normal amplitude ce (sigma * corr) x).
Proof.
  intros Hs. split.
  - intros E. unfold elastic. rewrite (sigma_is fo ff eps e sigma Hs E), gaussian_normal by exact Hs. unfold calibrated. f_equal. ring.
  - intros angle corr gamma hi_gamma ce Hc -> E. unfold compton. rewrite (sigma_is _ _ _ _ sigma Hs E), gaussian_normal by nra.
    replace (calibrated 0 1 0 x) with x by (unfold calibrated; ring). destruct (Rlt_dec 0 0); [lra|]. field.
Qed.
Print Assumptions C78_shape.
(** sigma = 1 from the offset alone *)
Example C78_shape_ex x : elastic x 7 10 (sqrt (8 * ln 2)) 0 0 1 0 3 = normal 7 10 1 x.
Proof.
  assert (L : 0 < ln 2) by (rewrite <- ln_1; apply ln_increasing; lra). apply C78_shape; [lra|]. rewrite sqrt_sqrt by lra. ring.
Qed.
(** C77: the step is the part of a normal peak of area area / peak_e that lies above x. *)
Theorem C77_step_slope area c s e x : 0 < s -> 0 < e -> is_derive (fun x => gausssian_step x area c s e) x (- normal (area / e) c s x).
Proof.
  intros Hs He. pose proof PI_RGT_0 as HP. assert (S2 : 0 < sqrt 2) by (apply sqrt_lt_R0; lra). assert (SP : 0 < sqrt PI) by (apply sqrt_lt_R0; exact HP).
  assert (D : is_derive (fun x => erfc ((x - c) / (sqrt 2 * s))) x (/ (sqrt 2 * s) * (- (2 / sqrt PI) * bell ((x - c) / (sqrt 2 * s))))).
  { apply (is_derive_comp (V := R_NormedModule) erfc (fun x => (x - c) / (sqrt 2 * s)) x); [apply erfc_derive|]. auto_derive; [exact I|]. field. split; lra. }
  unfold gausssian_step. apply (is_derive_ext (fun x => area / (2 * e) * erfc ((x - c) / (sqrt 2 * s)))); [intros t; simpl; field; lra|].
  replace (- normal (area / e) c s x) with (area / (2 * e) * (/ (sqrt 2 * s) * (- (2 / sqrt PI) * bell ((x - c) / (sqrt 2 * s))))).
  - apply (is_derive_scal (fun x => erfc ((x - c) / (sqrt 2 * s))) x (area / (2 * e)) _ D).
  - unfold normal, bell. rewrite (sqrt_mult (2 * PI) (s * s)), (sqrt_mult 2 PI), (sqrt_square s) by nra.
    replace (- ((x - c) / (sqrt 2 * s) * ((x - c) / (sqrt 2 * s)))) with (- ((x - c) * (x - c)) / (2 * (s * s))).
    + field. repeat split; lra.
    + apply (Rmult_eq_reg_r (sqrt 2 * sqrt 2 * (s * s))); [|rewrite sqrt_sqrt by lra; nra]. field_simplify; [|repeat split; lra|lra]. rewrite pow2_sqrt by lra. field.
Qed.
Print Assumptions C77_step_slope.
Example C77_step_slope_ex : is_derive (fun x => gausssian_step x 6 5 1 3) 5 (- normal 2 5 1 5).
Proof. replace 2 with (6 / 3) by field. apply C77_step_slope; lra. Qed.
(** C78: the Compton profile is the weighted mean, weights 1, f_step, f_tail and hi_f_tail, of the plain
    peak, of the step and the low tail at the Compton energy, and of the tail mirrored at it. *)
Theorem C78_superposition x amplitude e fo ff angle corr f_step f_tail gamma hi_f_tail hi_gamma eps sigma ce : 0 < sigma -> 0 < corr -> 0 <= f_step -> 0 <= f_tail -> 0 <= hi_f_tail ->
  ce = compton_energy e angle -> 8 * ln 2 * (sigma * sigma) = fo * fo + 8 * ln 2 * (ce * eps * ff) ->
  (1 + f_step + f_tail + hi_f_tail) * compton x amplitude e fo ff 0 1 0 angle corr f_step f_tail gamma hi_f_tail hi_gamma eps =
  normal amplitude ce (sigma * corr) x + f_step * gausssian_step x amplitude ce sigma ce + f_tail * gaussian_tail x amplitude ce sigma gamma + hi_f_tail * gaussian_tail (2 * ce - x) amplitude ce sigma hi_gamma.
Proof.
  intros Hs Hc H1 H2 H3 -> E. unfold compton. rewrite (sigma_is _ _ _ _ sigma Hs E), gaussian_normal by nra.
  replace (calibrated 0 1 0 x) with x by (unfold calibrated; ring). set (ce := compton_energy e angle).
  assert (M : gaussian_tail (-1 * x) amplitude (-1 * ce) sigma hi_gamma = gaussian_tail (2 * ce - x) amplitude ce sigma hi_gamma).
  { unfold gaussian_tail. replace (-1 * x - -1 * ce) with (2 * ce - x - ce) by ring. reflexivity. }
  rewrite M. destruct (Rlt_dec 0 f_step) as [Y|Y]; [field; lra|]. assert (f_step = 0) by lra. subst f_step. field. lra.
Qed.
Print Assumptions C78_superposition.
Example C78_superposition_ex x : 2 * compton x 7 511 (sqrt (8 * ln 2)) 0 0 1 0 90 1 1 0 1 0 1 3 = normal 7 (511 / 2) 1 x + gausssian_step x 7 (511 / 2) 1 (511 / 2).
Proof.
  assert (L : 0 < ln 2) by (rewrite <- ln_1; apply ln_increasing; lra).
  pose proof (C78_superposition x 7 511 (sqrt (8 * ln 2)) 0 90 1 1 0 1 0 1 3 1 (511 / 2) ltac:(lra) ltac:(lra) ltac:(lra) ltac:(lra) ltac:(lra) (eq_sym (proj1 C46_ex)) ltac:(rewrite sqrt_sqrt by lra; ring)) as H.
  rewrite Rmult_1_r in H. lra.
Qed.
