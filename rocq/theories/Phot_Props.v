(* C102: photon count distributions.  C103: the correlation model fitted to g2. *)
From Coq Require Import Reals Arith Lia.
From Coquelicot Require Import Coquelicot.
From Verif Require Import Phot_Model Phot_Spec Phot_Proofs Phot_More.
From Coq Require Import Lra.
Local Open Scope R_scope.

(** C102: poisson_dist and nbinom_dist are distributions on the counts with mean K and variance K and K + K^2 / M;
    gamma_dist is a density on the half line with mean K and variance K^2 / M. *)
Theorem C102_moments :
  (forall K, 0 <= K -> counts_with (fun n => poisson_dist n K) K K) /\
  (forall K M, 0 <= K -> (0 < M)%nat -> counts_with (fun n => nbinom_dist n K M) K (K + K * K / INR M)) /\
  (forall K M, 0 < K -> (0 < M)%nat -> density_with (fun x => gamma_dist x K M) K (K * K / INR M)).
Proof.
  split; [exact poisson_ok|]. split.
  - intros K [|m] HK HM; [lia|]. exact (nbinom_ok K m HK).
  - intros K [|m] HK HM; [lia|]. exact (gamma_ok K m HK).
Qed.
Print Assumptions C102_moments.
Example C102_ex1 : poisson_dist 0 1 = exp (- (1)) /\ poisson_dist 2 1 = exp (- (1)) / 2 /\ nbinom_dist 0 1 1 = 1 / 2 /\ gamma_dist 0 1 1 = 1.
Proof.
  unfold poisson_dist, nbinom_dist, gamma_dist, gamma_pdf, gammaln. destruct (Rlt_dec 0 0); [lra|]. cbn [fact Nat.add Nat.sub Nat.mul INR pow]. rewrite ln_1.
  split; [field|]. split; [field|]. split; [replace (0 - 0 - 0) with 0 by ring; rewrite exp_0; field|]. replace (- (0 / (1 / 1))) with 0 by field. rewrite exp_0. field.
Qed.

(** C102: with many modes the negative binomial probabilities tend to the Poisson ones. *)
Theorem C102_many_modes K n : 0 <= K -> is_lim_seq (fun M => nbinom_dist n K M) (poisson_dist n K).
Proof. intros HK. apply (is_lim_seq_incr_1 (fun M => nbinom_dist n K M)). exact (nbinom_poisson K n HK). Qed.
Print Assumptions C102_many_modes.
Example C102_ex2 : is_lim_seq (fun M => nbinom_dist 3 2 M) (exp (- (2)) * 2 ^ 3 / INR 6).
Proof. apply (C102_many_modes 2 3). lra. Qed.

(** C102: the formula documented under gamma_dist is the one nbinom_dist computes, the one under nbinom_dist is that of gamma_dist;
    neither function computes its own documented formula. *)
Theorem C102_formulas_refuted :
  (forall n K M, 0 <= K -> (0 < M)%nat -> documented_gamma n K M = nbinom_dist n K M) /\
  (forall x K M, 0 <= x -> 0 < K -> (0 < M)%nat -> documented_nbinom x K M = gamma_dist x K M) /\
  ~ (forall n K M, (0 < K) -> (0 < M)%nat -> documented_gamma n K M = gamma_dist (INR n) K M) /\
  ~ (forall n K M, (0 < K) -> (0 < M)%nat -> documented_nbinom (INR n) K M = nbinom_dist n K M).
Proof.
  assert (A : forall n K M, 0 <= K -> (0 < M)%nat -> documented_gamma n K M = nbinom_dist n K M).
  { intros n K [|m] HK HM; [lia|]. rewrite (nbinom_is n K m HK). unfold documented_gamma, cf. rewrite (Rplus_comm K). reflexivity. }
  assert (B : forall x K M, 0 <= x -> 0 < K -> (0 < M)%nat -> documented_nbinom x K M = gamma_dist x K M).
  { intros x K [|m] Hx HK HM; [lia|]. assert (HP : 0 < INR (S m)) by (apply lt_0_INR; lia). unfold documented_nbinom, gamma_dist. rewrite pdf_dens by exact Hx. unfold dens.
    replace (S m - 1)%nat with m by lia. replace (- (x / (K / INR (S m)))) with (- INR (S m) * (x / K)) by (field; lra). replace (x / (K / INR (S m))) with (x * (INR (S m) / K)) by (field; lra).
    rewrite Rpow_mult_distr. cbn [pow]. set (P := (INR (S m) / K) ^ m). field. repeat split; try lra. apply fact_nz. }
  assert (V1 : nbinom_dist 0 1 1 = 1 / 2) by (apply C102_ex1). assert (V2 : gamma_dist (INR 0) 1 1 = 1) by (apply C102_ex1).
  split; [exact A|]. split; [exact B|]. split; intros H.
  - specialize (H 0%nat 1 1%nat ltac:(lra) ltac:(lia)). rewrite A, V1, V2 in H by (lra || lia). lra.
  - specialize (H 0%nat 1 1%nat ltac:(lra) ltac:(lia)). rewrite B, V1, V2 in H by (cbn; lra || lia). lra.
Qed.
Print Assumptions C102_formulas_refuted.
Example C102_ex3 : documented_gamma 1 1 1 = 1 / 4 /\ documented_nbinom 1 1 1 = exp (- (1)).
Proof. unfold documented_gamma, documented_nbinom. cbn [fact Nat.add Nat.sub Nat.mul INR pow]. split; [field|]. replace (- (1) * (1 / 1)) with (- (1)) by field. field. Qed.

(** C103: the model is the Siegert relation for a single exponential with decay constant relaxation_rate: it starts at beta + baseline,
    falls strictly and tends to the baseline. *)
Theorem C103_curve beta rate baseline : 0 < beta -> 0 < rate ->
  auto_corr_scat_factor 0 beta rate baseline = beta + baseline /\
  (forall t1 t2, t1 < t2 -> auto_corr_scat_factor t2 beta rate baseline < auto_corr_scat_factor t1 beta rate baseline) /\
  is_lim (fun t => auto_corr_scat_factor t beta rate baseline) p_infty baseline /\
  (exists g1 : R -> R, g1 0 = 1 /\ (forall t, is_derive g1 t (- rate * g1 t)) /\ forall t, auto_corr_scat_factor t beta rate baseline = beta * (g1 t) ^ 2 + baseline).
Proof.
  intros HB HR. unfold auto_corr_scat_factor. split; [rewrite Rmult_0_r, exp_0; ring|]. split; [|split].
  - intros t1 t2 H. apply Rplus_lt_compat_r, Rmult_lt_compat_l; [exact HB|]. apply exp_increasing. nra.
  - replace (Finite baseline) with (Finite (beta * 0 + baseline)) by (f_equal; ring). apply is_lim_plus'; [|apply is_lim_const].
    apply (is_lim_scal_l (fun t => exp (-2 * rate * t)) beta p_infty 0). apply is_lim_spec. intros eps. exists (- ln eps / (2 * rate)). intros t Ht.
    rewrite Rminus_0_r, Rabs_pos_eq by (apply Rlt_le, exp_pos). rewrite <- (exp_ln eps) by apply cond_pos. apply exp_increasing.
    apply Rmult_lt_compat_r with (r := 2 * rate) in Ht; [|lra]. unfold Rdiv in Ht. rewrite Rmult_assoc, Rinv_l in Ht by lra. lra.
  - exists (fun t => exp (- rate * t)). split; [rewrite Rmult_0_r; apply exp_0|]. split.
    + intros t. auto_derive; [trivial|]. match goal with |- ?a = ?b => change (@eq R a b) end. ring.
    + intros t. cbn [pow]. rewrite Rmult_1_r, <- exp_plus. do 3 f_equal. ring.
Qed.
Print Assumptions C103_curve.
(** C103: three equally spaced lags determine contrast, rate and baseline. *)
Theorem C103_identified t b1 r1 c1 b2 r2 c2 : t <> 0 -> b1 <> 0 -> r1 <> 0 ->
  (forall k, (k < 3)%nat -> auto_corr_scat_factor (INR k * t) b1 r1 c1 = auto_corr_scat_factor (INR k * t) b2 r2 c2) ->
  b1 = b2 /\ r1 = r2 /\ c1 = c2.
Proof.
  intros Ht Hb Hr H. pose proof (H 0%nat ltac:(lia)) as H0. pose proof (H 1%nat ltac:(lia)) as H1. pose proof (H 2%nat ltac:(lia)) as H2. clear H.
  unfold auto_corr_scat_factor in *. cbn [INR] in *. rewrite Rmult_0_l, !Rmult_0_r, exp_0 in H0. rewrite Rmult_1_l in H1.
  assert (D : forall r, exp (-2 * r * ((1 + 1) * t)) = exp (-2 * r * t) * exp (-2 * r * t)) by (intros r; rewrite <- exp_plus; f_equal; ring). rewrite !D in H2.
  assert (N1 : exp (-2 * r1 * t) <> 1).
  { intros E. rewrite <- exp_0 in E. apply exp_inv in E. apply Hr. assert (Z : r1 * t = 0) by lra. apply Rmult_integral in Z. destruct Z; [assumption|contradiction]. }
  set (e1 := exp (-2 * r1 * t)) in *. set (e2 := exp (-2 * r2 * t)) in *.
  assert (S1 : b1 * (e1 - 1) = b2 * (e2 - 1)) by lra. assert (S2 : e1 * (b1 * (e1 - 1)) = e2 * (b2 * (e2 - 1))) by lra.
  assert (NZ : b1 * (e1 - 1) <> 0) by (apply Rmult_integral_contrapositive_currified; [exact Hb|lra]).
  assert (E : e1 = e2). { rewrite <- S1 in S2. apply Rmult_eq_reg_r in S2; assumption. }
  assert (EB : b1 = b2). { rewrite <- E in S1. apply Rmult_eq_reg_r in S1; [exact S1|lra]. }
  split; [exact EB|]. split; [|lra]. unfold e1, e2 in E. apply exp_inv in E. assert (r1 * t = r2 * t) by lra. apply Rmult_eq_reg_r with t; assumption.
Qed.
Print Assumptions C103_identified.
Example C103_ex1 : auto_corr_scat_factor 1 2 3 1 = 2 * exp (-6) + 1 /\ auto_corr_scat_factor 0 2 3 1 = 3 /\ auto_corr_scat_factor 1 2 3 1 < 3 /\ auto_corr_scat_factor 1 2 0 1 = auto_corr_scat_factor 1 1 0 2.
Proof.
  destruct (C103_curve 2 3 1 ltac:(lra) ltac:(lra)) as [A [B _]]. split; [unfold auto_corr_scat_factor; do 3 f_equal; ring|]. split; [rewrite A; ring|]. split; [specialize (B 0 1 ltac:(lra)); lra|].
  unfold auto_corr_scat_factor. rewrite Rmult_0_r, Rmult_0_l, exp_0. ring.
Qed.
(** C103: relaxation_rate, documented as the relaxation time of the sample, is its inverse: the contrast left at the lag T
    is beta / e^2 when 1 / T is passed, and with T itself only for T = 1. *)
Theorem C103_time_refuted beta baseline T : 0 < beta -> 0 < T ->
  auto_corr_scat_factor T beta (/ T) baseline = beta * exp (-2) + baseline /\
  (auto_corr_scat_factor T beta T baseline = beta * exp (-2) + baseline <-> T = 1).
Proof.
  intros HB HT. unfold auto_corr_scat_factor. split; [rewrite Rmult_assoc, Rinv_l, Rmult_1_r by lra; reflexivity|]. split.
  - intros H. assert (E : beta * exp (-2 * T * T) = beta * exp (-2)) by lra. apply Rmult_eq_reg_l in E; [|lra]. apply exp_inv in E. nra.
  - intros ->. rewrite !Rmult_1_r. reflexivity.
Qed.
Print Assumptions C103_time_refuted.
Example C103_ex2 : auto_corr_scat_factor 2 1 2 0 <> exp (-2) /\ auto_corr_scat_factor 2 1 (/ 2) 0 = exp (-2).
Proof.
  destruct (C103_time_refuted 1 0 2 ltac:(lra) ltac:(lra)) as [A B]. split; [|rewrite A; ring]. intros E. assert (2 = 1); [|lra]. apply B. rewrite E. ring.
Qed.
