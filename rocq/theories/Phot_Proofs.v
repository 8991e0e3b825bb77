(* Proofs for photon statistics. *)
From Coq Require Import Reals Arith Lia.
From Coquelicot Require Import Coquelicot.
From Verif Require Import Phot_Model Phot_Spec.
From Coq Require Import Lra.
Local Open Scope R_scope.

Lemma series_ext (a b : nat -> R) (l : R) : (forall n, a n = b n) -> is_series a l -> is_series b l.
Proof. intros E. apply (is_series_ext (V := R_NormedModule)). exact E. Qed.
Lemma series_scal (c : R) (a : nat -> R) (l : R) : is_series a l -> is_series (fun n => c * a n) (c * l).
Proof. intros H. exact (is_series_scal (V := R_NormedModule) c a l H). Qed.
Lemma series_plus (a b : nat -> R) (l m : R) : is_series a l -> is_series b m -> is_series (fun n => a n + b n) (l + m).
Proof. intros H1 H2. exact (is_series_plus (V := R_NormedModule) a b l m H1 H2). Qed.
(** a series starting with zero *)
Lemma series_shift (a : nat -> R) (l : R) : a 0%nat = 0 -> is_series (fun n => a (S n)) l -> is_series a l.
Proof.
  intros H0 H. apply (is_series_decr_1 (V := R_NormedModule)). rewrite H0.
  assert (E : @plus R_AbelianGroup l (@opp R_AbelianGroup 0) = l) by (unfold plus, opp; cbn; ring). cbn in E |- *. rewrite E. exact H.
Qed.

Lemma series_eq (a : nat -> R) (l l' : R) : l = l' -> is_series a l -> is_series a l'. Proof. intros ->. trivial. Qed.
(** variance from the factorial moments *)
Lemma variance (P : nat -> R) (m v : R) : is_series P 1 -> is_series (fun n => INR n * P n) m -> is_series (fun n => INR n * (INR n - 1) * P n) v ->
  is_series (fun n => (INR n - m) * (INR n - m) * P n) (v + m - m * m).
Proof.
  intros H0 H1 H2. pose proof (series_plus _ _ _ _ H2 (series_plus _ _ _ _ (series_scal (1 - 2 * m) _ _ H1) (series_scal (m * m) _ _ H0))) as H.
  replace (v + m - m * m) with (v + ((1 - 2 * m) * m + m * m * 1)) by ring. revert H. apply series_ext. intros n. ring.
Qed.

(** ** Poisson *)
Lemma exp_series K : is_series (fun n => K ^ n / INR (fact n)) (exp K).
Proof.
  pose proof (is_exp_Reals K) as H. unfold is_pseries in H. revert H. apply series_ext. intros n. rewrite pow_n_pow. unfold scal; cbn. unfold mult; cbn. unfold Rdiv. ring.
Qed.
Lemma fact_nz n : INR (fact n) <> 0. Proof. apply INR_fact_neq_0. Qed.
Lemma poisson_series K : is_series (fun n => poisson_dist n K) 1.
Proof.
  replace 1 with (exp (- K) * exp K) by (rewrite <- exp_plus, Rplus_opp_l, exp_0; reflexivity).
  eapply series_ext; [|exact (series_scal (exp (- K)) _ _ (exp_series K))]. intros n. unfold poisson_dist. unfold Rdiv. ring.
Qed.
Lemma fact_S n : INR (fact (S n)) = INR (S n) * INR (fact n). Proof. rewrite <- mult_INR. reflexivity. Qed.
Theorem poisson_ok K : 0 <= K -> counts_with (fun n => poisson_dist n K) K K.
Proof.
  intros HK. assert (M1 : is_series (fun n => INR n * poisson_dist n K) K).
  { apply series_shift; [cbn [INR]; ring|]. apply (series_eq _ (K * 1) K); [ring|]. eapply series_ext; [|exact (series_scal K _ _ (poisson_series K))].
    intros n. unfold poisson_dist. rewrite fact_S. cbn [pow]. field. split; [apply fact_nz|]. apply not_0_INR. lia. }
  assert (M2 : is_series (fun n => INR n * (INR n - 1) * poisson_dist n K) (K * K)).
  { apply series_shift; [cbn [INR]; ring|]. eapply series_ext; [|exact (series_scal K _ _ M1)].
    intros n. unfold poisson_dist. rewrite fact_S, S_INR. cbn [pow]. field. split; [apply fact_nz|]. rewrite <- S_INR. apply not_0_INR. lia. }
  split; [|split; [|split]].
  - intros n. unfold poisson_dist. apply Rmult_le_pos; [|apply Rlt_le, Rinv_0_lt_compat, INR_fact_lt_0]. apply Rmult_le_pos; [apply Rlt_le, exp_pos|apply pow_le; exact HK].
  - apply poisson_series.
  - exact M1.
  - apply (series_eq _ (K * K + K - K * K)); [ring|]. exact (variance _ _ _ (poisson_series K) M1 M2).
Qed.

(** ** Negative binomial *)
Definition cf (m n : nat) : R := INR (fact (n + m - 1)) / (INR (fact n) * INR (fact (m - 1))).
Lemma cf_S m n : cf (S m) (S n) = cf (S m) n + cf m (S n) \/ m = 0%nat.
Proof.
  destruct m as [|m]; [right; reflexivity|left]. unfold cf. replace (S n + S (S m) - 1)%nat with (S (S (n + m))) by lia. replace (n + S (S m) - 1)%nat with (S (n + m)) by lia.
  replace (S n + S m - 1)%nat with (S (n + m)) by lia. replace (S (S m) - 1)%nat with (S m) by lia. replace (S m - 1)%nat with m by lia.
  rewrite !fact_S, !S_INR, plus_INR. pose proof (pos_INR n). pose proof (pos_INR m). field. repeat split; try apply fact_nz; lra.
Qed.
Lemma hockey m n : (0 < m)%nat -> sum_f_R0 (fun k => cf m k) n = cf (S m) n.
Proof.
  intros Hm. induction n as [|n IH].
  - cbn [sum_f_R0]. unfold cf. cbn [Nat.add]. replace (S m - 1)%nat with m by lia. cbn [fact INR]. field. split; apply fact_nz.
  - cbn [sum_f_R0]. rewrite IH. destruct (cf_S m n) as [E|E]; [rewrite E; reflexivity|lia].
Qed.
Lemma cf_pos m n : 0 < cf m n.
Proof. unfold cf. apply Rdiv_lt_0_compat; [apply INR_fact_lt_0|]. apply Rmult_lt_0_compat; apply INR_fact_lt_0. Qed.
Lemma geom q : 0 <= q < 1 -> is_series (fun n => q ^ n) (/ (1 - q)).
Proof. intros H. apply is_series_geom. rewrite Rabs_pos_eq; lra. Qed.
Lemma cf_series q : 0 <= q < 1 -> forall m, is_series (fun n => cf (S m) n * q ^ n) (/ (1 - q) ^ (S m)).
Proof.
  intros Hq. induction m as [|m IH].
  - replace (/ (1 - q) ^ 1) with (/ (1 - q)) by (f_equal; ring). eapply series_ext; [|exact (geom q Hq)]. intros n. unfold cf. replace (n + 1 - 1)%nat with n by lia. cbn [fact Nat.sub INR]. field. apply fact_nz.
  - assert (A : forall (a : nat -> R) (l : R), (forall n, 0 <= a n) -> is_series a l -> ex_series (fun n => Rabs (a n))).
    { intros a l P H. exists l. eapply series_ext; [|exact H]. intros n. cbn. rewrite Rabs_pos_eq; [reflexivity|apply P]. }
    assert (PG : forall n, 0 <= q ^ n) by (intros n; apply pow_le; lra).
    assert (PC : forall n, 0 <= cf (S m) n * q ^ n) by (intros n; apply Rmult_le_pos; [apply Rlt_le, cf_pos|apply PG]).
    pose proof (is_series_mult _ _ _ _ IH (geom q Hq) (A _ _ PC IH) (A _ _ PG (geom q Hq))) as H.
    replace (/ (1 - q) ^ S (S m)) with (/ (1 - q) ^ S m * / (1 - q)) by (change ((1 - q) ^ S (S m)) with ((1 - q) * (1 - q) ^ S m); assert (NZ : (1 - q) ^ S m <> 0) by (apply pow_nonzero; lra); set (P := (1 - q) ^ S m) in *; field; repeat split; first [lra|exact NZ]).
    revert H. apply series_ext. intros n. rewrite <- (hockey (S m) n) by lia.
    rewrite (Rmult_comm (sum_f_R0 _ _)), scal_sum. apply sum_eq. intros k Hk. rewrite Rmult_assoc, <- pow_add. replace (k + (n - k))%nat with n by lia. reflexivity.
Qed.
Lemma nbinom_is n K m : 0 <= K -> nbinom_dist n K (S m) = cf (S m) n * (INR (S m) / (K + INR (S m))) ^ (S m) * (K / (INR (S m) + K)) ^ n.
Proof.
  intros HK. unfold nbinom_dist. f_equal. f_equal. unfold gammaln, cf. replace (n + 1 - 1)%nat with n by lia.
  unfold Rminus. rewrite !exp_plus, !exp_Ropp, !exp_ln by apply INR_fact_lt_0. field. split; apply fact_nz.
Qed.
Section NB.
Variables (K : R) (m : nat).
Hypothesis (HK : 0 <= K).
Notation M := (INR (S m)).
Notation p := (M / (K + M)).
Notation q := (K / (M + K)).
Lemma M_pos : 0 < M. Proof. apply lt_0_INR. lia. Qed.
Lemma q_ok : 0 <= q < 1.
Proof. pose proof M_pos. split; [apply Rmult_le_pos; [exact HK|apply Rlt_le, Rinv_0_lt_compat; lra]|]. apply Rmult_lt_reg_r with (M + K); [lra|]. unfold Rdiv. rewrite Rmult_assoc, Rinv_l by lra. lra. Qed.
Lemma one_q : 1 - q = p. Proof. pose proof M_pos. field. lra. Qed.
Lemma p_pos : 0 < p. Proof. pose proof M_pos. apply Rdiv_lt_0_compat; lra. Qed.
Lemma nb0 : is_series (fun n => nbinom_dist n K (S m)) 1.
Proof.
  pose proof (series_scal (p ^ S m) _ _ (cf_series q q_ok m)) as H. rewrite one_q, Rinv_r in H by (apply pow_nonzero; pose proof p_pos; lra).
  revert H. apply series_ext. intros n. rewrite (nbinom_is n K m HK). ring.
Qed.
Lemma cf_step a n : INR (S n) * cf (S a) (S n) = INR (S a) * cf (S (S a)) n.
Proof.
  unfold cf. replace (S n + S a - 1)%nat with (S (n + a)) by lia. replace (n + S (S a) - 1)%nat with (S (n + a)) by lia. replace (S a - 1)%nat with a by lia. replace (S (S a) - 1)%nat with (S a) by lia.
  rewrite !fact_S. field. repeat split; try apply fact_nz; apply not_0_INR; lia.
Qed.
Lemma nb1 : is_series (fun n => INR n * nbinom_dist n K (S m)) K.
Proof.
  apply series_shift; [cbn [INR]; ring|]. pose proof (series_scal (p ^ S m * q * M) _ _ (cf_series q q_ok (S m))) as H. rewrite one_q in H.
  replace (p ^ S m * q * M * / p ^ S (S m)) with K in H.
  2:{ pose proof M_pos. pose proof p_pos. change (p ^ S (S m)) with (p * p ^ S m). assert (p ^ S m <> 0) by (apply pow_nonzero; lra). set (P := p ^ S m) in *. field. repeat split; try lra; exact H2. }
  revert H. apply series_ext. intros n. rewrite (nbinom_is (S n) K m HK). cbn [pow].
  transitivity (M * cf (S (S m)) n * (p ^ S m * (q * q ^ n))); [cbn [pow]; ring|]. rewrite <- cf_step. cbn [pow]. ring.
Qed.
Lemma nb2 : is_series (fun n => INR n * (INR n - 1) * nbinom_dist n K (S m)) (K * K * (M + 1) / M).
Proof.
  apply series_shift; [cbn [INR]; ring|]. apply series_shift; [cbn [INR]; ring|].
  pose proof (series_scal (p ^ S m * (q * q) * (M * (M + 1))) _ _ (cf_series q q_ok (S (S m)))) as H. rewrite one_q in H.
  replace (p ^ S m * (q * q) * (M * (M + 1)) * / p ^ S (S (S m))) with (K * K * (M + 1) / M) in H.
  2:{ pose proof M_pos. pose proof p_pos. change (p ^ S (S (S m))) with (p * (p * p ^ S m)). assert (p ^ S m <> 0) by (apply pow_nonzero; lra). set (P := p ^ S m) in *. field. repeat split; try lra; exact H2. }
  revert H. apply series_ext. intros n. rewrite (nbinom_is (S (S n)) K m HK).
  assert (E : INR (S (S n)) * (INR (S (S n)) - 1) * cf (S m) (S (S n)) = M * (M + 1) * cf (S (S (S m))) n).
  { replace (INR (S (S n)) - 1) with (INR (S n)) by (rewrite (S_INR (S n)); ring). rewrite (Rmult_comm (INR (S (S n)))), Rmult_assoc, cf_step.
    transitivity (M * (INR (S n) * cf (S (S m)) (S n))); [ring|]. rewrite cf_step. rewrite (S_INR (S m)). ring. }
  transitivity (M * (M + 1) * cf (S (S (S m))) n * (p ^ S m * (q * (q * q ^ n)))); [ring|]. rewrite <- E. cbn [pow]. ring.
Qed.
Theorem nbinom_ok : counts_with (fun n => nbinom_dist n K (S m)) K (K + K * K / M).
Proof.
  pose proof M_pos. pose proof p_pos as Hp. pose proof q_ok. split; [|split; [|split]].
  - intros n. rewrite (nbinom_is n K m HK). apply Rmult_le_pos; [apply Rmult_le_pos; [apply Rlt_le, cf_pos|apply pow_le; lra]|apply pow_le; lra].
  - exact nb0.
  - exact nb1.
  - replace (K + K * K / M) with (K * K * (M + 1) / M + K - K * K) by (field; lra). exact (variance _ _ _ nb0 nb1 nb2).
Qed.
End NB.
