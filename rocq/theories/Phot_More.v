(* Gamma density, and the Poisson limit of the negative binomial distribution. *)
From Coq Require Import Reals Arith Lia.
From Coquelicot Require Import Coquelicot.
From Verif Require Import Phot_Model Phot_Spec Phot_Proofs.
From Coq Require Import Lra.
Local Open Scope R_scope.

Lemma half_of (F g f : R -> R) (L : R) : (forall x, is_derive F x (g x)) -> (forall x, continuous g x) -> (forall x, 0 < x -> f x = g x) -> is_lim F p_infty L ->
  half_line f (L - F 0).
Proof.
  intros HD HC HE HL. unfold half_line, is_RInt_gen. intros P HP.
  assert (HB : Rbar_locally p_infty (fun b => P (F b - F 0))).
  { apply (is_lim_minus' F (fun _ => F 0) p_infty L (F 0) HL (is_lim_const (F 0) p_infty)). exact HP. }
  apply (Filter_prod _ _ _ (fun a => a = 0) (fun b => 0 < b /\ P (F b - F 0))).
  - reflexivity.
  - apply filter_and; [exists 0; trivial|exact HB].
  - intros a b -> [Hb Pb]. cbn [fst snd]. exists (F b - F 0). split; [|exact Pb].
    apply (is_RInt_ext g); [intros x Hx; rewrite Rmin_left, Rmax_right in Hx by lra; symmetry; apply HE; lra|].
    apply (is_RInt_derive F g); intros x _; [apply HD|apply HC].
Qed.
Lemma half_scal c (f : R -> R) (I : R) : half_line f I -> half_line (fun x => c * f x) (c * I).
Proof. intros H. exact (is_RInt_gen_scal (V := R_NormedModule) f c I H). Qed.
Lemma half_plus (f g : R -> R) (I J : R) : half_line f I -> half_line g J -> half_line (fun x => f x + g x) (I + J).
Proof. intros H1 H2. exact (is_RInt_gen_plus (V := R_NormedModule) f g I J H1 H2). Qed.
Lemma half_eq (f : R -> R) (I J : R) : I = J -> half_line f I -> half_line f J. Proof. intros ->. trivial. Qed.
Lemma half_ext (f g : R -> R) (I : R) : (forall x, f x = g x) -> half_line f I -> half_line g I.
Proof.
  intros E. unfold half_line. apply is_RInt_gen_ext. apply (Filter_prod _ _ _ (fun _ => True) (fun _ => True)); [exact Logic.I|exists 0; trivial|]. intros a b _ _ x _. apply E.
Qed.

(** ** Powers against the exponential *)
Lemma sum_step (a : nat -> R) n : sum_n a (S n) = sum_n a n + a (S n).
Proof. exact (sum_Sn a n). Qed.
Lemma exp_term n y : 0 <= y -> y ^ n / INR (fact n) <= exp y.
Proof.
  intros Hy. set (t := fun k => y ^ k / INR (fact k)).
  assert (P : forall k, 0 <= t k) by (intros k; apply Rmult_le_pos; [apply pow_le; exact Hy|apply Rlt_le, Rinv_0_lt_compat, INR_fact_lt_0]).
  assert (H : sum_n t n <= exp y).
  { apply (is_lim_seq_incr_compare (sum_n t) (exp y)).
    - exact (exp_series y).
    - intros k. rewrite sum_step. pose proof (P (S k)). lra. }
  assert (Q : forall k, 0 <= sum_n t k). { induction k as [|k IH]; [rewrite sum_O; apply P|]. rewrite sum_step. pose proof (P (S k)). lra. }
  change (t n <= exp y). refine (Rle_trans _ _ _ _ H). destruct n as [|n]; [rewrite sum_O; lra|]. rewrite sum_step. specialize (Q n). lra.
Qed.
Lemma pow_exp_lim k : is_lim (fun y => y ^ k * exp (- y)) p_infty 0.
Proof.
  apply (is_lim_le_le_loc (fun _ => 0) (fun y => INR (fact (S k)) * / y)).
  - exists 1. intros y Hy. split; [apply Rmult_le_pos; [apply pow_le; lra|apply Rlt_le, exp_pos]|].
    pose proof (exp_term (S k) y ltac:(lra)) as H. rewrite exp_Ropp. pose proof (exp_pos y) as E. pose proof (INR_fact_lt_0 (S k)) as F.
    apply Rmult_le_reg_r with (exp y); [exact E|]. rewrite Rmult_assoc, Rinv_l, Rmult_1_r by lra.
    apply Rmult_le_reg_r with (y / INR (fact (S k))); [apply Rdiv_lt_0_compat; lra|].
    replace (y ^ k * (y / INR (fact (S k)))) with (y ^ S k / INR (fact (S k))) by (change (y ^ S k) with (y * y ^ k); unfold Rdiv; ring).
    replace (INR (fact (S k)) * / y * exp y * (y / INR (fact (S k)))) with (exp y) by (field; lra). exact H.
  - apply is_lim_const.
  - replace (Finite 0) with (Rbar_mult (INR (fact (S k))) 0) by (cbn; f_equal; ring). apply is_lim_scal_l. replace (Finite 0) with (Rbar_inv p_infty) by reflexivity. apply is_lim_inv; [apply is_lim_id|discriminate].
Qed.

(** ** The density with shape m + 1 and scale s *)
Definition dens (m : nat) (s x : R) : R := (x / s) ^ m * exp (- (x / s)) / (s * INR (fact m)).
Fixpoint prim (m : nat) (s x : R) : R :=
  match m with O => - exp (- (x / s)) | S k => prim k s x - (x / s) ^ S k * exp (- (x / s)) / INR (fact (S k)) end.
Lemma prim_derive s : s <> 0 -> forall m (x : R), is_derive (prim m s) x (dens m s x).
Proof.
  intros Hs. induction m as [|m IH]; intros x.
  - unfold dens. cbn [prim pow fact INR]. auto_derive; [trivial|]. change (@eq R (- (- (1 * / s) * exp (- (x * / s)))) (1 * exp (- (x / s)) / (s * 1))). unfold Rdiv. field. exact Hs.
  - cbn [prim].
    assert (H : is_derive (fun x => (x / s) ^ S m * exp (- (x / s)) / INR (fact (S m))) x (dens m s x - dens (S m) s x)).
    { auto_derive; [trivial|]. unfold dens. change (fact m + m * fact m)%nat with (fact (S m)). rewrite fact_S, S_INR. cbn [Nat.pred pow].
      change (match m with O => 1 | S _ => INR m + 1 end) with (INR (S m)). rewrite ?S_INR. pose proof (fact_nz m) as F. pose proof (pos_INR m). unfold Rdiv.
      set (P := (x * / s) ^ m). set (E := exp (- (x * / s))). set (f := INR (fact m)) in *.
      match goal with |- ?a = ?b => change (@eq R a b) end. field. repeat split; try lra; try exact Hs; assumption. }
    pose proof (is_derive_minus _ _ x _ _ (IH x) H) as D. replace (dens (S m) s x) with (minus (dens m s x) (dens m s x - dens (S m) s x)) by (unfold minus, plus, opp; cbn; ring). exact D.
Qed.
Lemma dens_cont s m x : s <> 0 -> continuous (dens m s) x.
Proof.
  intros Hs. apply (ex_derive_continuous (dens m s)). unfold dens. auto_derive. repeat split; try exact Hs; try (apply Rmult_integral_contrapositive_currified; [exact Hs|apply fact_nz]).
Qed.
Lemma scaled_lim (f : R -> R) (l : R) s : 0 < s -> is_lim f p_infty l -> is_lim (fun x => f (x / s)) p_infty l.
Proof.
  intros Hs H. apply (is_lim_comp f (fun x => x / s) p_infty l p_infty H).
  - apply is_lim_spec. intros M. exists (M * s). intros x Hx. apply (Rmult_lt_reg_r s); [exact Hs|]. unfold Rdiv. rewrite Rmult_assoc, Rinv_l, Rmult_1_r by lra. exact Hx.
  - exists 0. intros y _. discriminate.
Qed.
Lemma prim_lim s : 0 < s -> forall m, is_lim (prim m s) p_infty 0.
Proof.
  intros Hs. induction m as [|m IH].
  - cbn [prim]. replace (Finite 0) with (Rbar_opp 0) by (cbn; f_equal; ring). apply is_lim_opp. apply (scaled_lim (fun y => exp (- y)) 0 s Hs).
    eapply is_lim_ext; [|exact (pow_exp_lim 0)]. intros y. cbn. ring.
  - cbn [prim]. replace (Finite 0) with (Finite (0 - 0)) by (f_equal; ring). apply is_lim_minus'; [exact IH|].
    replace (Finite 0) with (Rbar_mult 0 (/ INR (fact (S m)))) by (cbn; f_equal; ring). apply is_lim_scal_r. exact (scaled_lim (fun y => y ^ S m * exp (- y)) 0 s Hs (pow_exp_lim (S m))).
Qed.
Lemma prim_0 s : 0 < s -> forall m, prim m s 0 = -1.
Proof.
  intros Hs. assert (Z : 0 / s = 0) by (field; lra). induction m as [|m IH]; cbn [prim]; rewrite Z; [rewrite Ropp_0, exp_0; reflexivity|]. rewrite IH, Ropp_0. rewrite pow_i by lia. unfold Rdiv. ring.
Qed.
Lemma pdf_dens m s x : 0 <= x -> gamma_pdf (S m) s x = dens m s x.
Proof. intros Hx. unfold gamma_pdf, dens. destruct (Rlt_dec x 0); [lra|]. replace (S m - 1)%nat with m by lia. reflexivity. Qed.
Lemma pdf_total m s : 0 < s -> half_line (gamma_pdf (S m) s) 1.
Proof.
  intros Hs. replace 1 with (0 - prim m s 0) by (rewrite prim_0 by exact Hs; ring). apply (half_of (prim m s) (dens m s)).
  - apply prim_derive. lra.
  - intros x. apply dens_cont. lra.
  - intros x Hx. apply pdf_dens. lra.
  - exact (prim_lim s Hs m).
Qed.
Lemma pdf_step m s x : 0 < s -> x * gamma_pdf (S m) s x = s * INR (S m) * gamma_pdf (S (S m)) s x.
Proof.
  intros Hs. unfold gamma_pdf. destruct (Rlt_dec x 0); [ring|]. replace (S m - 1)%nat with m by lia. replace (S (S m) - 1)%nat with (S m) by lia. rewrite fact_S. cbn [pow].
  field. repeat split; try lra; [apply fact_nz|apply not_0_INR; lia].
Qed.
Theorem gamma_ok K m : 0 < K -> density_with (fun x => gamma_dist x K (S m)) K (K * K / INR (S m)).
Proof.
  intros HK. assert (HM : 0 < INR (S m)) by (apply lt_0_INR; lia). assert (Hs : 0 < K / INR (S m)) by (apply Rdiv_lt_0_compat; assumption).
  unfold gamma_dist. set (s := K / INR (S m)) in *. assert (E : s * INR (S m) = K) by (unfold s; field; lra).
  assert (T0 := pdf_total m s Hs).
  assert (T1 : half_line (fun x => x * gamma_pdf (S m) s x) K).
  { apply (half_ext (fun x => s * INR (S m) * gamma_pdf (S (S m)) s x)); [intros x; symmetry; apply pdf_step; exact Hs|]. rewrite E. apply (half_eq _ (K * 1)); [ring|]. apply half_scal. exact (pdf_total (S m) s Hs). }
  assert (T2 : half_line (fun x => x * x * gamma_pdf (S m) s x) (K * (s * (INR (S m) + 1)))).
  { apply (half_ext (fun x => K * (s * (INR (S m) + 1)) * gamma_pdf (S (S (S m))) s x)).
    - intros x. transitivity (x * (x * gamma_pdf (S m) s x)); [|ring]. rewrite (pdf_step m), E by exact Hs. rewrite <- S_INR.
      transitivity (K * (x * gamma_pdf (S (S m)) s x)); [rewrite (pdf_step (S m)) by exact Hs; ring|ring].
    - apply (half_eq _ (K * (s * (INR (S m) + 1)) * 1)); [ring|]. apply half_scal. exact (pdf_total (S (S m)) s Hs). }
  split; [|split; [|split; [exact T0|split; [exact T1|]]]].
  - intros x. unfold gamma_pdf. destruct (Rlt_dec x 0); [lra|]. apply Rmult_le_pos; [apply Rmult_le_pos; [apply pow_le, Rmult_le_pos; [lra|apply Rlt_le, Rinv_0_lt_compat; exact Hs]|apply Rlt_le, exp_pos]|].
    apply Rlt_le, Rinv_0_lt_compat, Rmult_lt_0_compat; [exact Hs|apply INR_fact_lt_0].
  - intros x Hx. unfold gamma_pdf. destruct (Rlt_dec x 0); [reflexivity|lra].
  - replace (K * K / INR (S m)) with (K * (s * (INR (S m) + 1)) + (-2 * K * K + K * K * 1)) by (unfold s; field; lra).
    apply (half_ext (fun x => x * x * gamma_pdf (S m) s x + (-2 * K * (x * gamma_pdf (S m) s x) + K * K * gamma_pdf (S m) s x))); [intros x; ring|].
    apply half_plus; [exact T2|]. apply half_plus; apply half_scal; assumption.
Qed.

(** ** Many modes: Poisson *)
Lemma inv_lim K : 0 <= K -> is_lim_seq (fun m => / (INR (S m) + K)) 0.
Proof.
  intros HK. apply (is_lim_seq_le_le (fun _ => 0) _ (fun m => / INR (S m))).
  - intros m. assert (0 < INR (S m)) by (apply lt_0_INR; lia). split; [apply Rlt_le, Rinv_0_lt_compat; lra|apply Rinv_le_contravar; lra].
  - apply is_lim_seq_const.
  - apply (is_lim_seq_incr_1 (fun m => / INR m)). replace (Finite 0) with (Rbar_inv p_infty) by reflexivity. apply is_lim_seq_inv; [apply is_lim_seq_INR|discriminate].
Qed.
Lemma ln_up t : 0 <= t -> ln (1 + t) <= t.
Proof. intros H. rewrite <- (ln_exp t) at 2. destruct (Req_dec t 0) as [->|N]; [rewrite Rplus_0_r, exp_0; lra|]. apply Rlt_le, ln_increasing; [lra|]. apply exp_ineq1. lra. Qed.
Lemma ln_low t : 0 <= t -> t / (1 + t) <= ln (1 + t).
Proof.
  intros H. destruct (Req_dec t 0) as [->|N]; [rewrite Rplus_0_r, ln_1; lra|]. assert (E : ln (1 + t) = - ln (1 + - (t / (1 + t)))).
  { rewrite <- ln_Rinv; [f_equal; field; lra|]. replace (1 + - (t / (1 + t))) with (/ (1 + t)) by (field; lra). apply Rinv_0_lt_compat. lra. }
  rewrite E. assert (L : ln (1 + - (t / (1 + t))) <= - (t / (1 + t))); [|lra]. rewrite <- (ln_exp (- (t / (1 + t)))) at 2. apply Rlt_le, ln_increasing.
  - replace (1 + - (t / (1 + t))) with (/ (1 + t)) by (field; lra). apply Rinv_0_lt_compat. lra.
  - apply exp_ineq1. assert (0 < t / (1 + t)) by (apply Rdiv_lt_0_compat; lra). lra.
Qed.
Lemma exponent_lim K : 0 <= K -> is_lim_seq (fun m => INR (S m) * ln (1 + K / INR (S m))) K.
Proof.
  intros HK. assert (HM : forall m, 0 < INR (S m)) by (intros m; apply lt_0_INR; lia).
  apply (is_lim_seq_le_le (fun m => K - K * K * / (INR (S m) + K)) _ (fun _ => K)).
  - intros m. specialize (HM m). assert (T : 0 <= K / INR (S m)) by (apply Rmult_le_pos; [exact HK|apply Rlt_le, Rinv_0_lt_compat; exact HM]). split.
    + replace (K - K * K * / (INR (S m) + K)) with (INR (S m) * (K / INR (S m) / (1 + K / INR (S m)))) by (field; lra). apply Rmult_le_compat_l; [lra|]. apply ln_low. exact T.
    + replace K with (INR (S m) * (K / INR (S m))) at 2 by (field; lra). apply Rmult_le_compat_l; [lra|]. apply ln_up. exact T.
  - replace (Finite K) with (Finite (K - K * K * 0)) by (f_equal; ring). apply is_lim_seq_minus'; [apply is_lim_seq_const|]. apply (is_lim_seq_scal_l (fun m => / (INR (S m) + K)) (K * K) 0). exact (inv_lim K HK).
  - apply is_lim_seq_const.
Qed.
Lemma base_lim K : 0 <= K -> is_lim_seq (fun m => (INR (S m) / (K + INR (S m))) ^ S m) (exp (- K)).
Proof.
  intros HK. apply (is_lim_seq_ext (fun m => exp (- (INR (S m) * ln (1 + K / INR (S m)))))).
  - intros m. assert (HM : 0 < INR (S m)) by (apply lt_0_INR; lia). assert (P : 0 < INR (S m) / (K + INR (S m))) by (apply Rdiv_lt_0_compat; lra).
    rewrite <- (Rpower_pow (S m) _ P). unfold Rpower. f_equal. replace (INR (S m) / (K + INR (S m))) with (/ (1 + K / INR (S m))) by (field; lra).
    rewrite ln_Rinv; [ring|]. assert (0 <= K / INR (S m)) by (apply Rmult_le_pos; [exact HK|apply Rlt_le, Rinv_0_lt_compat; exact HM]). lra.
  - apply (is_lim_seq_continuous exp); [apply derivable_continuous_pt, derivable_pt_exp|].
    pose proof (proj1 (is_lim_seq_opp _ _) (exponent_lim K HK)) as H. exact H.
Qed.
Lemma coef_lim K n : 0 <= K -> is_lim_seq (fun m => cf (S m) n * (K / (INR (S m) + K)) ^ n) (K ^ n / INR (fact n)).
Proof.
  intros HK. induction n as [|n IH].
  - cbn [pow fact INR]. replace (1 / 1) with 1 by field. apply (is_lim_seq_ext (fun _ => 1)); [|apply is_lim_seq_const]. intros m. unfold cf. cbn [Nat.add fact INR]. field. apply fact_nz.
  - apply (is_lim_seq_ext (fun m => (cf (S m) n * (K / (INR (S m) + K)) ^ n) * (K / INR (S n) * (1 + (INR n - K) * / (INR (S m) + K))))).
    + intros m. unfold cf. replace (S n + S m - 1)%nat with (S (n + m)) by lia. replace (n + S m - 1)%nat with (n + m)%nat by lia. replace (S m - 1)%nat with m by lia.
      rewrite !fact_S. cbn [pow]. assert (HM : 0 < INR (S m)) by (apply lt_0_INR; lia). assert (HN : 0 < INR (S n)) by (apply lt_0_INR; lia).
      replace (INR (S (n + m))) with (INR n + INR (S m)) by (rewrite <- plus_INR; f_equal; lia). field. repeat split; try lra; apply fact_nz.
    + replace (K ^ S n / INR (fact (S n))) with (K ^ n / INR (fact n) * (K / INR (S n) * (1 + (INR n - K) * 0))).
      2:{ rewrite fact_S. cbn [pow]. field. split; [apply fact_nz|apply not_0_INR; lia]. }
      apply is_lim_seq_mult'; [exact IH|]. apply is_lim_seq_mult'; [apply is_lim_seq_const|]. apply is_lim_seq_plus'; [apply is_lim_seq_const|]. apply is_lim_seq_mult'; [apply is_lim_seq_const|exact (inv_lim K HK)].
Qed.
Theorem nbinom_poisson K n : 0 <= K -> is_lim_seq (fun m => nbinom_dist n K (S m)) (poisson_dist n K).
Proof.
  intros HK. apply (is_lim_seq_ext (fun m => (INR (S m) / (K + INR (S m))) ^ S m * (cf (S m) n * (K / (INR (S m) + K)) ^ n))).
  - intros m. rewrite (nbinom_is n K m HK). ring.
  - unfold poisson_dist. replace (exp (- K) * K ^ n / INR (fact n)) with (exp (- K) * (K ^ n / INR (fact n))) by (unfold Rdiv; ring). apply is_lim_seq_mult'; [exact (base_lim K HK)|exact (coef_lim K n HK)].
Qed.
