From Coq Require Import Reals Lia.
From Coquelicot Require Import Coquelicot.
From Verif Require Import Gauss Line_Model Line_Proofs.
From Coq Require Import Lra.
Local Open Scope R_scope.

(** ** erfc *)
Lemma erfc_G x : erfc x = 1 - 2 / sqrt PI * G x. Proof. reflexivity. Qed.
Lemma erfc_0 : erfc 0 = 1. Proof. rewrite erfc_G, G_0. ring. Qed.
Lemma erfc_derive (x : R) : is_derive erfc x (- (2 / sqrt PI) * bell x).
Proof.
  apply (is_derive_ext (fun x => plus 1 (scal (- (2 / sqrt PI)) (G x)))); [intros t; rewrite erfc_G; unfold plus, scal; cbn; unfold mult; cbn; ring|].
  replace (- (2 / sqrt PI) * bell x) with (plus 0 (scal (- (2 / sqrt PI)) (bell x))) by (unfold plus, scal; cbn; unfold mult; cbn; ring).
  apply (is_derive_plus (V := R_NormedModule)); [apply (is_derive_const (V := R_NormedModule))|]. apply (is_derive_scal G). apply G_derive.
Qed.
Lemma H_pos x : 0 < H x.
Proof. unfold H. apply RInt_gt_0; [lra| |intros t _; apply K_cont]. intros t _. unfold K. apply Rdiv_lt_0_compat; [apply exp_pos|apply den_pos]. Qed.
Lemma G_below x : - (sqrt PI / 2) < G x < sqrt PI / 2.
Proof.
  pose proof (GH x) as E. pose proof (H_pos x) as P. pose proof sqrtPI_pos as S. assert (Q : sqrt PI * sqrt PI = PI) by (apply sqrt_sqrt; left; apply PI_RGT_0).
  assert (L : G x * G x < (sqrt PI / 2) * (sqrt PI / 2)) by lra. clear -L S. set (s := sqrt PI / 2) in *. assert (0 < s) by (unfold s; lra). clearbody s.
  split; apply Rnot_le_lt; intros B; nra.
Qed.
Lemma erfc_range x : 0 < erfc x < 2.
Proof.
  pose proof (G_below x) as [B1 B2]. pose proof sqrtPI_pos as S. rewrite erfc_G. assert (E : forall g, 2 / sqrt PI * g = g / (sqrt PI / 2)) by (intros; field; lra). rewrite E.
  assert (H1 : G x / (sqrt PI / 2) < 1) by (apply (Rmult_lt_reg_r (sqrt PI / 2)); [lra|]; unfold Rdiv at 1; rewrite Rmult_assoc, Rinv_l, Rmult_1_r by lra; lra).
  assert (H2 : -1 < G x / (sqrt PI / 2)) by (apply (Rmult_lt_reg_r (sqrt PI / 2)); [lra|]; unfold Rdiv at 2; rewrite Rmult_assoc, Rinv_l, Rmult_1_r by lra; lra).
  lra.
Qed.
Lemma erfc_lim_p : is_lim erfc p_infty 0.
Proof.
  pose proof sqrtPI_pos as S. pose proof (plus_lim (fun _ => 1) (fun x => - (2 / sqrt PI) * G x) p_infty 1 _ (is_lim_const _ _) (scal_lim (- (2 / sqrt PI)) G p_infty _ G_lim_p)) as Q.
  replace (1 + - (2 / sqrt PI) * (sqrt PI / 2)) with 0 in Q by (field; lra). apply (is_lim_ext (fun y => 1 + - (2 / sqrt PI) * G y)); [intros; rewrite erfc_G; ring|exact Q].
Qed.
Lemma erfc_lim_m : is_lim erfc m_infty 2.
Proof.
  pose proof sqrtPI_pos as S. pose proof (plus_lim (fun _ => 1) (fun x => - (2 / sqrt PI) * G x) m_infty 1 _ (is_lim_const _ _) (scal_lim (- (2 / sqrt PI)) G m_infty _ G_lim_m)) as Q.
  replace (1 + - (2 / sqrt PI) * (- (sqrt PI / 2))) with 2 in Q by (field; lra). apply (is_lim_ext (fun y => 1 + - (2 / sqrt PI) * G y)); [intros; rewrite erfc_G; ring|exact Q].
Qed.
Lemma mono_le (F f : R -> R) a b : (forall x, is_derive F x (f x)) -> (forall x, a <= x <= b -> 0 <= f x) -> a <= b -> F a <= F b.
Proof.
  intros HD HP [L|E]; [|rewrite E; lra]. destruct (MVT_gen F a b f) as [c [Hc E]].
  - intros x _. apply HD.
  - intros x _. apply derivable_continuous_pt. eexists. apply is_derive_Reals, HD.
  - rewrite Rmin_left, Rmax_right in Hc by lra. specialize (HP c Hc). assert (0 <= f c * (b - a)) by (apply Rmult_le_pos; lra). lra.
Qed.
Lemma mono_lt (F f : R -> R) a b : (forall x, is_derive F x (f x)) -> (forall x, a <= x <= b -> 0 < f x) -> a < b -> F a < F b.
Proof.
  intros HD HP L. destruct (MVT_gen F a b f) as [c [Hc E]].
  - intros x _. apply HD.
  - intros x _. apply derivable_continuous_pt. eexists. apply is_derive_Reals, HD.
  - rewrite Rmin_left, Rmax_right in Hc by lra. specialize (HP c Hc). assert (0 < f c * (b - a)) by (apply Rmult_lt_0_compat; lra). lra.
Qed.
Lemma erfc_decr a b : a < b -> erfc b < erfc a.
Proof.
  intros L. pose proof sqrtPI_pos as S. assert (M : G a < G b) by (apply (mono_lt G bell); [apply G_derive|intros; apply exp_pos|exact L]). rewrite !erfc_G.
  assert (0 < 2 / sqrt PI) by (apply Rdiv_lt_0_compat; lra). assert (2 / sqrt PI * G a < 2 / sqrt PI * G b) by (apply Rmult_lt_compat_l; assumption). lra.
Qed.
Lemma erfc_small v : 0 <= v -> erfc v <= 4 / PI * bell v.
Proof.
  intros Hv. pose proof sqrtPI_pos as S. assert (Q : sqrt PI * sqrt PI = PI) by (apply sqrt_sqrt; left; apply PI_RGT_0). pose proof (GH v) as E. pose proof (H_bounds v) as B. pose proof (G_nonneg v Hv) as N. pose proof (G_below v) as [_ U].
  rewrite erfc_G. set (s := sqrt PI) in *. set (g := G v) in *. fold (bell v) in B. rewrite <- Q.
  replace (1 - 2 / s * g) with (2 / s * (s / 2 - g)) by (field; lra). replace (4 / (s * s) * bell v) with (2 / s * (2 / s * bell v)) by (field; lra).
  apply Rmult_le_compat_l; [apply Rlt_le, Rdiv_lt_0_compat; lra|]. apply (Rmult_le_reg_l (s / 2)); [lra|]. replace (s / 2 * (2 / s * bell v)) with (bell v) by (field; lra).
  assert (M : s / 2 * (s / 2 - g) <= (s / 2 + g) * (s / 2 - g)) by (apply Rmult_le_compat_r; lra). assert ((s / 2 + g) * (s / 2 - g) = H v) by (replace (H v) with (PI / 4 - g * g) by lra; rewrite <- Q; field). lra.
Qed.
Lemma bell_small v : bell v <= / (1 + v * v).
Proof.
  unfold bell. rewrite exp_Ropp. apply Rinv_le_contravar; [apply one_sq|]. destruct (Req_dec (v * v) 0) as [E|E]; [rewrite E, exp_0; lra|]. left. apply exp_ineq1. exact E.
Qed.
Lemma squeeze0_p f g : (forall x, 0 <= x -> 0 <= f x <= g x) -> is_lim g p_infty 0 -> is_lim f p_infty 0.
Proof.
  intros B L. apply is_lim_spec in L. apply is_lim_spec. intros eps. destruct (L eps) as [M HM]. exists (Rmax 0 M). intros x Hx. pose proof (Rmax_l 0 M). pose proof (Rmax_r 0 M).
  specialize (HM x ltac:(lra)). specialize (B x ltac:(lra)). rewrite Rminus_0_r in *. rewrite Rabs_pos_eq in HM by lra. rewrite Rabs_pos_eq; lra.
Qed.
Lemma bell_lim : is_lim bell p_infty 0.
Proof.
  apply is_lim_spec. intros eps. destruct (exp_sq_small eps (cond_pos eps)) as [M [_ HM]]. exists M. intros x Hx. rewrite Rminus_0_r, Rabs_pos_eq by (left; apply exp_pos). apply HM. exact Hx.
Qed.
Lemma v_erfc_lim : is_lim (fun v => v * erfc v) p_infty 0.
Proof.
  pose proof PI_RGT_0 as HP.
  apply (squeeze0_p _ (fun v => 4 / PI * (v / (1 + v * v)))).
  - intros v Hv. pose proof (erfc_range v). pose proof (erfc_small v Hv) as E. pose proof (bell_small v) as B. split; [apply Rmult_le_pos; lra|].
    assert (P : 0 < 4 / PI) by (apply Rdiv_lt_0_compat; lra). assert (M : erfc v <= 4 / PI * / (1 + v * v)).
    { eapply Rle_trans; [exact E|]. apply Rmult_le_compat_l; lra. }
    replace (4 / PI * (v / (1 + v * v))) with (v * (4 / PI * / (1 + v * v))) by (unfold Rdiv; ring). apply Rmult_le_compat_l; assumption.
  - replace (Finite 0) with (Finite (4 / PI * 0)) by (f_equal; ring). apply scal_lim. exact rational_lim_p.
Qed.
Lemma scal_lim_to (k : R) F x (l m : R) : m = k * l -> is_lim F x l -> is_lim (fun y => k * F y) x m.
Proof. intros ->. apply scal_lim. Qed.
(** ** The step *)
Theorem step_ok area c s e : 0 < area -> 0 < s -> 0 < e ->
  is_lim (fun x => gausssian_step x area c s e) m_infty (area / e) /\ is_lim (fun x => gausssian_step x area c s e) p_infty 0 /\
  gausssian_step c area c s e = area / e / 2 /\ (forall x y, x < y -> gausssian_step y area c s e < gausssian_step x area c s e).
Proof.
  intros Ha Hs He. pose proof sqrt2_pos as H2. assert (Hw : 0 < sqrt 2 * s) by (apply Rmult_lt_0_compat; lra).
  assert (E : forall x, area / (2 * e) * erfc ((x - c) / (sqrt 2 * s)) = gausssian_step x area c s e) by (intros; unfold gausssian_step; field; lra).
  split; [|split; [|split]].
  - apply (is_lim_ext (fun x => area / (2 * e) * erfc ((x - c) / (sqrt 2 * s))) _ _ _ E). replace (area / e) with (area / (2 * e) * 2) by (field; lra). apply scal_lim. apply (along_m erfc); [exact Hw|exact erfc_lim_m].
  - apply (is_lim_ext (fun x => area / (2 * e) * erfc ((x - c) / (sqrt 2 * s))) _ _ _ E). replace (Finite 0) with (Finite (area / (2 * e) * 0)) by (f_equal; ring). apply scal_lim. apply (along_p erfc); [exact Hw|exact erfc_lim_p].
  - rewrite <- E. replace ((c - c) / (sqrt 2 * s)) with 0 by (field; lra). rewrite erfc_0. field. lra.
  - intros x y L. rewrite <- !E. apply Rmult_lt_compat_l; [apply Rdiv_lt_0_compat; lra|]. apply erfc_decr. unfold Rdiv. apply Rmult_lt_compat_r; [apply Rinv_0_lt_compat; exact Hw|lra].
Qed.

(** ** The tail *)
Section Tail.
Context (k : R).
Hypothesis Hk : 0 < k.
Definition f1 (u : R) : R := exp (2 * k * u) * erfc (u + k).
Definition f2 (u : R) : R := erfc (u + k).
Definition P1 (u : R) : R := / (2 * k) * (exp (2 * k * u) * erfc (u + k) + exp (- (k * k)) * (2 / sqrt PI) * G u).
Definition P2 (u : R) : R := (u + k) * erfc (u + k) - / sqrt PI * bell (u + k).
Lemma erfc_shift_derive (u : R) : is_derive (fun u => erfc (u + k)) u (- (2 / sqrt PI) * bell (u + k)).
Proof.
  replace (- (2 / sqrt PI) * bell (u + k)) with (scal 1 (- (2 / sqrt PI) * bell (u + k))) by (unfold scal; cbn; unfold mult; cbn; ring).
  apply (is_derive_comp (V := R_NormedModule) erfc (fun u => u + k)); [apply erfc_derive|]. auto_derive; [exact I|ring].
Qed.
Lemma bell_shift u : bell (u + k) = exp (- (k * k)) * bell u * exp (- (2 * k * u)).
Proof. unfold bell. rewrite <- !exp_plus. f_equal. ring. Qed.
Lemma P1_derive (u : R) : is_derive P1 u (f1 u).
Proof.
  pose proof sqrtPI_pos as S. unfold P1.
  replace (f1 u) with (scal (/ (2 * k)) (plus (plus (mult (2 * k * exp (2 * k * u)) (erfc (u + k))) (mult (exp (2 * k * u)) (- (2 / sqrt PI) * bell (u + k)))) (scal (exp (- (k * k)) * (2 / sqrt PI)) (bell u)))).
  - apply (is_derive_scal (fun u => exp (2 * k * u) * erfc (u + k) + exp (- (k * k)) * (2 / sqrt PI) * G u) u (/ (2 * k))).
    apply (is_derive_plus (V := R_NormedModule)).
    + apply (is_derive_mult (K := R_AbsRing) (fun u => exp (2 * k * u)) (fun u => erfc (u + k)) u); [|apply erfc_shift_derive|intros; apply Rmult_comm]. auto_derive; [exact I|ring].
    + apply (is_derive_scal G). apply G_derive.
  - unfold scal, plus, mult. cbn. unfold mult. cbn. rewrite bell_shift. unfold f1. assert (E : exp (2 * k * u) * exp (- (2 * k * u)) = 1) by (rewrite <- exp_plus, <- exp_0; f_equal; ring).
    transitivity (exp (2 * k * u) * erfc (u + k) + / (2 * k) * (2 / sqrt PI) * exp (- (k * k)) * bell u * (1 - exp (2 * k * u) * exp (- (2 * k * u)))); [field; lra|rewrite E; ring].
Qed.
Lemma P2_derive (u : R) : is_derive P2 u (f2 u).
Proof.
  pose proof sqrtPI_pos as S. unfold P2.
  replace (f2 u) with (minus (plus (mult 1 (erfc (u + k))) (mult (u + k) (- (2 / sqrt PI) * bell (u + k)))) (scal (/ sqrt PI) (-2 * (u + k) * bell (u + k)))).
  - apply (is_derive_minus (V := R_NormedModule)).
    + apply (is_derive_mult (K := R_AbsRing) (fun u => u + k) (fun u => erfc (u + k)) u); [|apply erfc_shift_derive|intros; apply Rmult_comm]. auto_derive; [exact I|ring].
    + apply (is_derive_scal (fun u => bell (u + k)) u (/ sqrt PI)). unfold bell. auto_derive; [exact I|ring].
  - unfold minus, scal, plus, opp, mult. cbn. unfold mult. cbn. unfold f2. field. lra.
Qed.
Lemma f1_cont (u : R) : continuous f1 u. Proof. apply (ex_derive_continuous (V := R_NormedModule)). unfold f1. eexists. apply (is_derive_mult (K := R_AbsRing) (fun u => exp (2 * k * u)) (fun u => erfc (u + k)) u (2 * k * exp (2 * k * u)) (- (2 / sqrt PI) * bell (u + k))); [auto_derive; [exact I|ring]|apply erfc_shift_derive|intros; apply Rmult_comm]. Qed.
Lemma f2_cont (u : R) : continuous f2 u. Proof. apply (ex_derive_continuous (V := R_NormedModule)). eexists. apply erfc_shift_derive. Qed.
Lemma exp_bound v : 0 <= v -> exp (- v) <= / (1 + v).
Proof. intros Hv. rewrite exp_Ropp. apply Rinv_le_contravar; [lra|]. destruct (Req_dec v 0) as [->|E]; [rewrite exp_0; lra|]. left. apply exp_ineq1. exact E. Qed.
Lemma shift_lim_p F (l : R) : is_lim F p_infty l -> is_lim (fun u => F (u + k)) p_infty l.
Proof. intros L. apply (is_lim_ext (fun u => F ((u - - k) / 1))); [intros u; f_equal; field|]. apply (along_p F); [lra|exact L]. Qed.
Lemma P1_lim_m : is_lim P1 m_infty (/ (2 * k) * (0 + - exp (- (k * k)))).
Proof.
  pose proof sqrtPI_pos as S. unfold P1. apply scal_lim. apply plus_lim.
  - apply is_lim_spec. intros eps. pose proof (cond_pos eps) as He. exists (- (/ k * / eps)). intros u Hu. pose proof (erfc_range (u + k)) as R. pose proof (exp_pos (2 * k * u)) as Ep. pose proof (Rinv_0_lt_compat _ He) as Hi. pose proof (Rinv_0_lt_compat _ Hk) as Hik.
    assert (B : / eps < - (k * u)). { assert (M : k * u < k * - (/ k * / eps)) by (apply Rmult_lt_compat_l; assumption). replace (k * - (/ k * / eps)) with (- / eps) in M by (field; lra). lra. }
    rewrite Rminus_0_r, Rabs_pos_eq by (apply Rmult_le_pos; lra). assert (E1 : exp (2 * k * u) <= / (1 + 2 * - (k * u))) by (replace (2 * k * u) with (- (2 * - (k * u))) by ring; apply exp_bound; lra).
    assert (E2 : / (1 + 2 * - (k * u)) < / (2 * / eps)) by (apply Rinv_lt_contravar; [apply Rmult_lt_0_compat; lra|lra]). replace (/ (2 * / eps)) with (eps / 2) in E2 by (field; lra).
    assert (exp (2 * k * u) * erfc (u + k) <= exp (2 * k * u) * 2) by (apply Rmult_le_compat_l; lra). lra.
  - replace (- exp (- (k * k))) with (exp (- (k * k)) * (2 / sqrt PI) * - (sqrt PI / 2)) by (field; lra). apply scal_lim. exact G_lim_m.
Qed.
Lemma P2_lim_p : is_lim P2 p_infty 0.
Proof.
  replace (Finite 0) with (Finite (0 + - / sqrt PI * 0)) by (f_equal; ring). apply (is_lim_ext (fun u => (u + k) * erfc (u + k) + - / sqrt PI * bell (u + k))); [intros; unfold P2; ring|].
  apply plus_lim; [exact (shift_lim_p (fun v => v * erfc v) 0 v_erfc_lim)|]. apply scal_lim. exact (shift_lim_p bell 0 bell_lim).
Qed.
Lemma P1_lim_p : is_lim P1 p_infty (/ (2 * k) * (0 + exp (- (k * k)))).
Proof.
  pose proof sqrtPI_pos as S. pose proof PI_RGT_0 as HP. unfold P1. apply scal_lim. apply plus_lim.
  - apply (squeeze0_p _ (fun u => 4 / PI * exp (- (k * k)) * bell u)).
    + intros u Hu. pose proof (exp_pos (2 * k * u)) as Ep. pose proof (erfc_range (u + k)). split; [apply Rmult_le_pos; lra|].
      assert (B : exp (2 * k * u) * erfc (u + k) <= exp (2 * k * u) * (4 / PI * bell (u + k))) by (apply Rmult_le_compat_l; [lra|apply erfc_small; lra]).
      rewrite bell_shift in B. assert (E : exp (2 * k * u) * exp (- (2 * k * u)) = 1) by (rewrite <- exp_plus, <- exp_0; f_equal; ring).
      replace (exp (2 * k * u) * (4 / PI * (exp (- (k * k)) * bell u * exp (- (2 * k * u))))) with (4 / PI * exp (- (k * k)) * bell u * (exp (2 * k * u) * exp (- (2 * k * u)))) in B by ring. rewrite E in B. lra.
    + replace (Finite 0) with (Finite (4 / PI * exp (- (k * k)) * 0)) by (f_equal; ring). apply scal_lim. exact bell_lim.
  - apply (scal_lim_to _ _ _ (sqrt PI / 2)); [field; lra|exact G_lim_p].
Qed.
Definition total : R := P1 0 - / (2 * k) * (0 + - exp (- (k * k))) + (0 - P2 0).
Lemma total_eq : total = / (2 * k) * (erfc k + exp (- (k * k))) - k * erfc k + / sqrt PI * exp (- (k * k)).
Proof. unfold total, P1, P2. rewrite G_0. replace (2 * k * 0) with 0 by ring. rewrite exp_0. replace (0 + k) with k by ring. unfold bell. ring. Qed.
Lemma lim_ge F (l : R) m : is_lim F p_infty l -> (forall u, 1 <= u -> m <= F u) -> m <= l.
Proof.
  intros L B. apply Rnot_lt_le. intros Hl. apply is_lim_spec in L. destruct (L (mkposreal (m - l) ltac:(lra))) as [M HM]. cbn in HM. specialize (HM (Rmax M 1 + 1)). pose proof (Rmax_l M 1). pose proof (Rmax_r M 1).
  specialize (HM ltac:(lra)). specialize (B (Rmax M 1 + 1) ltac:(lra)). apply Rabs_def2 in HM. lra.
Qed.
Lemma right_pos : P2 0 < 0.
Proof.
  pose proof (lim_ge P2 0 (P2 1) P2_lim_p) as Q. assert (P2 0 < P2 1) by (apply (mono_lt P2 f2); [apply P2_derive|intros; apply erfc_range|lra]).
  assert (P2 1 <= 0); [|lra]. apply Q. intros u Hu. apply (mono_le P2 f2); [apply P2_derive| |exact Hu]. intros x _. left. apply erfc_range.
Qed.
Lemma total_bounds : exp (- (k * k)) / (2 * k) < total < exp (- (k * k)) / k.
Proof.
  split.
  - pose proof right_pos. assert (E : P1 0 = / (2 * k) * erfc k) by (unfold P1; rewrite G_0; replace (2 * k * 0) with 0 by ring; rewrite exp_0; replace (0 + k) with k by ring; ring).
    unfold total. rewrite E. pose proof (erfc_range k). assert (0 < / (2 * k) * erfc k) by (apply Rmult_lt_0_compat; [apply Rinv_0_lt_compat; lra|lra]). unfold Rdiv. lra.
  - set (D := fun u => P1 u - P2 u).
    assert (DD : forall u : R, is_derive D u ((exp (2 * k * u) - 1) * erfc (u + k))).
    { intros u. replace ((exp (2 * k * u) - 1) * erfc (u + k)) with (minus (f1 u) (f2 u)) by (unfold minus, plus, opp; cbn; unfold f1, f2; ring). apply (is_derive_minus (V := R_NormedModule)); [apply P1_derive|apply P2_derive]. }
    assert (Pos : forall u, 0 < u -> 0 < (exp (2 * k * u) - 1) * erfc (u + k)).
    { intros u Hu. apply Rmult_lt_0_compat; [|apply erfc_range]. assert (0 < 2 * k * u) by (apply Rmult_lt_0_compat; lra). pose proof (exp_increasing 0 (2 * k * u) ltac:(assumption)) as X. rewrite exp_0 in X. lra. }
    assert (D1 : D 0 <= D (1 / 2)).
    { apply (mono_le D _ _ _ DD); [|lra]. intros x [Hx _]. destruct Hx as [Hx|<-]; [left; apply Pos; exact Hx|]. replace (2 * k * 0) with 0 by ring. rewrite exp_0. lra. }
    assert (D2 : D (1 / 2) < D 1) by (apply (mono_lt D _ _ _ DD); [intros x Hx; apply Pos; lra|lra]).
    assert (DL : is_lim D p_infty (/ (2 * k) * (0 + exp (- (k * k))) + -1 * 0)).
    { apply (is_lim_ext (fun u => P1 u + -1 * P2 u)); [intros; unfold D; ring|]. apply plus_lim; [exact P1_lim_p|]. apply scal_lim. exact P2_lim_p. }
    assert (D3 : D 1 <= / (2 * k) * (0 + exp (- (k * k))) + -1 * 0).
    { apply (lim_ge D); [exact DL|]. intros u Hu. apply (mono_le D _ _ _ DD); [|exact Hu]. intros x [Hx _]. left. apply Pos. lra. }
    unfold D in *. unfold total. assert (E : exp (- (k * k)) / k = / (2 * k) * exp (- (k * k)) + / (2 * k) * exp (- (k * k))) by (field; lra). rewrite E. lra.
Qed.
End Tail.

Lemma half_left (f g F : R -> R) (la : R) b : (forall x, is_derive F x (g x)) -> (forall x, continuous g x) -> is_lim F m_infty la -> (forall x, x < b -> f x = g x) ->
  is_RInt_gen f (Rbar_locally m_infty) (at_point b) (F b - la).
Proof.
  intros HD HC Ha E. assert (EE : forall x, Derive F x = g x) by (intros x; apply is_derive_unique, HD).
  apply (is_RInt_gen_ext (Derive F)).
  - apply (Filter_prod _ _ _ (fun a => a < b) (fun y => y = b)); [exists b; trivial|reflexivity|]. intros a y Ha' -> x Hx. cbn in Hx. rewrite Rmax_right in Hx by lra. rewrite EE. symmetry. apply E. lra.
  - apply is_RInt_gen_Derive.
    + apply (Filter_prod _ _ _ (fun _ => True) (fun _ => True)); [exists 0; trivial|exact I|]. intros a y _ _ x _. eexists. apply HD.
    + apply (Filter_prod _ _ _ (fun _ => True) (fun _ => True)); [exists 0; trivial|exact I|]. intros a y _ _ x _. apply (continuous_ext g); [intros; symmetry; apply EE|apply HC].
    + exact Ha.
    + intros P HP. unfold filtermap, at_point. apply locally_singleton in HP. exact HP.
Qed.
Lemma half_right (f g F : R -> R) (lb : R) a : (forall x, is_derive F x (g x)) -> (forall x, continuous g x) -> is_lim F p_infty lb -> (forall x, a < x -> f x = g x) ->
  is_RInt_gen f (at_point a) (Rbar_locally p_infty) (lb - F a).
Proof.
  intros HD HC Ha E. assert (EE : forall x, Derive F x = g x) by (intros x; apply is_derive_unique, HD).
  apply (is_RInt_gen_ext (Derive F)).
  - apply (Filter_prod _ _ _ (fun y => y = a) (fun b => a < b)); [reflexivity|exists a; trivial|]. intros y b -> Hb x Hx. cbn in Hx. rewrite Rmin_left in Hx by lra. rewrite EE. symmetry. apply E. lra.
  - apply is_RInt_gen_Derive.
    + apply (Filter_prod _ _ _ (fun _ => True) (fun _ => True)); [exact I|exists 0; trivial|]. intros y b _ _ x _. eexists. apply HD.
    + apply (Filter_prod _ _ _ (fun _ => True) (fun _ => True)); [exact I|exists 0; trivial|]. intros y b _ _ x _. apply (continuous_ext g); [intros; symmetry; apply EE|apply HC].
    + intros P HP. unfold filtermap, at_point. apply locally_singleton in HP. exact HP.
    + exact Ha.
Qed.
Lemma comp_derive F f c s (k : R) x : s <> 0 -> (forall u : R, is_derive F u (f u)) -> is_derive (fun x => k * F ((x - c) / s)) x (k / s * f ((x - c) / s)).
Proof.
  intros Hs HD. replace (k / s * f ((x - c) / s)) with (scal k (scal (/ s) (f ((x - c) / s)))) by (unfold scal; cbn; unfold mult; cbn; field; exact Hs).
  apply (is_derive_scal (fun x => F ((x - c) / s)) x k). apply (is_derive_comp (V := R_NormedModule) F (fun x => (x - c) / s)); [apply HD|]. auto_derive; [exact I|]. field. exact Hs.
Qed.
Lemma comp_cont f c s (k : R) x : (forall u, continuous f u) -> continuous (fun x => k * f ((x - c) / s)) x.
Proof.
  intros HC. apply (continuous_mult (K := R_AbsRing) (fun _ => k) (fun x => f ((x - c) / s)) x); [apply continuous_const|].
  apply (continuous_comp (fun x => (x - c) / s) f); [|apply HC]. apply (ex_derive_continuous (V := R_NormedModule)). auto_derive. exact I.
Qed.
(** the share of [area] that the tail really has *)
Definition tail_fraction (gamma : R) : R :=
  let k := 1 / (gamma * sqrt 2) in 1 / 2 + (1 / 2 - k * k) * (exp (k * k) * erfc k) + k / sqrt PI.
Lemma k_pos gamma : 0 < gamma -> 0 < 1 / (gamma * sqrt 2).
Proof. intros Hg. apply Rdiv_lt_0_compat; [lra|]. apply Rmult_lt_0_compat; [exact Hg|apply sqrt2_pos]. Qed.
Lemma k_sq gamma : gamma <> 0 -> 1 / (gamma * sqrt 2) * (1 / (gamma * sqrt 2)) = 1 / 2 / gamma ^ 2.
Proof. intros Hg. pose proof sqrt2_pos. pose proof sqrt2_sq as Q. replace (1 / (gamma * sqrt 2) * (1 / (gamma * sqrt 2))) with (1 / (gamma * gamma * (sqrt 2 * sqrt 2))) by (field; lra). rewrite Q. field. exact Hg. Qed.
Lemma fraction_total gamma : 0 < gamma -> let k := 1 / (gamma * sqrt 2) in tail_fraction gamma = k * exp (k * k) * total k.
Proof.
  intros Hg k. pose proof (k_pos gamma Hg) as Hk. fold k in Hk. rewrite total_eq. unfold tail_fraction. fold k. pose proof sqrtPI_pos.
  assert (E : exp (k * k) * exp (- (k * k)) = 1) by (rewrite <- exp_plus, <- exp_0; f_equal; ring).
  transitivity (1 / 2 * (exp (k * k) * erfc k) + 1 / 2 * (exp (k * k) * exp (- (k * k))) - k * k * (exp (k * k) * erfc k) + k / sqrt PI * (exp (k * k) * exp (- (k * k)))); [rewrite E; field; lra|field; lra].
Qed.
Theorem tail_fraction_bounds gamma : 0 < gamma -> 1 / 2 < tail_fraction gamma < 1.
Proof.
  intros Hg. rewrite (fraction_total gamma Hg). pose proof (k_pos gamma Hg) as Hk. set (k := 1 / (gamma * sqrt 2)) in *. destruct (total_bounds k Hk) as [B1 B2].
  pose proof (exp_pos (k * k)) as Ep. assert (E : exp (k * k) * exp (- (k * k)) = 1) by (rewrite <- exp_plus, <- exp_0; f_equal; ring).
  assert (Kp : 0 < k * exp (k * k)) by (apply Rmult_lt_0_compat; assumption). split.
  - replace (1 / 2) with (k * exp (k * k) * (exp (- (k * k)) / (2 * k))); [apply Rmult_lt_compat_l; assumption|]. transitivity (exp (k * k) * exp (- (k * k)) / 2); [field; lra|rewrite E; reflexivity].
  - replace 1 with (k * exp (k * k) * (exp (- (k * k)) / k)); [apply Rmult_lt_compat_l; assumption|]. transitivity (exp (k * k) * exp (- (k * k))); [field; lra|exact E].
Qed.
Theorem tail_area area c s gamma : 0 < s -> 0 < gamma -> whole_integral (fun x => gaussian_tail x area c s gamma) (area * tail_fraction gamma).
Proof.
  intros Hs Hg. rewrite (fraction_total gamma Hg). pose proof (k_pos gamma Hg) as Hk. pose proof (k_sq gamma ltac:(lra)) as Kq. set (k := 1 / (gamma * sqrt 2)) in *.
  pose proof sqrt2_pos as H2. pose proof sqrt2_sq as Q2. assert (Hw : 0 < sqrt 2 * s) by (apply Rmult_lt_0_compat; lra). set (w := sqrt 2 * s) in *.
  set (A := area * k * exp (k * k)).
  assert (EA : area / (2 * gamma * s * exp (-1 / 2 / gamma ^ 2)) = A / w).
  { replace (-1 / 2 / gamma ^ 2) with (- (k * k)) by (rewrite Kq; field; lra). rewrite exp_Ropp. pose proof (exp_pos (k * k)) as Ep.
    assert (K2 : k / sqrt 2 = 1 / (2 * gamma)) by (unfold k; transitivity (1 / (gamma * (sqrt 2 * sqrt 2))); [field; lra|rewrite Q2; field; lra]).
    transitivity (area * exp (k * k) / s * (1 / (2 * gamma))); [field; lra|]. rewrite <- K2. unfold A, w. field. lra. }
  assert (EK : forall x, (x - c) / (gamma * s) = 2 * k * ((x - c) / w)).
  { intros x. unfold k, w. transitivity (2 * (x - c) / (gamma * s * (sqrt 2 * sqrt 2))); [rewrite Q2; field; lra|field; lra]. }
  assert (El : forall x, x < c -> gaussian_tail x area c s gamma = A / w * f1 k ((x - c) / w)).
  { intros x Hx. unfold gaussian_tail. destruct (Rlt_dec 0 (x - c)); [lra|]. fold w. fold k. rewrite EK. rewrite <- EA. unfold f1. field. split; [apply Rgt_not_eq, exp_pos|lra]. }
  assert (Er : forall x, c < x -> gaussian_tail x area c s gamma = A / w * f2 k ((x - c) / w)).
  { intros x Hx. unfold gaussian_tail. destruct (Rlt_dec 0 (x - c)); [|lra]. fold w. fold k. rewrite <- EA. unfold f2. replace (0 / (gamma * s)) with 0 by (field; lra). rewrite exp_0. field. split; [apply Rgt_not_eq, exp_pos|lra]. }
  unfold whole_integral.
  assert (Et : area * (k * exp (k * k) * total k) = plus (A * P1 k ((c - c) / w) - A * (/ (2 * k) * (0 + - exp (- (k * k))))) (A * 0 - A * P2 k ((c - c) / w))).
  { replace ((c - c) / w) with 0 by (field; lra). unfold plus. cbn. unfold total, A. ring. }
  rewrite Et. apply (is_RInt_gen_Chasles (V := R_NormedModule) _ c).
  - apply (half_left _ (fun x => A / w * f1 k ((x - c) / w)) (fun x => A * P1 k ((x - c) / w))).
    + intros x. apply comp_derive; [lra|]. intros u. apply P1_derive. exact Hk.
    + intros x. apply comp_cont. apply f1_cont.
    + apply scal_lim. apply (along_m (P1 k)); [exact Hw|]. apply P1_lim_m. exact Hk.
    + exact El.
  - apply (half_right _ (fun x => A / w * f2 k ((x - c) / w)) (fun x => A * P2 k ((x - c) / w))).
    + intros x. apply comp_derive; [lra|]. intros u. apply P2_derive.
    + intros x. apply comp_cont. apply f2_cont.
    + apply scal_lim. apply (along_p (P2 k)); [exact Hw|]. apply P2_lim_p.
    + exact Er.
Qed.
