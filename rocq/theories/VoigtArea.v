From Coq Require Import Reals Lia.
From Coquelicot Require Import Coquelicot.
From Verif Require Import Gauss Line_Model Line_Proofs Voigt.
From Coq Require Import Lra.
Local Open Scope R_scope.

(** ** Limits of close functions *)
Lemma lim_close F K x (l u k : R) : (x = p_infty \/ x = m_infty) -> Rbar_locally' x (fun t => Rabs (F t - u) <= K t) -> is_lim F x l -> is_lim K x k -> Rabs (l - u) <= k.
Proof.
  intros HX HK HF HKL. destruct (Rle_lt_dec (Rabs (l - u)) k) as [L|L]; [exact L|exfalso].
  assert (He : 0 < (Rabs (l - u) - k) / 2) by lra.
  pose proof (proj2 (is_lim_spec F x l) HF (mkposreal _ He)) as A. pose proof (proj2 (is_lim_spec K x k) HKL (mkposreal _ He)) as B. cbn [is_lim'] in A, B.
  assert (FF : ProperFilter (Rbar_locally' x)) by apply Rbar_locally'_filter.
  destruct (filter_ex (F := Rbar_locally' x) _ (filter_and _ _ HK (filter_and _ _ A B))) as [t [T1 [T2 T3]]]. cbn [pos] in T2, T3.
  assert (Rabs (l - u) <= Rabs (l - F t) + Rabs (F t - u)) by (replace (l - u) with ((l - F t) + (F t - u)) by ring; apply Rabs_triang).
  rewrite (Rabs_minus_sym l (F t)) in H. pose proof (Rle_abs (K t - k)). lra.
Qed.
Lemma sqrtPI_pos : 0 < sqrt PI. Proof. apply sqrt_lt_R0, PI_RGT_0. Qed.

Lemma lim_le F K x (l k : R) : Rbar_locally' x (fun t => F t <= K t) -> is_lim F x l -> is_lim K x k -> l <= k.
Proof. intros H1 H2 H3. exact (is_lim_le_loc F K x l k H1 H2 H3). Qed.
Section Dominated.
Variables (f : R -> R) (c : R).
Hypothesis (FC : forall t, continuous f t) (FB : forall t, Rabs (f t) <= c * bell t).
Lemma truncated I N : 0 <= N -> whole_integral f I -> Rabs (I - RInt f (- N) N) <= c * (sqrt PI - 2 * G N).
Proof.
  intros HN HI. destruct (dominated f c FC FB) as (lm & lp & Hm & Hp & W). rewrite (whole_unique f I (lp - lm) HI W). rewrite <- (PF_diff f (- N) N FC).
  assert (A : Rabs (lp - PF f N) <= c * (sqrt PI / 2 - G N)).
  { apply (lim_close (PF f) (fun t => c * (G t - G N)) p_infty); [left; reflexivity| |exact Hp|].
    - exists N. intros t Ht. apply (PF_close f c FC FB). lra.
    - apply scal_lim. apply (is_lim_ext (fun t => G t + - G N)); [intros; ring|]. apply plus_lim; [exact G_lim_p|apply is_lim_const]. }
  assert (B : Rabs (lm - PF f (- N)) <= c * (sqrt PI / 2 - G N)).
  { apply (lim_close (PF f) (fun t => c * (G (- N) - G t)) m_infty); [right; reflexivity| |exact Hm|].
    - exists (- N). intros t Ht. rewrite Rabs_minus_sym. apply (PF_close f c FC FB). lra.
    - replace (sqrt PI / 2 - G N) with (G (- N) + -1 * - (sqrt PI / 2)) by (rewrite G_odd; lra).
      apply scal_lim. apply (is_lim_ext (fun t => G (- N) + -1 * G t)); [intros; ring|]. apply plus_lim; [apply is_lim_const|apply scal_lim, G_lim_m]. }
  replace (lp - lm - (PF f N - PF f (- N))) with ((lp - PF f N) + - (lm - PF f (- N))) by ring.
  eapply Rle_trans; [apply Rabs_triang|]. rewrite Rabs_Ropp. lra.
Qed.
End Dominated.

(** ** The function W(a) = Re w(a + i b) *)
Section W.
Variable (b : R).
Hypothesis (Hb : 0 < b).
Lemma den_b a t : 0 < (a - t) * (a - t) + b * b.
Proof. pose proof (Rle_0_sqr (a - t)) as P. unfold Rsqr in P. nra. Qed.
Lemma kernel_cont a t : continuous (kernel a b) t.
Proof.
  apply (ex_derive_continuous (V := R_NormedModule)). pose proof (den_b a t). pose proof PI_RGT_0. unfold kernel. auto_derive.
  apply Rgt_not_eq. apply Rmult_lt_0_compat; lra.
Qed.
Lemma kernel_pos a t : 0 < kernel a b t.
Proof. pose proof (den_b a t). pose proof PI_RGT_0. apply Rmult_lt_0_compat; [apply exp_pos|]. apply Rdiv_lt_0_compat; [exact Hb|]. apply Rmult_lt_0_compat; lra. Qed.
Lemma kernel_bound a t : Rabs (kernel a b t) <= / (PI * b) * bell t.
Proof.
  pose proof (kernel_pos a t). rewrite Rabs_pos_eq by lra. unfold kernel. fold (bell t). rewrite Rmult_comm. apply Rmult_le_compat_r; [left; apply exp_pos|].
  pose proof (den_b a t). pose proof PI_RGT_0. pose proof (Rle_0_sqr (a - t)) as P. unfold Rsqr in P.
  apply (Rmult_le_reg_r (PI * ((a - t) * (a - t) + b * b))); [apply Rmult_lt_0_compat; lra|]. unfold Rdiv. rewrite Rmult_assoc, Rinv_l, Rmult_1_r by (apply Rgt_not_eq, Rmult_lt_0_compat; lra).
  rewrite Rinv_mult. replace (/ PI * / b * (PI * ((a - t) * (a - t) + b * b))) with (/ b * ((a - t) * (a - t) + b * b)) by (field; lra).
  apply (Rmult_le_reg_l b); [exact Hb|]. rewrite <- Rmult_assoc, Rinv_r, Rmult_1_l by lra. lra.
Qed.
Lemma wofz_whole a : whole_integral (kernel a b) (wofz_re a b).
Proof.
  unfold wofz_re. destruct (Req_EM_T b 0); [lra|]. destruct (Rlt_dec 0 b); [|contradiction].
  destruct (dominated (kernel a b) (/ (PI * b)) (kernel_cont a) (kernel_bound a)) as (lm & lp & _ & _ & W).
  pose proof (is_RInt_gen_unique _ _ W) as E. rewrite E. exact W.
Qed.
(** antiderivatives in a of the truncated integrals *)
Definition FN (N a : R) : R := RInt (fun t => bell t * (atan ((a - t) / b) / PI)) (- N) N.
Definition WN (N a : R) : R := RInt (kernel a b) (- N) N.
Lemma step_derive (a t : R) : is_derive (fun u => bell t * (atan ((u - t) / b) / PI)) a (kernel a b t).
Proof.
  assert (D : is_derive (fun u => atan ((u - t) / b)) a (/ b * / (1 + ((a - t) / b) * ((a - t) / b)))).
  { apply (is_derive_comp atan (fun u => (u - t) / b)); [apply atan_derive_x|]. auto_derive; [trivial|]. field. lra. }
  pose proof (is_derive_scal (fun u => atan ((u - t) / b)) a (bell t / PI) _ D) as Q. pose proof PI_RGT_0. pose proof (den_b a t).
  apply (is_derive_ext (fun u => bell t / PI * atan ((u - t) / b))); [intros u; change (bell t / PI * atan ((u - t) / b) = bell t * (atan ((u - t) / b) / PI)); field; lra|].
  replace (kernel a b t) with (bell t / PI * (/ b * / (1 + (a - t) / b * ((a - t) / b)))); [exact Q|]. unfold kernel. fold (bell t). field. repeat split; try lra.
  all: apply Rgt_not_eq; nra.
Qed.
Definition dkernel (a t : R) : R := bell t * (- (2 * b * (a - t)) / (PI * (((a - t) * (a - t) + b * b) * ((a - t) * (a - t) + b * b)))).
Lemma kernel_derive (a t : R) : is_derive (fun u => kernel u b t) a (dkernel a t).
Proof.
  pose proof (den_b a t). pose proof PI_RGT_0. unfold kernel, dkernel, bell. auto_derive; [apply Rgt_not_eq, Rmult_lt_0_compat; lra|].
  match goal with |- ?x = ?y => change (@eq R x y) end. field. lra.
Qed.
Lemma c2_diff x y : continuity_2d_pt (fun u v => u - v) x y.
Proof. apply continuity_2d_pt_minus; [apply continuity_2d_pt_id1|apply continuity_2d_pt_id2]. Qed.
Lemma c2_bell x y : continuity_2d_pt (fun u v => bell v) x y.
Proof. apply cont2_exp. apply continuity_2d_pt_opp. apply continuity_2d_pt_mult; apply continuity_2d_pt_id2. Qed.
Lemma c2_den x y : continuity_2d_pt (fun u v => (u - v) * (u - v) + b * b) x y.
Proof. apply continuity_2d_pt_plus; [apply continuity_2d_pt_mult; apply c2_diff|apply continuity_2d_pt_const]. Qed.
Lemma c2_kernel x y : continuity_2d_pt (fun u v => kernel u b v) x y.
Proof.
  unfold kernel. apply continuity_2d_pt_mult; [apply c2_bell|]. unfold Rdiv. apply continuity_2d_pt_mult; [apply continuity_2d_pt_const|].
  apply continuity_2d_pt_inv; [apply continuity_2d_pt_mult; [apply continuity_2d_pt_const|apply c2_den]|].
  pose proof (den_b x y). pose proof PI_RGT_0. apply Rgt_not_eq, Rmult_lt_0_compat; lra.
Qed.
Lemma c2_dkernel x y : continuity_2d_pt (fun u v => dkernel u v) x y.
Proof.
  unfold dkernel. apply continuity_2d_pt_mult; [apply c2_bell|]. unfold Rdiv. apply continuity_2d_pt_mult.
  { apply continuity_2d_pt_opp. apply continuity_2d_pt_mult; [apply continuity_2d_pt_const|apply c2_diff]. }
  apply continuity_2d_pt_inv; [apply continuity_2d_pt_mult; [apply continuity_2d_pt_const|apply continuity_2d_pt_mult; apply c2_den]|].
  pose proof (den_b x y). pose proof PI_RGT_0. apply Rgt_not_eq. apply Rmult_lt_0_compat; [lra|apply Rmult_lt_0_compat; lra].
Qed.
Lemma step_cont a t : continuous (fun t => bell t * (atan ((a - t) / b) / PI)) t.
Proof.
  apply (ex_derive_continuous (V := R_NormedModule)). unfold bell.
  assert (D : ex_derive (fun t => atan ((a - t) / b)) t).
  { eexists. apply (is_derive_comp atan (fun t => (a - t) / b)); [apply atan_derive_x|]. auto_derive; [trivial|reflexivity]. }
  apply ex_derive_mult; [auto_derive; trivial|]. unfold Rdiv. apply (ex_derive_mult (fun t => atan ((a - t) * / b)) (fun _ => / PI)); [exact D|apply ex_derive_const].
Qed.
Lemma FN_derive (N a : R) : is_derive (FN N) a (WN N a).
Proof.
  unfold FN, WN.
  pose proof (is_derive_RInt_param (fun a t => bell t * (atan ((a - t) / b) / PI)) (- N) N a) as Q. cbv beta in Q.
  replace (RInt (kernel a b) (- N) N) with (RInt (fun t => Derive (fun u => bell t * (atan ((u - t) / b) / PI)) a) (- N) N).
  - apply Q.
    + exists (mkposreal 1 Rlt_0_1). intros y _ t _. eexists. apply step_derive.
    + intros t _. apply (continuity_2d_pt_ext (fun u v => kernel u b v)); [|apply c2_kernel]. intros u v. symmetry. apply is_derive_unique, step_derive.
    + exists (mkposreal 1 Rlt_0_1). intros y _. apply int_ok. intros t. apply step_cont.
  - apply RInt_ext. intros t _. exact (is_derive_unique _ _ _ (step_derive a t)).
Qed.
Lemma WN_cont N a : continuous (WN N) a.
Proof.
  apply (ex_derive_continuous (V := R_NormedModule)). eexists. unfold WN.
  apply (is_derive_RInt_param (fun a t => kernel a b t) (- N) N a).
  - exists (mkposreal 1 Rlt_0_1). intros y _ t _. eexists. apply kernel_derive.
  - intros t _. apply (continuity_2d_pt_ext (fun u v => dkernel u v)); [|apply c2_dkernel]. intros u v. symmetry. apply is_derive_unique, kernel_derive.
  - exists (mkposreal 1 Rlt_0_1). intros y _. apply int_ok. intros t. apply kernel_cont.
Qed.
Lemma WN_int N A B : is_RInt (WN N) A B (FN N B - FN N A).
Proof. apply (is_RInt_derive (V := R_CompleteNormedModule) (FN N) (WN N)); intros x _; [apply FN_derive|apply WN_cont]. Qed.

Definition step (a t : R) : R := bell t * (atan ((a - t) / b) / PI).
Lemma atan_half x : Rabs (atan x / PI) <= 1 / 2.
Proof.
  pose proof PI_RGT_0. destruct (atan_bound x) as [L U]. apply Rabs_le. split.
  - apply (Rmult_le_reg_r PI); [lra|]. unfold Rdiv. rewrite (Rmult_assoc (atan x)), Rinv_l by lra. lra.
  - apply (Rmult_le_reg_r PI); [lra|]. unfold Rdiv. rewrite (Rmult_assoc (atan x)), Rinv_l by lra. lra.
Qed.
Lemma step_bound a t : Rabs (step a t) <= 1 / 2 * bell t.
Proof.
  unfold step. rewrite Rabs_mult, (Rabs_pos_eq (bell t)) by (left; apply exp_pos). rewrite Rmult_comm. apply Rmult_le_compat_r; [left; apply exp_pos|apply atan_half].
Qed.
Lemma step_whole a : exists F, whole_integral (step a) F.
Proof. destruct (dominated (step a) (1 / 2) (step_cont a) (step_bound a)) as (lm & lp & _ & _ & W). eauto. Qed.
Definition F (a : R) : R := RInt_gen (step a) (Rbar_locally m_infty) (Rbar_locally p_infty).
Lemma F_whole a : whole_integral (step a) (F a).
Proof. destruct (step_whole a) as [I W]. unfold F. pose proof (is_RInt_gen_unique _ _ W) as E. rewrite E. exact W. Qed.
Lemma tail_small : is_lim (fun N => sqrt PI - 2 * G N) p_infty 0.
Proof.
  replace 0 with (sqrt PI + -2 * (sqrt PI / 2)) by field. apply (is_lim_ext (fun N => sqrt PI + -2 * G N)); [intros; ring|]. apply plus_lim; [apply is_lim_const|apply scal_lim, G_lim_p].
Qed.
Lemma FN_lim a : is_lim (fun N => FN N a) p_infty (F a).
Proof.
  apply is_lim_spec. intros eps. destruct (proj2 (is_lim_spec _ _ _) tail_small eps) as [M HM]. exists (Rmax 0 M). intros N HN.
  pose proof (Rmax_l 0 M). pose proof (Rmax_r 0 M). specialize (HM N ltac:(lra)). rewrite Rminus_0_r in HM.
  rewrite Rabs_minus_sym. eapply Rle_lt_trans; [apply (truncated (step a) (1 / 2) (step_cont a) (step_bound a) (F a) N); [lra|apply F_whole]|].
  pose proof (Rle_abs (sqrt PI - 2 * G N)). pose proof (cond_pos eps). lra.
Qed.
Lemma W_int A B : is_RInt (fun a => wofz_re a b) A B (F B - F A).
Proof.
  assert (L : filterlim (fun N a => WN N a) (Rbar_locally p_infty) (locally (T := fct_UniformSpace R R_UniformSpace) (fun a => wofz_re a b))).
  { intros P [eps HP]. unfold filtermap. pose proof PI_RGT_0. assert (HC : 0 < PI * b) by (apply Rmult_lt_0_compat; lra).
    assert (He : 0 < eps * (PI * b)) by (apply Rmult_lt_0_compat; [apply cond_pos|exact HC]).
    destruct (proj2 (is_lim_spec _ _ _) tail_small (mkposreal _ He)) as [M HM]. exists (Rmax 0 M). intros N HN. apply HP. intros a.
    pose proof (Rmax_l 0 M). pose proof (Rmax_r 0 M). specialize (HM N ltac:(lra)). rewrite Rminus_0_r in HM. cbn [pos] in HM.
    change (Rabs (WN N a - wofz_re a b) < eps). rewrite Rabs_minus_sym.
    eapply Rle_lt_trans; [apply (truncated (kernel a b) (/ (PI * b)) (kernel_cont a) (kernel_bound a) (wofz_re a b) N); [lra|apply wofz_whole]|].
    apply (Rmult_lt_reg_l (PI * b)); [exact HC|]. rewrite <- Rmult_assoc, Rinv_r, Rmult_1_l by lra. pose proof (Rle_abs (sqrt PI - 2 * G N)). lra. }
  destruct (filterlim_RInt (V := R_CompleteNormedModule) (fun N a => WN N a) A B (Rbar_locally p_infty) (Rbar_locally_filter p_infty) (fun a => wofz_re a b) (fun N => FN N B - FN N A)) as [I [H1 H2]].
  - intros N. apply WN_int.
  - exact L.
  - assert (E : I = F B - F A).
    { assert (K1 : is_lim (fun N => FN N B - FN N A) p_infty I) by exact H1.
      assert (K2 : is_lim (fun N => FN N B - FN N A) p_infty (F B - F A)).
      { apply (is_lim_ext (fun N => FN N B + -1 * FN N A)); [intros; ring|]. replace (F B - F A) with (F B + -1 * F A) by ring. apply plus_lim; [apply FN_lim|apply scal_lim, FN_lim]. }
      pose proof (is_lim_unique _ _ _ K1) as Q1. pose proof (is_lim_unique _ _ _ K2) as Q2. rewrite Q1 in Q2. injection Q2 as Q2. exact Q2. }
    rewrite <- E. exact H2.
Qed.

(** the limits of F *)
Lemma bell_whole : whole_integral bell (sqrt PI).
Proof. apply (improper_to bell G (- (sqrt PI / 2)) (sqrt PI / 2)); [lra|exact G_derive|exact bell_cont|exact G_lim_m|exact G_lim_p]. Qed.
Lemma G_below x : - (sqrt PI / 2) <= G x <= sqrt PI / 2.
Proof.
  assert (P : forall y, 0 <= y -> 0 <= G y <= sqrt PI / 2).
  { intros y Hy. pose proof (G_nonneg y Hy). split; [lra|]. pose proof (GH y) as E. pose proof (H_bounds y). pose proof sqrt_PI_4. rewrite <- H1.
    rewrite <- (sqrt_square (G y)) by lra. apply sqrt_le_1_alt. lra. }
  destruct (Rle_lt_dec 0 x) as [L|L]; [pose proof (P x L); lra|]. pose proof (P (- x) ltac:(lra)) as Q. rewrite G_odd in Q. lra.
Qed.
Definition gap (a t : R) : R := bell t * (1 / 2 - atan ((a - t) / b) / PI).
Lemma gap_cont a t : continuous (gap a) t.
Proof.
  apply (continuous_ext (fun t => minus (scal (1 / 2) (bell t)) (step a t))).
  - intros x. unfold gap, step, minus, plus, opp, scal. cbn. unfold mult. cbn. ring.
  - apply (continuous_minus (V := R_NormedModule)); [|apply step_cont]. apply (continuous_scal_r (V := R_NormedModule) (1 / 2) bell). apply bell_cont.
Qed.
Lemma gap_bounds a t : 0 <= gap a t <= bell t.
Proof.
  pose proof (atan_half ((a - t) / b)) as A. apply Rabs_le_between in A. pose proof (exp_pos (- (t * t))) as P. fold (bell t) in P. unfold gap. split; nra.
Qed.
Lemma gap_bound a t : Rabs (gap a t) <= 1 * bell t.
Proof. pose proof (gap_bounds a t). rewrite Rabs_pos_eq; lra. Qed.
Lemma gap_whole a : whole_integral (gap a) (sqrt PI / 2 - F a).
Proof.
  replace (sqrt PI / 2 - F a) with (1 / 2 * sqrt PI + -1 * F a) by field.
  apply (is_RInt_gen_ext (fun t => 1 / 2 * bell t + -1 * step a t)).
  - apply (Filter_prod _ _ _ (fun _ => True) (fun _ => True)); [exists 0; trivial|exists 0; trivial|]. intros u v _ _ x _. unfold gap, step. cbn. field. apply PI_neq0.
  - apply (is_RInt_gen_plus (V := R_NormedModule)); [exact (is_RInt_gen_scal (V := R_NormedModule) bell (1 / 2) _ bell_whole)|exact (is_RInt_gen_scal (V := R_NormedModule) (step a) (-1) _ (F_whole a))].
Qed.
(** below N the gap is small for large a, above it the bell curve is *)
Lemma gap_le a N : 0 <= sqrt PI / 2 - F a <= (1 / 2 - atan ((a - N) / b) / PI) * sqrt PI + (sqrt PI / 2 - G N).
Proof.
  destruct (dominated (gap a) 1 (gap_cont a) (gap_bound a)) as (lm & lp & Hm & Hp & W). rewrite (whole_unique _ _ _ (gap_whole a) W).
  set (q := 1 / 2 - atan ((a - N) / b) / PI). pose proof PI_RGT_0 as HP.
  assert (Q0 : 0 <= q) by (pose proof (atan_half ((a - N) / b)) as A; apply Rabs_le_between in A; unfold q; lra).
  assert (LQ : forall t, t <= N -> gap a t <= q * bell t).
  { intros t Ht. unfold gap. rewrite Rmult_comm. apply Rmult_le_compat_r; [left; apply exp_pos|]. unfold q.
    assert (atan ((a - N) / b) <= atan ((a - t) / b)).
    { assert (X : (a - N) / b <= (a - t) / b) by (apply Rmult_le_compat_r; [left; apply Rinv_0_lt_compat; exact Hb|lra]).
      destruct X as [X|X]; [left; apply atan_increasing; exact X|right; rewrite X; reflexivity]. }
    assert (/ PI * atan ((a - N) / b) <= / PI * atan ((a - t) / b)) by (apply Rmult_le_compat_l; [left; apply Rinv_0_lt_compat; lra|assumption]).
    unfold Rdiv at 2 4. lra. }
  assert (A : forall x, N <= x -> 0 <= PF (gap a) x - PF (gap a) N <= G x - G N).
  { intros x Hx. rewrite PF_diff by apply gap_cont. split.
    - apply RInt_ge_0; [exact Hx|apply int_ok, gap_cont|intros t _; apply gap_bounds].
    - replace (G x - G N) with (RInt bell N x) by (symmetry; exact (PF_diff bell N x bell_cont)). apply RInt_le; [exact Hx|apply int_ok, gap_cont|apply bell_int|intros t _; apply gap_bounds]. }
  assert (B : forall x, x <= N -> 0 <= PF (gap a) N - PF (gap a) x <= q * (G N - G x)).
  { intros x Hx. rewrite PF_diff by apply gap_cont. split.
    - apply RInt_ge_0; [exact Hx|apply int_ok, gap_cont|intros t _; apply gap_bounds].
    - replace (q * (G N - G x)) with (RInt (fun t => q * bell t) x N).
      + apply RInt_le; [exact Hx|apply int_ok, gap_cont| |intros t Ht; apply LQ; lra]. apply int_ok. intros t. apply (continuous_scal_r (V := R_NormedModule) q bell). apply bell_cont.
      + transitivity (q * RInt bell x N); [exact (RInt_scal (V := R_CompleteNormedModule) bell x N q (bell_int x N))|]. f_equal. symmetry. exact (PF_diff bell x N bell_cont). }
  assert (A' : 0 <= lp - PF (gap a) N <= sqrt PI / 2 - G N).
  { assert (L : is_lim (fun x => PF (gap a) x - PF (gap a) N) p_infty (lp - PF (gap a) N)).
    { apply (is_lim_ext (fun x => PF (gap a) x + - PF (gap a) N)); [intros; ring|]. apply plus_lim; [exact Hp|apply is_lim_const]. }
    split.
    - apply (lim_le (fun _ => 0) (fun x => PF (gap a) x - PF (gap a) N) p_infty 0 (lp - PF (gap a) N)); [exists N; intros x Hx; apply A; lra|apply is_lim_const|exact L].
    - apply (lim_le (fun x => PF (gap a) x - PF (gap a) N) (fun _ => sqrt PI / 2 - G N) p_infty (lp - PF (gap a) N) (sqrt PI / 2 - G N)); [|exact L|apply is_lim_const].
      exists N. intros x Hx. pose proof (A x ltac:(lra)). pose proof (G_below x). lra. }
  assert (B' : 0 <= PF (gap a) N - lm <= q * sqrt PI).
  { assert (L : is_lim (fun x => PF (gap a) N - PF (gap a) x) m_infty (PF (gap a) N - lm)).
    { apply (is_lim_ext (fun x => PF (gap a) N + -1 * PF (gap a) x)); [intros; ring|]. replace (PF (gap a) N - lm) with (PF (gap a) N + -1 * lm) by ring. apply plus_lim; [apply is_lim_const|apply scal_lim, Hm]. }
    split.
    - apply (lim_le (fun _ => 0) (fun x => PF (gap a) N - PF (gap a) x) m_infty 0 (PF (gap a) N - lm)); [exists N; intros x Hx; apply B; lra|apply is_lim_const|exact L].
    - apply (lim_le (fun x => PF (gap a) N - PF (gap a) x) (fun _ => q * sqrt PI) m_infty (PF (gap a) N - lm) (q * sqrt PI)); [|exact L|apply is_lim_const].
      exists N. intros x Hx. pose proof (B x ltac:(lra)). pose proof (G_below x). pose proof (G_below N). assert (q * (G N - G x) <= q * sqrt PI) by (apply Rmult_le_compat_l; [exact Q0|lra]). lra. }
  lra.
Qed.
Lemma F_lim_p : is_lim F p_infty (sqrt PI / 2).
Proof.
  apply is_lim_spec. intros eps. pose proof sqrtPI_pos as SP. pose proof PI_RGT_0 as HP.
  assert (E2 : 0 < eps / 2) by (pose proof (cond_pos eps); lra). destruct (proj2 (is_lim_spec _ _ _) G_lim_p (mkposreal _ E2)) as [M HM]. cbn [pos] in HM.
  specialize (HM (M + 1) ltac:(lra)). set (N := M + 1) in *.
  assert (L : is_lim (fun a => (1 / 2 - atan ((a - N) / b) / PI) * sqrt PI) p_infty 0).
  { apply (is_lim_ext (fun a => sqrt PI / 2 + - (sqrt PI / PI) * atan ((a - N) / b))); [intros; field; lra|].
    replace 0 with (sqrt PI / 2 + - (sqrt PI / PI) * (PI / 2)) by (field; lra). apply plus_lim; [apply is_lim_const|]. apply scal_lim. apply (along_p atan N b); [exact Hb|exact atan_lim_p]. }
  destruct (proj2 (is_lim_spec _ _ _) L (mkposreal _ E2)) as [A0 HA]. cbn [pos] in HA. exists A0. intros a Ha. specialize (HA a Ha).
  pose proof (gap_le a N) as [K1 K2]. rewrite Rabs_minus_sym, Rabs_pos_eq by lra. rewrite Rminus_0_r in HA.
  pose proof (Rle_abs ((1 / 2 - atan ((a - N) / b) / PI) * sqrt PI)). rewrite Rabs_minus_sym in HM. pose proof (Rle_abs (sqrt PI / 2 - G N)). lra.
Qed.
Lemma F_odd a : F (- a) = - F a.
Proof.
  assert (L : is_lim (fun N => FN N (- a)) p_infty (- F a)).
  { apply (is_lim_ext (fun N => -1 * FN N a)).
    - intros N. unfold FN. change (fun t : R => bell t * (atan ((a - t) / b) / PI)) with (step a).
      pose proof (RInt_correct (V := R_CompleteNormedModule) (step a) (- N) N (int_ok _ _ _ (step_cont a))) as Q.
      replace N with (- - N) in Q at 2 by ring. apply (is_RInt_comp_opp (V := R_NormedModule) (step a)) in Q. apply (is_RInt_swap (V := R_NormedModule)) in Q.
      symmetry. apply (is_RInt_unique (V := R_CompleteNormedModule)). replace (-1 * RInt (step a) (- N) N) with (opp (RInt (step a) (- N) (- - N))) by (rewrite Ropp_involutive; change (- RInt (step a) (- N) N = -1 * RInt (step a) (- N) N); ring).
      revert Q. rewrite Ropp_involutive. apply (is_RInt_ext (V := R_NormedModule)). intros t _.
      unfold step. change (- (bell (- t) * (atan ((a - - t) / b) / PI)) = bell t * (atan ((- a - t) / b) / PI)).
      replace ((- a - t) / b) with (- ((a - - t) / b)) by (field; lra). rewrite atan_opp. replace (bell (- t)) with (bell t) by (unfold bell; f_equal; ring). field. apply PI_neq0.
    - replace (- F a) with (-1 * F a) by ring. apply scal_lim, FN_lim. }
  pose proof (is_lim_unique _ _ _ L) as Q1. pose proof (is_lim_unique _ _ _ (FN_lim (- a))) as Q2. rewrite Q1 in Q2. injection Q2 as Q2. lra.
Qed.
Lemma F_lim_m : is_lim F m_infty (- (sqrt PI / 2)).
Proof.
  apply (is_lim_ext (fun a => -1 * F (-1 * a))); [intros a; replace (-1 * a) with (- a) by ring; rewrite F_odd; ring|].
  replace (- (sqrt PI / 2)) with (-1 * (sqrt PI / 2)) by ring. apply scal_lim.
  apply (is_lim_comp F (fun x => -1 * x) m_infty (sqrt PI / 2) p_infty F_lim_p).
  - apply is_lim_spec. intros M. exists (- M). intros x Hx. lra.
  - exists 0. intros; discriminate.
Qed.
Theorem W_area : whole_integral (fun a => wofz_re a b) (sqrt PI).
Proof.
  unfold whole_integral, is_RInt_gen. intros P HP.
  assert (L : filterlim (fun ab => F (snd ab) - F (fst ab)) (filter_prod (Rbar_locally m_infty) (Rbar_locally p_infty)) (locally (sqrt PI))).
  { replace (sqrt PI) with (sqrt PI / 2 - - (sqrt PI / 2)) by field.
    apply (filterlim_comp_2 (H := locally (- (- (sqrt PI / 2)))) (G := locally (sqrt PI / 2)) (fun ab => F (snd ab)) (fun ab => - F (fst ab)) Rplus).
    - apply (filterlim_comp _ _ _ snd F _ (Rbar_locally p_infty)); [apply filterlim_snd|exact F_lim_p].
    - apply (filterlim_comp _ _ _ (fun ab => F (fst ab)) Ropp _ (locally (- (sqrt PI / 2)))).
      + apply (filterlim_comp _ _ _ fst F _ (Rbar_locally m_infty)); [apply filterlim_fst|exact F_lim_m].
      + apply (filterlim_opp (V := R_NormedModule)).
    - exact (filterlim_plus (V := R_NormedModule) (sqrt PI / 2) (- (- (sqrt PI / 2)))). }
  specialize (L P HP). unfold filtermap in L. unfold filtermapi. eapply filter_imp; [|exact L].
  intros [A B] HAB. cbn [fst snd] in *. exists (F B - F A). split; [apply W_int|exact HAB].
Qed.
End W.
