(* The Gaussian integral, for Line_Proofs. *)
From Coq Require Import Reals Lra Lia.
From Coquelicot Require Import Coquelicot.
Local Open Scope R_scope.

Definition bell (t : R) : R := exp (- (t * t)).
Definition G (x : R) : R := RInt bell 0 x.
Definition K (x t : R) : R := exp (- (x * x * (1 + t * t))) / (1 + t * t).
Definition H (x : R) : R := RInt (K x) 0 1.

Lemma bell_cont x : continuous bell x.
Proof. apply (ex_derive_continuous (V := R_NormedModule)). unfold bell. auto_derive. exact I. Qed.
Lemma bell_int a b : ex_RInt bell a b. Proof. apply (ex_RInt_continuous (V := R_CompleteNormedModule)). intros; apply bell_cont. Qed.
Lemma G_derive (x : R) : is_derive G x (bell x).
Proof.
  unfold G. apply (is_derive_RInt (V := R_NormedModule) bell (fun y => RInt bell 0 y) 0 x); [|apply bell_cont].
  exists (mkposreal 1 Rlt_0_1). intros y _. apply (RInt_correct (V := R_CompleteNormedModule)). apply bell_int.
Qed.
Lemma G_0 : G 0 = 0. Proof. exact (RInt_point (V := R_CompleteNormedModule) 0 bell). Qed.
Lemma den_pos t : 0 < 1 + t * t. Proof. pose proof (Rle_0_sqr t) as P. unfold Rsqr in P. lra. Qed.
Lemma K_derive_x (x t : R) : is_derive (fun u => K u t) x (-2 * x * exp (- (x * x * (1 + t * t)))).
Proof. pose proof (den_pos t). unfold K. auto_derive; [lra|]. field. lra. Qed.
Lemma K_cont x t : continuous (K x) t.
Proof. apply (ex_derive_continuous (V := R_NormedModule)). pose proof (den_pos t). unfold K. auto_derive. lra. Qed.
Lemma K_int x a b : ex_RInt (K x) a b. Proof. apply (ex_RInt_continuous (V := R_CompleteNormedModule)). intros; apply K_cont. Qed.
Lemma cont2_exp f x y : continuity_2d_pt f x y -> continuity_2d_pt (fun u v => exp (f u v)) x y.
Proof. intros Hf. apply continuity_1d_2d_pt_comp; [|exact Hf]. apply derivable_continuous_pt. apply derivable_pt_exp. Qed.
Lemma H_derive (x : R) : is_derive H x (-2 * bell x * G x).
Proof.
  unfold H.
  assert (D : is_derive (fun u => RInt (fun t => K u t) 0 1) x (RInt (fun t => Derive (fun u => K u t) x) 0 1)).
  { apply is_derive_RInt_param.
    - exists (mkposreal 1 Rlt_0_1). intros y _ t _. eexists. apply K_derive_x.
    - intros t _. apply (continuity_2d_pt_ext (fun u v => -2 * u * exp (- (u * u * (1 + v * v))))).
      + intros u v. symmetry. apply is_derive_unique. apply K_derive_x.
      + apply continuity_2d_pt_mult; [apply continuity_2d_pt_mult; [apply continuity_2d_pt_const|apply continuity_2d_pt_id1]|].
        apply cont2_exp. apply continuity_2d_pt_opp. apply continuity_2d_pt_mult; [apply continuity_2d_pt_mult; apply continuity_2d_pt_id1|].
        apply continuity_2d_pt_plus; [apply continuity_2d_pt_const|apply continuity_2d_pt_mult; apply continuity_2d_pt_id2].
    - exists (mkposreal 1 Rlt_0_1). intros y _. apply K_int. }
  replace (-2 * bell x * G x) with (RInt (fun t => Derive (fun u => K u t) x) 0 1); [exact D|].
  assert (E1 : G x = RInt (fun y => x * bell (x * y + 0)) 0 1).
  { unfold G. pose proof (RInt_comp_lin (V := R_CompleteNormedModule) bell x 0 0 1 (bell_int _ _)) as L. replace (x * 0 + 0) with 0 in L by ring. replace (x * 1 + 0) with x in L by ring.
    symmetry. exact L. }
  rewrite E1. transitivity (RInt (fun t => scal (-2 * bell x) (x * bell (x * t + 0))) 0 1).
  - apply RInt_ext. intros t _. assert (ED : Derive (fun u : R => K u t) x = -2 * x * exp (- (x * x * (1 + t * t)))) by exact (is_derive_unique _ _ _ (K_derive_x x t)). rewrite ED. unfold scal. cbn. unfold mult. cbn. unfold bell.
    replace (- (x * x * (1 + t * t))) with (- (x * x) + - ((x * t + 0) * (x * t + 0))) by ring. rewrite exp_plus. ring.
  - apply (RInt_scal (V := R_CompleteNormedModule) (fun t => x * bell (x * t + 0)) 0 1 (-2 * bell x)). apply (ex_RInt_continuous (V := R_CompleteNormedModule)). intros z _. apply (ex_derive_continuous (V := R_NormedModule)). unfold bell. auto_derive. exact I.
Qed.
Lemma atan_derive_x (x : R) : is_derive atan x (/ (1 + x * x)).
Proof. apply is_derive_Reals. replace (/ (1 + x * x)) with (/ (1 + x ^ 2)) by (f_equal; ring). apply derivable_pt_lim_atan. Qed.
Lemma H_0 : H 0 = PI / 4.
Proof.
  unfold H. apply is_RInt_unique. replace (PI / 4) with (minus (atan 1) (atan 0)) by (rewrite atan_1, atan_0; unfold minus, plus, opp; cbn; lra).
  apply (is_RInt_derive (V := R_CompleteNormedModule)).
  - intros t _. pose proof (den_pos t). replace (K 0 t) with (/ (1 + t * t)); [apply atan_derive_x|]. unfold K. replace (- (0 * 0 * (1 + t * t))) with 0 by ring. rewrite exp_0. field. lra.
  - intros t _. apply K_cont.
Qed.
Lemma G_odd x : G (- x) = - G x.
Proof.
  unfold G. pose proof (RInt_comp_lin (V := R_CompleteNormedModule) bell (-1) 0 0 x (bell_int _ _)) as L.
  replace (-1 * 0 + 0) with 0 in L by ring. replace (-1 * x + 0) with (- x) in L by ring. transitivity (RInt (fun y => -1 * bell (-1 * y + 0)) 0 x); [symmetry; exact L|].
  transitivity (RInt (fun y => opp (bell y)) 0 x).
  - apply RInt_ext. intros t _. unfold bell, opp. cbn. replace ((-1 * t + 0) * (-1 * t + 0)) with (t * t) by ring. ring.
  - exact (RInt_opp (V := R_CompleteNormedModule) bell 0 x (bell_int _ _)).
Qed.
Lemma GH x : G x * G x + H x = PI / 4.
Proof.
  assert (E : forall y, 0 <= y -> G y * G y + H y = PI / 4).
  { intros y Hy. destruct Hy as [Hy|<-].
    - destruct (MVT_gen (fun u => G u * G u + H u) 0 y (fun _ => 0)) as [c [_ E]].
      + intros z _. replace 0 with (bell z * G z + G z * bell z + (-2 * bell z * G z)) by ring.
        apply (is_derive_plus (V := R_NormedModule)); [|apply H_derive]. apply (is_derive_mult (K := R_AbsRing) G G z (bell z) (bell z)); [apply G_derive|apply G_derive|intros; apply Rmult_comm].
      + intros z _. apply continuity_pt_plus; [apply continuity_pt_mult|]; apply derivable_continuous_pt; eexists; apply is_derive_Reals; [apply G_derive|apply G_derive|apply H_derive].
      + rewrite Rmult_0_l in E. rewrite G_0, H_0 in E. lra.
    - rewrite G_0, H_0. ring. }
  destruct (Rle_lt_dec 0 x) as [L|L]; [apply E; exact L|].
  assert (He : H (- x) = H x). { unfold H. apply RInt_ext. intros t _. unfold K. replace (- x * - x) with (x * x) by ring. reflexivity. }
  specialize (E (- x) ltac:(lra)). rewrite G_odd, He in E. lra.
Qed.
Lemma G_nonneg x : 0 <= x -> 0 <= G x.
Proof. intros Hx. unfold G. apply RInt_ge_0; [exact Hx|apply bell_int|]. intros t _. left. apply exp_pos. Qed.
Lemma H_bounds x : 0 <= H x <= exp (- (x * x)).
Proof.
  split.
  - unfold H. apply RInt_ge_0; [lra|apply K_int|]. intros t _. unfold K. pose proof (den_pos t). apply Rlt_le, Rdiv_lt_0_compat; [apply exp_pos|lra].
  - unfold H. replace (exp (- (x * x))) with (RInt (fun _ => exp (- (x * x))) 0 1) by (rewrite RInt_const; unfold scal; cbn; unfold mult; cbn; ring).
    apply RInt_le; [lra|apply K_int|apply ex_RInt_const|]. intros t _. unfold K. pose proof (den_pos t) as D. pose proof (Rle_0_sqr t) as Q. unfold Rsqr in Q.
    assert (M : exp (- (x * x * (1 + t * t))) <= exp (- (x * x))).
    { assert (P : 0 <= x * x * (t * t)) by (apply Rmult_le_pos; [apply Rle_0_sqr|exact Q]). replace (- (x * x * (1 + t * t))) with (- (x * x) - x * x * (t * t)) by ring.
      destruct (Rle_lt_or_eq_dec _ _ P) as [P'|P']; [left; apply exp_increasing; lra|right; rewrite <- P'; f_equal; ring]. }
    apply (Rmult_le_reg_r (1 + t * t)); [exact D|]. unfold Rdiv. rewrite Rmult_assoc, Rinv_l, Rmult_1_r by lra. pose proof (exp_pos (- (x * x))) as Ep.
    assert (exp (- (x * x)) <= exp (- (x * x)) * (1 + t * t)). { rewrite <- (Rmult_1_r (exp (- (x * x)))) at 1. apply Rmult_le_compat_l; lra. } lra.
Qed.
Lemma exp_sq_small eps : 0 < eps -> exists M, 0 < M /\ forall x, M < x -> exp (- (x * x)) < eps.
Proof.
  intros He. exists (Rmax 1 (- ln eps)). split; [apply (Rlt_le_trans _ 1); [lra|apply Rmax_l]|]. intros x Hx. pose proof (Rmax_l 1 (- ln eps)). pose proof (Rmax_r 1 (- ln eps)).
  rewrite <- (exp_ln eps He). apply exp_increasing. assert (x * 1 < x * x) by (apply Rmult_lt_compat_l; lra). lra.
Qed.
Lemma sqrt_PI_4 : sqrt (PI / 4) = sqrt PI / 2.
Proof. pose proof PI_RGT_0. rewrite sqrt_div by lra. f_equal. replace 4 with (2 * 2) by ring. apply sqrt_square. lra. Qed.
(** G tends to sqrt(pi) / 2 *)
Lemma G_lim_p : is_lim G p_infty (sqrt PI / 2).
Proof.
  rewrite <- sqrt_PI_4. apply (is_lim_ext_loc (fun x => sqrt (PI / 4 - H x))).
  - exists 0. intros x Hx. pose proof (GH x) as E. replace (PI / 4 - H x) with (G x * G x) by lra. apply sqrt_square. apply G_nonneg. lra.
  - apply (is_lim_comp_continuous (fun x => PI / 4 - H x) sqrt).
    + assert (L : is_lim H p_infty 0).
      { apply is_lim_spec. intros eps. destruct (exp_sq_small eps (cond_pos eps)) as [M [_ HM]]. exists M. intros x Hx. pose proof (H_bounds x). specialize (HM x Hx).
        rewrite Rminus_0_r, Rabs_pos_eq; lra. }
      pose proof (is_lim_minus (fun _ => PI / 4) H p_infty (PI / 4) 0 (PI / 4) (is_lim_const _ _) L) as Q. apply Q. unfold is_Rbar_minus, is_Rbar_plus. cbn. f_equal. f_equal. lra.
    + apply continuous_sqrt.
Qed.
Lemma G_lim_m : is_lim G m_infty (- (sqrt PI / 2)).
Proof.
  apply (is_lim_ext (fun x => - G (- x))); [intros x; rewrite G_odd; ring|].
  change (Finite (- (sqrt PI / 2))) with (Rbar_opp (sqrt PI / 2)). apply is_lim_opp.
  apply (is_lim_comp G Ropp m_infty (sqrt PI / 2) p_infty); [exact G_lim_p| |].
  - change p_infty with (Rbar_opp m_infty). apply is_lim_opp. apply is_lim_id.
  - exists 0. intros y _. discriminate.
Qed.
