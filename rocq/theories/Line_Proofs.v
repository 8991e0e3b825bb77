From Coq Require Import Reals Lia.
From Coquelicot Require Import Coquelicot.
From Verif Require Import Gauss Line_Model.
From Coq Require Import Lra.
Local Open Scope R_scope.

Definition whole_integral (f : R -> R) (I : R) : Prop := is_RInt_gen f (Rbar_locally m_infty) (Rbar_locally p_infty) I.

Lemma improper (f F : R -> R) (la lb : R) : (forall x, is_derive F x (f x)) -> (forall x, continuous f x) ->
  is_lim F m_infty la -> is_lim F p_infty lb -> whole_integral f (lb - la).
Proof.
  intros HD HC Ha Hb. assert (E : forall x, Derive F x = f x) by (intros x; apply is_derive_unique, HD).
  unfold whole_integral. apply (is_RInt_gen_ext (Derive F)).
  - apply (Filter_prod _ _ _ (fun _ => True) (fun _ => True)); [exists 0; trivial|exists 0; trivial|]. intros a b _ _ x _. apply E.
  - apply is_RInt_gen_Derive.
    + apply (Filter_prod _ _ _ (fun _ => True) (fun _ => True)); [exists 0; trivial|exists 0; trivial|]. intros a b _ _ x _. eexists. apply HD.
    + apply (Filter_prod _ _ _ (fun _ => True) (fun _ => True)); [exists 0; trivial|exists 0; trivial|]. intros a b _ _ x _. apply (continuous_ext f); [intros y; symmetry; apply E|apply HC].
    + exact Ha.
    + exact Hb.
Qed.
Lemma improper_to (f F : R -> R) (la lb I : R) : I = lb - la -> (forall x, is_derive F x (f x)) -> (forall x, continuous f x) ->
  is_lim F m_infty la -> is_lim F p_infty lb -> whole_integral f I.
Proof. intros ->. apply improper. Qed.
Lemma whole_unique f a b : whole_integral f a -> whole_integral f b -> a = b.
Proof. intros H1 H2. pose proof (is_RInt_gen_unique _ _ H1) as E1. pose proof (is_RInt_gen_unique _ _ H2) as E2. rewrite <- E1, <- E2. reflexivity. Qed.

(** ** Limits along (x - c) / s *)
Lemma lin_lim_p c s : 0 < s -> is_lim (fun x => (x - c) / s) p_infty p_infty.
Proof. intros Hs. apply is_lim_spec. intros M. exists (M * s + c). intros x Hx. apply (Rmult_lt_reg_r s); [exact Hs|]. unfold Rdiv. rewrite Rmult_assoc, Rinv_l, Rmult_1_r by lra. lra. Qed.
Lemma lin_lim_m c s : 0 < s -> is_lim (fun x => (x - c) / s) m_infty m_infty.
Proof. intros Hs. apply is_lim_spec. intros M. exists (M * s + c). intros x Hx. apply (Rmult_lt_reg_r s); [exact Hs|]. unfold Rdiv. rewrite Rmult_assoc, Rinv_l, Rmult_1_r by lra. lra. Qed.
Lemma along_p F c s (l : R) : 0 < s -> is_lim F p_infty l -> is_lim (fun x => F ((x - c) / s)) p_infty l.
Proof. intros Hs H. apply (is_lim_comp F _ p_infty l p_infty H (lin_lim_p c s Hs)). exists 0. intros; discriminate. Qed.
Lemma along_m F c s (l : R) : 0 < s -> is_lim F m_infty l -> is_lim (fun x => F ((x - c) / s)) m_infty l.
Proof. intros Hs H. apply (is_lim_comp F _ m_infty l m_infty H (lin_lim_m c s Hs)). exists 0. intros; discriminate. Qed.
Lemma scal_lim (k : R) F x (l : R) : is_lim F x l -> is_lim (fun y => k * F y) x (k * l).
Proof. intros H. exact (is_lim_scal_l F k x l H). Qed.
Lemma plus_lim F F' x (l l' : R) : is_lim F x l -> is_lim F' x l' -> is_lim (fun y => F y + F' y) x (l + l').
Proof. intros H H'. exact (is_lim_plus' F F' x l l' H H'). Qed.

(** ** arctangent *)
Lemma atan_lim_p : is_lim atan p_infty (PI / 2).
Proof.
  apply (is_lim_ext_loc (fun x => PI / 2 - atan (/ x))).
  - exists 0. intros x Hx. rewrite atan_inv by exact Hx. ring.
  - assert (L : is_lim (fun x => atan (/ x)) p_infty (atan 0)).
    { apply (is_lim_comp_continuous Rinv atan p_infty 0).
      - exact (is_lim_Rinv_p_infty) || (replace (Finite 0) with (Rbar_inv p_infty) by reflexivity; apply is_lim_inv; [apply is_lim_id|discriminate]).
      - apply (ex_derive_continuous (V := R_NormedModule)). eexists. apply atan_derive_x. }
    rewrite atan_0 in L. pose proof (plus_lim (fun _ => PI / 2) (fun x => -1 * atan (/ x)) p_infty (PI / 2) (-1 * 0) (is_lim_const _ _) (scal_lim (-1) _ _ _ L)) as Q.
    replace (PI / 2 + -1 * 0) with (PI / 2) in Q by ring. apply (is_lim_ext (fun y => PI / 2 + -1 * atan (/ y))); [intros; ring|exact Q].
Qed.
Lemma atan_lim_m : is_lim atan m_infty (- (PI / 2)).
Proof.
  apply (is_lim_ext (fun x => -1 * atan (-1 * x))); [intros x; replace (-1 * x) with (- x) by ring; rewrite atan_opp; ring|].
  replace (- (PI / 2)) with (-1 * (PI / 2)) by ring. apply scal_lim.
  apply (is_lim_comp atan (fun x => -1 * x) m_infty (PI / 2) p_infty atan_lim_p).
  - apply is_lim_spec. intros M. exists (- M). intros x Hx. lra.
  - exists 0. intros; discriminate.
Qed.

(** ** Lorentzians *)
Lemma one_sq u : 0 < 1 + u * u. Proof. pose proof (Rle_0_sqr u) as P. unfold Rsqr in P. lra. Qed.
Lemma lorentz_derive c s x : s <> 0 -> is_derive (fun x => atan ((x - c) / s)) x (/ (1 + ((x - c) / s) * ((x - c) / s)) * / s).
Proof.
  intros Hs.
  replace (/ (1 + (x - c) / s * ((x - c) / s)) * / s) with (scal (/ s) (/ (1 + (x - c) / s * ((x - c) / s)))) by (unfold scal; cbn; unfold mult; cbn; ring).
  apply (is_derive_comp (V := R_NormedModule) atan (fun x => (x - c) / s)); [apply atan_derive_x|]. auto_derive; [exact I|]. field. exact Hs.
Qed.
Theorem lorentzian_area area c s : 0 < s -> whole_integral (fun x => lorentzian x area c s) area.
Proof.
  intros Hs. pose proof PI_RGT_0 as HP.
  apply (improper_to _ (fun x => area / PI * atan ((x - c) / s)) (area / PI * (- (PI / 2))) (area / PI * (PI / 2))).
  - field. lra.
  - intros x. replace (lorentzian x area c s) with (scal (area / PI) (/ (1 + (x - c) / s * ((x - c) / s)) * / s)).
    + apply (is_derive_scal (fun x => atan ((x - c) / s)) x (area / PI)). apply lorentz_derive. lra.
    + unfold scal. cbn. unfold mult. cbn. unfold lorentzian. replace ((1 * x - c) / s) with ((x - c) / s) by (f_equal; ring). generalize ((x - c) / s). intros u. pose proof (one_sq u). field. lra.
  - intros x. apply (ex_derive_continuous (V := R_NormedModule)). unfold lorentzian. auto_derive. generalize ((1 * x + - c) * / s). intros u. pose proof (one_sq u). lra.
  - apply scal_lim. apply (along_m atan); [exact Hs|exact atan_lim_m].
  - apply scal_lim. apply (along_p atan); [exact Hs|exact atan_lim_p].
Qed.

Lemma rational_lim_p : is_lim (fun u => u / (1 + u * u)) p_infty 0.
Proof.
  apply is_lim_spec. intros eps. exists (/ eps). intros u Hu. pose proof (cond_pos eps) as He. pose proof (Rinv_0_lt_compat _ He) as Hi. pose proof (one_sq u) as P.
  rewrite Rminus_0_r, Rabs_pos_eq by (apply Rlt_le, Rdiv_lt_0_compat; lra). apply (Rmult_lt_reg_r (1 + u * u)); [exact P|]. unfold Rdiv. rewrite Rmult_assoc, Rinv_l, Rmult_1_r by lra.
  assert (E : u = eps * (/ eps * u)) by (field; lra). assert (/ eps * u < u * u) by (apply Rmult_lt_compat_r; lra). rewrite E at 1. apply Rmult_lt_compat_l; lra.
Qed.
Lemma rational_lim_m : is_lim (fun u => u / (1 + u * u)) m_infty 0.
Proof.
  apply (is_lim_ext (fun x => -1 * ((-1 * x) / (1 + (-1 * x) * (-1 * x))))); [intros x; pose proof (one_sq x); field; lra|].
  replace (Finite 0) with (Finite (-1 * 0)) by (f_equal; ring). apply scal_lim.
  apply (is_lim_comp (fun u => u / (1 + u * u)) (fun x => -1 * x) m_infty 0 p_infty rational_lim_p).
  - apply is_lim_spec. intros M. exists (- M). intros x Hx. lra.
  - exists 0. intros; discriminate.
Qed.
Definition atan2_prim (u : R) : R := u / (1 + u * u) + atan u.
Lemma atan2_prim_derive (u : R) : is_derive atan2_prim u (2 / ((1 + u * u) * (1 + u * u))).
Proof.
  pose proof (one_sq u) as P. replace (2 / ((1 + u * u) * (1 + u * u))) with (plus ((1 - u * u) / ((1 + u * u) * (1 + u * u))) (/ (1 + u * u))) by (unfold plus; cbn; field; lra).
  apply (is_derive_plus (V := R_NormedModule)); [|apply atan_derive_x]. auto_derive; [lra|]. field. lra.
Qed.
Theorem lorentzian2_area area c s : 0 < s -> whole_integral (fun x => lorentzian2 x area c s) (area / 2).
Proof.
  intros Hs. pose proof PI_RGT_0 as HP.
  apply (improper_to _ (fun x => area / (2 * PI) * atan2_prim ((x - c) / s)) (area / (2 * PI) * (0 + - (PI / 2))) (area / (2 * PI) * (0 + PI / 2))).
  - field. lra.
  - intros x. replace (lorentzian2 x area c s) with (scal (area / (2 * PI)) (scal (/ s) (2 / ((1 + (x - c) / s * ((x - c) / s)) * (1 + (x - c) / s * ((x - c) / s)))))).
    + apply (is_derive_scal (fun x => atan2_prim ((x - c) / s)) x (area / (2 * PI))). apply (is_derive_comp (V := R_NormedModule) atan2_prim (fun x => (x - c) / s)); [apply atan2_prim_derive|].
      auto_derive; [exact I|]. field. lra.
    + unfold scal. cbn. unfold mult. cbn. unfold lorentzian2. generalize ((x - c) / s). intros u. pose proof (one_sq u). field. lra.
  - intros x. apply (ex_derive_continuous (V := R_NormedModule)). unfold lorentzian2. auto_derive. generalize ((x + - c) * / s). intros u. pose proof (one_sq u). apply Rgt_not_eq. repeat rewrite Rmult_1_r. apply Rmult_lt_0_compat; lra.
  - apply scal_lim. apply (along_m atan2_prim); [exact Hs|]. apply plus_lim; [exact rational_lim_m|exact atan_lim_m].
  - apply scal_lim. apply (along_p atan2_prim); [exact Hs|]. apply plus_lim; [exact rational_lim_p|exact atan_lim_p].
Qed.

(** ** Gaussian *)
Lemma sqrt2_pos : 0 < sqrt 2. Proof. apply sqrt_lt_R0. lra. Qed.
Lemma sqrt2_sq : sqrt 2 * sqrt 2 = 2. Proof. apply sqrt_sqrt. lra. Qed.
Lemma sqrtPI_pos : 0 < sqrt PI. Proof. apply sqrt_lt_R0. apply PI_RGT_0. Qed.
Lemma s2pi_eq : s2pi = sqrt 2 * sqrt PI. Proof. unfold s2pi. apply sqrt_mult; [lra|]. left. apply PI_RGT_0. Qed.
Lemma gaussian_eq x area c s : s <> 0 -> gaussian x area c s = area / (s2pi * s) * bell ((x - c) / (sqrt 2 * s)).
Proof.
  intros Hs. unfold gaussian, bell. f_equal. f_equal. pose proof sqrt2_pos. pose proof sqrt2_sq as Q.
  replace ((x - c) / (sqrt 2 * s) * ((x - c) / (sqrt 2 * s))) with ((x - c) * (x - c) / ((sqrt 2 * sqrt 2) * (s * s))) by (field; lra). rewrite Q. field. exact Hs.
Qed.
Theorem gaussian_area area c s : 0 < s -> whole_integral (fun x => gaussian x area c s) area.
Proof.
  intros Hs. pose proof sqrt2_pos as H2. pose proof sqrtPI_pos as HP. assert (Hw : 0 < sqrt 2 * s) by (apply Rmult_lt_0_compat; lra).
  apply (improper_to _ (fun x => area / sqrt PI * G ((x - c) / (sqrt 2 * s))) (area / sqrt PI * - (sqrt PI / 2)) (area / sqrt PI * (sqrt PI / 2))).
  - field. lra.
  - intros x. rewrite gaussian_eq by lra. replace (area / (s2pi * s) * bell ((x - c) / (sqrt 2 * s))) with (scal (area / sqrt PI) (scal (/ (sqrt 2 * s)) (bell ((x - c) / (sqrt 2 * s))))).
    + apply (is_derive_scal (fun x => G ((x - c) / (sqrt 2 * s))) x (area / sqrt PI)). apply (is_derive_comp (V := R_NormedModule) G (fun x => (x - c) / (sqrt 2 * s))); [apply G_derive|].
      auto_derive; [exact I|]. field. lra.
    + unfold scal. cbn. unfold mult. cbn. rewrite s2pi_eq. field. lra.
  - intros x. apply (ex_derive_continuous (V := R_NormedModule)). unfold gaussian. auto_derive. exact I.
  - apply scal_lim. apply (along_m G); [exact Hw|exact G_lim_m].
  - apply scal_lim. apply (along_p G); [exact Hw|exact G_lim_p].
Qed.
Theorem pvoigt_area area c s fraction : 0 < s -> whole_integral (fun x => pvoigt x area c s fraction) area.
Proof.
  intros Hs. pose proof (gaussian_area area c s Hs) as HG. pose proof (lorentzian_area area c s Hs) as HL. unfold whole_integral in *.
  assert (E : area = plus (scal (1 - fraction) area) (scal fraction area)) by (unfold plus, scal; cbn; unfold mult; cbn; ring).
  apply (eq_rect_r (fun v => is_RInt_gen (fun x => pvoigt x area c s fraction) (Rbar_locally m_infty) (Rbar_locally p_infty) v)) with (2 := E). apply (is_RInt_gen_plus (V := R_NormedModule)); apply (is_RInt_gen_scal (V := R_NormedModule)); assumption.
Qed.
