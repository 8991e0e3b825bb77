From Coq Require Import Reals Lia.
From Coquelicot Require Import Coquelicot.
From Verif Require Import Gauss Line_Model Line_Proofs Voigt VoigtArea.
From Coq Require Import Lra.
Local Open Scope R_scope.

Lemma whole_ext f g I : (forall x, f x = g x) -> whole_integral f I -> whole_integral g I.
Proof. intros E. unfold whole_integral. apply is_RInt_gen_ext. apply (Filter_prod _ _ _ (fun _ => True) (fun _ => True)); [exists 0; trivial|exists 0; trivial|]. intros a b _ _ x _. apply E. Qed.
Lemma whole_scal (f : R -> R) k I J : J = k * I -> whole_integral f I -> whole_integral (fun x => k * f x) J.
Proof. intros -> W. exact (is_RInt_gen_scal (V := R_NormedModule) f k I W). Qed.
Lemma whole_plus (f g : R -> R) I J : whole_integral f I -> whole_integral g J -> whole_integral (fun x => f x + g x) (I + J).
Proof. intros W1 W2. exact (is_RInt_gen_plus (V := R_NormedModule) f g I J W1 W2). Qed.
(** change of variable x = s u + c in both directions *)
Lemma lin_m c s : 0 < s -> filterlim (fun x => (x - c) / s) (Rbar_locally m_infty) (Rbar_locally m_infty).
Proof. intros Hs. exact (lin_lim_m c s Hs). Qed.
Lemma lin_p c s : 0 < s -> filterlim (fun x => (x - c) / s) (Rbar_locally p_infty) (Rbar_locally p_infty).
Proof. intros Hs. exact (lin_lim_p c s Hs). Qed.
Lemma whole_lin (f : R -> R) c s I : 0 < s -> whole_integral f I -> whole_integral (fun x => f ((x - c) / s)) (s * I).
Proof.
  intros Hs W. apply (whole_ext (fun x => s * (/ s * f (/ s * x + - c / s)))).
  { intros x. replace ((x - c) / s) with (/ s * x + - c / s) by (field; lra). rewrite <- Rmult_assoc, Rinv_r, Rmult_1_l by lra. reflexivity. }
  apply (whole_scal (fun x => / s * f (/ s * x + - c / s)) s I); [reflexivity|].
  unfold whole_integral, is_RInt_gen in *. intros P HP. specialize (W P HP). unfold filtermapi in *. destruct W as [Q R HQ HR H].
  exists (fun a => Q ((a - c) / s)) (fun b => R ((b - c) / s)).
  - apply (lin_m c s Hs Q HQ).
  - apply (lin_p c s Hs R HR).
  - intros a b HA HB. destruct (H _ _ HA HB) as [y [H1 H2]]. exists y. split; [|exact H2]. cbn [fst snd] in *.
    apply (is_RInt_comp_lin (V := R_NormedModule) f (/ s) (- c / s) a b y).
    replace (/ s * a + - c / s) with ((a - c) / s) by (field; lra). replace (/ s * b + - c / s) with ((b - c) / s) by (field; lra). exact H1.
Qed.
(** reflection *)
Lemma whole_refl (f : R -> R) c I : whole_integral f I -> whole_integral (fun x => f (c - x)) I.
Proof.
  intros W. unfold whole_integral, is_RInt_gen in *. intros P HP. specialize (W P HP). unfold filtermapi in *. destruct W as [Q R [MQ HQ] [MR HR] H].
  exists (fun a => R (c - a)) (fun b => Q (c - b)).
  - exists (c - MR). intros x Hx. apply HR. lra.
  - exists (c - MQ). intros x Hx. apply HQ. lra.
  - intros a b HA HB. destruct (H _ _ HB HA) as [y [H1 H2]]. exists y. split; [|exact H2]. cbn [fst snd] in *.
    apply (is_RInt_swap (V := R_NormedModule)) in H1.
    pose proof (is_RInt_comp_lin (V := R_NormedModule) f (-1) c a b (opp y)) as K. replace (-1 * a + c) with (c - a) in K by ring. replace (-1 * b + c) with (c - b) in K by ring.
    specialize (K H1). apply (is_RInt_scal (V := R_NormedModule) _ a b (-1)) in K. replace y with (scal (-1) (opp y)) by (change (-1 * - y = y); ring).
    revert K. apply (is_RInt_ext (V := R_NormedModule)). intros x _. change (-1 * (-1 * f (-1 * x + c)) = f (c - x)). replace (-1 * x + c) with (c - x) by ring. ring.
Qed.
(** monotony *)
Lemma whole_nonneg (f : R -> R) I : (forall x, 0 <= f x) -> whole_integral f I -> 0 <= I.
Proof.
  intros N W. destruct (Rle_lt_dec 0 I) as [L|L]; [exact L|exfalso]. unfold whole_integral, is_RInt_gen in W.
  assert (He : 0 < - I) by lra. specialize (W (fun y => y < 0)). unfold filtermapi in W. destruct W as [Q R [MQ HQ] [MR HR] H].
  - exists (mkposreal _ He). intros y Hy. change (Rabs (y - I) < - I) in Hy. apply Rabs_lt_between in Hy. lra.
  - destruct (H (Rmin (MQ - 1) 0) (Rmax (MR + 1) 0)) as [y [H1 H2]].
    + apply HQ. eapply Rle_lt_trans; [apply Rmin_l|lra].
    + apply HR. eapply Rlt_le_trans; [|apply Rmax_l]. lra.
    + cbn [fst snd] in H1. assert (0 <= y); [|lra]. apply (is_RInt_ge_0 f (Rmin (MQ - 1) 0) (Rmax (MR + 1) 0)); [|exact H1|intros x _; apply N].
      eapply Rle_trans; [apply Rmin_r|apply Rmax_r].
Qed.
Lemma whole_le (f g : R -> R) I J : (forall x, f x <= g x) -> whole_integral f I -> whole_integral g J -> I <= J.
Proof.
  intros L W1 W2. assert (0 <= J + -1 * I); [|lra]. apply (whole_nonneg (fun x => g x + -1 * f x)); [intros x; specialize (L x); lra|].
  apply whole_plus; [exact W2|]. apply (whole_scal f (-1) I); [reflexivity|exact W1].
Qed.

(** ** Re w *)
Section W.
Variable (b : R).
Hypothesis (Hb : 0 < b).
Lemma W_even a : wofz_re (- a) b = wofz_re a b.
Proof.
  apply (whole_unique (kernel (- a) b)); [apply wofz_whole, Hb|]. apply (whole_ext (fun t => kernel a b (0 - t))); [|apply whole_refl, wofz_whole, Hb].
  intros t. unfold kernel. replace ((0 - t) * (0 - t)) with (t * t) by ring. replace ((a - (0 - t)) * (a - (0 - t))) with ((- a - t) * (- a - t)) by ring. reflexivity.
Qed.
Definition cauchy (t : R) : R := b / (PI * (t * t + b * b)).
Lemma cauchy_whole : whole_integral cauchy 1.
Proof.
  pose proof PI_RGT_0. apply (improper_to cauchy (fun t => / PI * atan ((t - 0) / b)) (/ PI * - (PI / 2)) (/ PI * (PI / 2))); [field; lra| | | |].
  - intros x. assert (D : is_derive (fun t => atan ((t - 0) / b)) x (/ b * / (1 + ((x - 0) / b) * ((x - 0) / b)))).
    { apply (is_derive_comp atan (fun t => (t - 0) / b)); [apply atan_derive_x|]. auto_derive; [trivial|]. match goal with |- ?u = ?v => change (@eq R u v) end. field. lra. }
    pose proof (is_derive_scal _ x (/ PI) _ D) as Q. replace (cauchy x) with (/ PI * (/ b * / (1 + (x - 0) / b * ((x - 0) / b)))); [exact Q|]. unfold cauchy. field. pose proof (Rle_0_sqr x) as S. unfold Rsqr in S. repeat split; try lra; apply Rgt_not_eq; nra.
  - intros x. apply (ex_derive_continuous (V := R_NormedModule)). unfold cauchy. auto_derive. pose proof (Rle_0_sqr x) as S. unfold Rsqr in S. apply Rgt_not_eq. apply Rmult_lt_0_compat; nra.
  - apply scal_lim. apply (along_m atan 0 b); [exact Hb|exact atan_lim_m].
  - apply scal_lim. apply (along_p atan 0 b); [exact Hb|exact atan_lim_p].
Qed.
Lemma cauchy_pos t : 0 < cauchy t.
Proof. pose proof PI_RGT_0. pose proof (Rle_0_sqr t) as S. unfold Rsqr in S. apply Rdiv_lt_0_compat; [exact Hb|]. apply Rmult_lt_0_compat; nra. Qed.
Lemma kernel_cauchy a t : kernel a b t = bell t * cauchy (a - t).
Proof. reflexivity. Qed.
Lemma bell_le_1 t : bell t <= 1.
Proof. unfold bell. rewrite <- exp_0. pose proof (Rle_0_sqr t) as S. unfold Rsqr in S. destruct S as [S|S]; [left; apply exp_increasing; lra|right; f_equal; lra]. Qed.
Lemma W_le_1 a : wofz_re a b <= 1.
Proof.
  apply (whole_le (kernel a b) (fun t => cauchy (a - t))); [|apply wofz_whole, Hb|apply whole_refl, cauchy_whole].
  intros t. rewrite kernel_cauchy. pose proof (bell_le_1 t). pose proof (cauchy_pos (a - t)). rewrite <- (Rmult_1_l (cauchy (a - t))) at 2. apply Rmult_le_compat_r; lra.
Qed.
Lemma bell_pos t : 0 < bell t. Proof. apply exp_pos. Qed.
(** positive: already the part between 0 and 1 is *)
Lemma W_pos a : 0 < wofz_re a b.
Proof.
  pose proof (dominated (kernel a b) (/ (PI * b)) (kernel_cont b Hb a) (kernel_bound b Hb a)) as (lm & lp & Hm & Hp & W).
  rewrite (whole_unique _ _ _ (wofz_whole b Hb a) W).
  assert (M : forall x y, x <= y -> PF (kernel a b) x <= PF (kernel a b) y).
  { intros x y L. assert (0 <= PF (kernel a b) y - PF (kernel a b) x); [|lra]. rewrite PF_diff by (apply kernel_cont, Hb). apply RInt_ge_0; [exact L|apply int_ok, kernel_cont, Hb|]. intros t _. left. apply kernel_pos, Hb. }
  assert (A : PF (kernel a b) 1 <= lp) by (apply (lim_le (fun _ => PF (kernel a b) 1) (PF (kernel a b)) p_infty); [exists 1; intros x Hx; apply M; lra|apply is_lim_const|exact Hp]).
  assert (B : lm <= PF (kernel a b) 0) by (apply (lim_le (PF (kernel a b)) (fun _ => PF (kernel a b) 0) m_infty); [exists 0; intros x Hx; apply M; lra|exact Hm|apply is_lim_const]).
  assert (C : 0 < PF (kernel a b) 1 - PF (kernel a b) 0).
  { rewrite PF_diff by (apply kernel_cont, Hb). apply RInt_gt_0; [lra|intros t _; apply kernel_pos, Hb|]. intros t _. apply kernel_cont, Hb. }
  lra.
Qed.
(** the largest value is at 0 *)
Lemma W_max a : wofz_re a b <= wofz_re 0 b.
Proof.
  assert (K : whole_integral (fun t => (bell t - bell (a - t)) * (cauchy t - cauchy (a - t))) (2 * wofz_re 0 b - 2 * wofz_re a b)).
  { assert (W0 : whole_integral (fun t => bell t * cauchy t) (wofz_re 0 b)).
    { apply (whole_ext (kernel 0 b)); [|apply wofz_whole, Hb]. intros t. rewrite kernel_cauchy. f_equal. unfold cauchy. f_equal. f_equal. ring. }
    assert (WA : whole_integral (fun t => bell t * cauchy (a - t)) (wofz_re a b)) by (apply (wofz_whole b Hb)).
    pose proof (whole_refl _ a _ W0) as W0'. pose proof (whole_refl _ a _ WA) as WA'. cbv beta in W0', WA'.
    pose proof (whole_plus _ _ _ _ (whole_plus _ _ _ _ W0 W0') (whole_scal _ (-1) _ _ eq_refl (whole_plus _ _ _ _ WA WA'))) as Q.
    replace (2 * wofz_re 0 b - 2 * wofz_re a b) with (wofz_re 0 b + wofz_re 0 b + -1 * (wofz_re a b + wofz_re a b)) by ring.
    revert Q. apply whole_ext. intros t. cbv beta. replace (a - (a - t)) with t by ring. ring. }
  apply whole_nonneg in K; [lra|]. intros t. pose proof PI_RGT_0 as HP.
  assert (D : forall u v, u * u <= v * v -> bell v <= bell u /\ cauchy v <= cauchy u).
  { intros u v L. split.
    - unfold bell. destruct L as [L|L]; [left; apply exp_increasing; lra|right; f_equal; lra].
    - unfold cauchy, Rdiv. apply Rmult_le_compat_l; [lra|]. pose proof (Rle_0_sqr u) as S. unfold Rsqr in S. apply Rinv_le_contravar; [apply Rmult_lt_0_compat; nra|]. apply Rmult_le_compat_l; lra. }
  destruct (Rle_lt_dec (t * t) ((a - t) * (a - t))) as [L|L].
  - destruct (D _ _ L). apply Rmult_le_pos; lra.
  - destruct (D (a - t) t ltac:(lra)). replace ((bell t - bell (a - t)) * (cauchy t - cauchy (a - t))) with ((bell (a - t) - bell t) * (cauchy (a - t) - cauchy t)) by ring. apply Rmult_le_pos; lra.
Qed.
End W.

(** ** The line shape *)
Lemma s_pos s : 0 < s -> 0 < s * sqrt 2. Proof. intros. apply Rmult_lt_0_compat; [assumption|apply sqrt_lt_R0; lra]. Qed.
Lemma r2_pos : 0 < sqrt 2. Proof. apply sqrt_lt_R0. lra. Qed.
Lemma s2pi_pos : 0 < s2pi. Proof. unfold s2pi. pose proof PI_RGT_0. apply sqrt_lt_R0. lra. Qed.
Lemma sqrt2_sq : sqrt 2 * sqrt 2 = 2. Proof. apply sqrt_sqrt. lra. Qed.
Theorem voigt_area area c s g : 0 < s -> 0 < g -> whole_integral (fun x => voigt x area c s (Some g)) area.
Proof.
  intros Hs Hg. pose proof (s_pos s Hs) as P. pose proof s2pi_pos as P2. assert (HB : 0 < g / (s * sqrt 2)) by (apply Rdiv_lt_0_compat; lra).
  apply (whole_ext (fun x => area / (s * s2pi) * wofz_re ((x - c) / (s * sqrt 2)) (g / (s * sqrt 2)))).
  { intros x. unfold voigt. field. split; lra. }
  apply (whole_scal _ _ (s * sqrt 2 * sqrt PI)).
  - assert (E : s2pi = sqrt 2 * sqrt PI) by (unfold s2pi; apply sqrt_mult; pose proof PI_RGT_0; lra). rewrite E. pose proof sqrtPI_pos. assert (0 < sqrt 2) by (apply sqrt_lt_R0; lra). field. repeat split; lra.
  - apply (whole_lin (fun a => wofz_re a (g / (s * sqrt 2))) c (s * sqrt 2) (sqrt PI)); [exact P|]. apply W_area, HB.
Qed.
Theorem voigt_convolution x area c s g : 0 < s -> 0 < g ->
  whole_integral (fun u => gaussian u area 0 s * lorentzian (x - u) 1 c g) (voigt x area c s (Some g)).
Proof.
  intros Hs Hg. pose proof (s_pos s Hs) as P. pose proof s2pi_pos as P2. pose proof PI_RGT_0 as HP. assert (HB : 0 < g / (s * sqrt 2)) by (apply Rdiv_lt_0_compat; lra).
  assert (S2 : 0 < sqrt 2) by (apply sqrt_lt_R0; lra).
  apply (whole_ext (fun u => area / (s * s2pi) / (s * sqrt 2) * kernel ((x - c) / (s * sqrt 2)) (g / (s * sqrt 2)) ((u - 0) / (s * sqrt 2)))).
  - intros u. unfold gaussian, lorentzian, kernel.
    replace (-1 * (1 * u - 0) ^ 2 / (2 * s ^ 2)) with (- ((u - 0) / (s * sqrt 2) * ((u - 0) / (s * sqrt 2)))).
    2:{ replace ((u - 0) / (s * sqrt 2) * ((u - 0) / (s * sqrt 2))) with (u * u / (s * s * (sqrt 2 * sqrt 2))) by (field; lra). rewrite sqrt2_sq. field. lra. }
    set (e := exp _). pose proof (Rle_0_sqr (x - c - u)) as Q. unfold Rsqr in Q.
    assert (D : 0 < (x - c - u) * (x - c - u) + g * g) by nra.
    replace ((((x - c) / (s * sqrt 2) - (u - 0) / (s * sqrt 2)) * ((x - c) / (s * sqrt 2) - (u - 0) / (s * sqrt 2)) + g / (s * sqrt 2) * (g / (s * sqrt 2)))) with (((x - c - u) * (x - c - u) + g * g) / (s * sqrt 2 * (s * sqrt 2))) by (field; lra).
    replace (1 / (1 + ((1 * (x - u) - c) / g) ^ 2)) with (g * g / ((x - c - u) * (x - c - u) + g * g)) by (field; split; [lra|apply Rgt_not_eq; nra]).
    field. repeat split; try lra; apply Rgt_not_eq; nra.
  - apply (whole_scal _ _ (s * sqrt 2 * wofz_re ((x - c) / (s * sqrt 2)) (g / (s * sqrt 2)))); [unfold voigt; field; repeat split; lra|].
    apply (whole_lin (kernel ((x - c) / (s * sqrt 2)) (g / (s * sqrt 2))) 0 (s * sqrt 2)); [exact P|]. apply wofz_whole, HB.
Qed.
Theorem voigt_shape area c s g x y : 0 < s -> 0 < g -> 0 < area ->
  voigt (c + x) area c s (Some g) = voigt (c - x) area c s (Some g) /\
  0 < voigt y area c s (Some g) <= voigt c area c s (Some g) /\ voigt y area c s (Some g) <= gaussian c area c s.
Proof.
  intros Hs Hg Ha. pose proof (s_pos s Hs) as P. pose proof r2_pos as R2. pose proof s2pi_pos as P2. assert (HB : 0 < g / (s * sqrt 2)) by (apply Rdiv_lt_0_compat; lra).
  assert (PS : 0 < s * s2pi) by (apply Rmult_lt_0_compat; lra). assert (IP : 0 < / (s * s2pi)) by (apply Rinv_0_lt_compat; exact PS).
  split; [|split; [split|]].
  - unfold voigt. replace ((c + x - c) / (s * sqrt 2)) with (- ((c - x - c) / (s * sqrt 2))) by (field; split; lra). rewrite (W_even _ HB). reflexivity.
  - unfold voigt. apply Rmult_lt_0_compat; [|exact IP]. apply Rmult_lt_0_compat; [exact Ha|apply (W_pos _ HB)].
  - unfold voigt. apply Rmult_le_compat_r; [lra|]. apply Rmult_le_compat_l; [lra|]. replace ((c - c) / (s * sqrt 2)) with 0 by (field; lra). apply (W_max _ HB).
  - unfold gaussian. replace (-1 * (1 * c - c) ^ 2 / (2 * s ^ 2)) with 0 by (field; lra). rewrite exp_0. unfold voigt.
    pose proof (W_le_1 _ HB ((y - c) / (s * sqrt 2))) as L. replace (area / (s2pi * s) * 1) with (area * 1 * / (s * s2pi)) by (field; lra). apply Rmult_le_compat_r; [lra|]. apply Rmult_le_compat_l; lra.
Qed.
Theorem voigt_no_width x area c s : 0 < s -> voigt x area c s (Some 0) = gaussian x area c s.
Proof.
  intros Hs. pose proof (s_pos s Hs) as P. pose proof r2_pos as R2. pose proof s2pi_pos as P2. unfold voigt, gaussian, wofz_re.
  replace (0 / (s * sqrt 2)) with 0 by (field; lra). destruct (Req_EM_T 0 0); [|contradiction].
  replace (-1 * (1 * x - c) ^ 2 / (2 * s ^ 2)) with (- ((x - c) / (s * sqrt 2) * ((x - c) / (s * sqrt 2)))).
  2:{ assert (0 < sqrt 2) by (apply sqrt_lt_R0; lra). replace ((x - c) / (s * sqrt 2) * ((x - c) / (s * sqrt 2))) with ((x - c) * (x - c) / (s * s * (sqrt 2 * sqrt 2))) by (field; lra). rewrite sqrt2_sq. field. lra. }
  field. lra.
Qed.
Theorem voigt_default x area c s : s <> 0 -> voigt x area c s None = voigt x area c (Rabs s) (Some (Rabs s)) * (s / Rabs s).
Proof.
  intros Hs. pose proof s2pi_pos as P2. assert (0 < sqrt 2) by (apply sqrt_lt_R0; lra). destruct (Rle_lt_dec 0 s) as [L|L].
  - rewrite Rabs_pos_eq by exact L. replace (s / s) with 1 by (field; exact Hs). rewrite Rmult_1_r. reflexivity.
  - rewrite Rabs_left by exact L. unfold voigt. set (t := - s). assert (Ht : 0 < t) by (unfold t; lra). replace s with (- t) by (unfold t; ring).
    replace ((x - c) / (- t * sqrt 2)) with (- ((x - c) / (t * sqrt 2))) by (field; lra). replace (- t / (- t * sqrt 2)) with (t / (t * sqrt 2)) by (field; lra).
    rewrite W_even by (apply Rdiv_lt_0_compat; [exact Ht|apply Rmult_lt_0_compat; lra]). field. lra.
Qed.
