(* Model of voigt, /repo/skbeam/core/fitting/lineshapes.py 117-139, over the reals.  scipy.special.wofz is library code; its real
   part is taken, above the real axis, as the integral it is known to be, and on the axis as exp(-x^2). *)
From Coq Require Import Reals Lia.
From Coquelicot Require Import Coquelicot.
From Verif Require Import Gauss Line_Model Line_Proofs.
From Coq Require Import Lra.
Local Open Scope R_scope.

(** Re w(a + i b) = (1/pi) int b exp(-t^2) / ((a - t)^2 + b^2) dt for b > 0; below the axis w(z) = 2 exp(-z^2) - conj (w (conj z)) *)
Definition kernel (a b t : R) : R := exp (- (t * t)) * (b / (PI * ((a - t) * (a - t) + b * b))).
Definition wofz_re (a b : R) : R :=
  if Req_EM_T b 0 then exp (- (a * a)) else
  if Rlt_dec 0 b then RInt_gen (kernel a b) (Rbar_locally m_infty) (Rbar_locally p_infty)
  else 2 * (exp (b * b - a * a) * cos (2 * a * b)) - RInt_gen (kernel a (- b)) (Rbar_locally m_infty) (Rbar_locally p_infty).
(** voigt, 136-139; gamma=None is sigma *)
Definition voigt (x area center sigma : R) (gamma : option R) : R :=
  let gamma := match gamma with None => sigma | Some g => g end in
  area * wofz_re ((x - center) / (sigma * sqrt 2)) (gamma / (sigma * sqrt 2)) / (sigma * s2pi).

(** ** Integrals of functions below a bell curve *)
Definition PF (f : R -> R) (x : R) : R := RInt f 0 x.
Lemma PF_derive (f : R -> R) (x : R) : (forall t, continuous f t) -> is_derive (PF f) x (f x).
Proof.
  intros C. apply (is_derive_RInt f (PF f) 0 x).
  - exists (mkposreal 1 Rlt_0_1). intros y _. apply (RInt_correct (V := R_CompleteNormedModule)). apply (ex_RInt_continuous (V := R_CompleteNormedModule)). intros z _. apply C.
  - apply C.
Qed.
Lemma int_ok (f : R -> R) a b : (forall t, continuous f t) -> ex_RInt f a b.
Proof. intros C. apply (ex_RInt_continuous (V := R_CompleteNormedModule)). intros z _. apply C. Qed.
Lemma PF_diff (f : R -> R) a b : (forall t, continuous f t) -> PF f b - PF f a = RInt f a b.
Proof.
  intros C. unfold PF. pose proof (RInt_Chasles (V := R_CompleteNormedModule) f 0 a b (int_ok f 0 a C) (int_ok f a b C)) as E.
  change (RInt f 0 a + RInt f a b = RInt f 0 b) in E. lra.
Qed.
Section Dominated.
Variables (f : R -> R) (c : R).
Hypothesis (FC : forall t, continuous f t) (FB : forall t, Rabs (f t) <= c * bell t).
Lemma c_nonneg : 0 <= c.
Proof. pose proof (FB 0) as A. pose proof (Rabs_pos (f 0)) as B. unfold bell in A. rewrite Rmult_0_l, Ropp_0, exp_0 in A. lra. Qed.
Lemma PF_close a b : a <= b -> Rabs (PF f b - PF f a) <= c * (G b - G a).
Proof.
  intros L. rewrite PF_diff by exact FC.
  assert (E : c * (G b - G a) = RInt (fun t => c * bell t) a b).
  { transitivity (c * RInt bell a b); [|symmetry; exact (RInt_scal (V := R_CompleteNormedModule) bell a b c (bell_int a b))]. f_equal.
    exact (PF_diff bell a b bell_cont). }
  rewrite E. apply (norm_RInt_le (V := R_NormedModule) f (fun t => c * bell t) a b); [exact L|intros t _; apply FB| |].
  - apply (RInt_correct (V := R_CompleteNormedModule)), int_ok, FC.
  - apply (RInt_correct (V := R_CompleteNormedModule)), int_ok. intros t. apply (continuous_scal_r (V := R_NormedModule) c bell). apply bell_cont.
Qed.
Lemma PF_close_abs a b : Rabs (PF f b - PF f a) <= c * Rabs (G b - G a).
Proof.
  destruct (Rle_lt_dec a b) as [L|L].
  - eapply Rle_trans; [apply PF_close, L|]. apply Rmult_le_compat_l; [apply c_nonneg|apply Rle_abs].
  - rewrite Rabs_minus_sym, (Rabs_minus_sym (G b)). eapply Rle_trans; [apply PF_close; lra|]. apply Rmult_le_compat_l; [apply c_nonneg|apply Rle_abs].
Qed.
Lemma PF_lim x (l : R) : is_lim G x l -> (x = p_infty \/ x = m_infty) -> exists I : R, is_lim (PF f) x I.
Proof.
  intros HG HX. assert (FF : ProperFilter (Rbar_locally' x)) by apply Rbar_locally'_filter.
  destruct (proj1 (filterlim_locally_cauchy (U := R_CompleteNormedModule) (F := Rbar_locally' x) (PF f))) as [I HI].
  - intros eps. pose proof c_nonneg as HC.
    assert (He : 0 < eps / (2 * (c + 1))) by (apply Rdiv_lt_0_compat; [apply cond_pos|lra]).
    exists (fun t => Rabs (G t - l) < eps / (2 * (c + 1))). split.
    + exact (proj2 (is_lim_spec G x l) HG (mkposreal _ He)).
    + intros u v Hu Hv. change (Rabs (PF f v - PF f u) < eps). eapply Rle_lt_trans; [apply PF_close_abs|].
      assert (D : Rabs (G v - G u) < eps / (c + 1)).
      { replace (G v - G u) with ((G v - l) + - (G u - l)) by ring. eapply Rle_lt_trans; [apply Rabs_triang|]. rewrite Rabs_Ropp.
        replace (eps / (c + 1)) with (eps / (2 * (c + 1)) + eps / (2 * (c + 1))) by (field; lra). lra. }
      apply (Rle_lt_trans _ ((c + 1) * Rabs (G v - G u))); [apply Rmult_le_compat_r; [apply Rabs_pos|lra]|].
      apply (Rlt_le_trans _ ((c + 1) * (eps / (c + 1)))); [apply Rmult_lt_compat_l; lra|]. right. field. lra.
  - exists I. exact HI.
Qed.
Lemma dominated : exists lm lp : R, is_lim (PF f) m_infty lm /\ is_lim (PF f) p_infty lp /\ whole_integral f (lp - lm).
Proof.
  destruct (PF_lim m_infty _ G_lim_m (or_intror eq_refl)) as [lm Hm]. destruct (PF_lim p_infty _ G_lim_p (or_introl eq_refl)) as [lp Hp].
  exists lm, lp. split; [exact Hm|]. split; [exact Hp|]. apply (improper f (PF f)); [intros x; apply PF_derive, FC|exact FC|exact Hm|exact Hp].
Qed.
End Dominated.
