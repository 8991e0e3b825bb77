(* A quadratic least squares solver exists: orthogonal polynomials on the samples. *)
From Verif Require Import Common Peak_Model Peak_Spec Peak_Proofs.
From Coq Require Import Reals Lra.
Local Open Scope R_scope.

Section S.
Context (ps : list (R * R)).
Definition tot (f : R * R -> R) : R := rsuml (map f ps).
Definition coef (f p : R * R -> R) : R := tot (fun v => f v * p v) / tot (fun v => p v * p v).
Definition p0 (v : R * R) : R := 1.
Definition k10 := coef fst p0.
Definition p1 (v : R * R) : R := fst v - k10 * p0 v.
Definition sq (v : R * R) : R := fst v * fst v.
Definition k20 := coef sq p0.
Definition k21 := coef sq p1.
Definition p2 (v : R * R) : R := sq v - k20 * p0 v - k21 * p1 v.
Definition c0 := coef snd p0.
Definition c1 := coef snd p1.
Definition c2 := coef snd p2.
(** c0 + c1 (x - k10) + c2 (x^2 - k20 - k21 (x - k10)) *)
Definition best : beta := (c2, c1 - c2 * k21, c0 - c1 * k10 - c2 * k20 + c2 * k21 * k10).

Lemma tot_ext f g : (forall v, f v = g v) -> tot f = tot g.
Proof. intros H. unfold tot. f_equal. now apply map_ext. Qed.
Lemma tot_lin f g a b : tot (fun v => a * f v + b * g v) = a * tot f + b * tot g.
Proof. unfold tot. induction ps as [|v l IH]; cbn; [ring|]. rewrite IH. ring. Qed.
Lemma tot_sq f : 0 <= tot (fun v => f v * f v).
Proof. apply rsuml_nonneg. apply Forall_forall. intros w I. apply in_map_iff in I as (v & <- & _). apply sq_nn. Qed.
Lemma coef_ok f p : coef f p * tot (fun v => p v * p v) = tot (fun v => f v * p v).
Proof.
  unfold coef. destruct (Req_EM_T (tot (fun v => p v * p v)) 0) as [E|E]; [|field; exact E]. rewrite E.
  assert (Z : tot (fun v => f v * p v) = 0); [|rewrite Z; unfold Rdiv; ring].
  apply rsuml_zero in E; [|apply Forall_forall; intros w I; apply in_map_iff in I as (v & <- & _); apply sq_nn]. unfold tot. clear -E.
  induction ps as [|v l IH]; cbn in *; [reflexivity|]. inversion E as [|? ? E1 E2]; subst. rewrite IH by exact E2. apply sq0 in E1. rewrite E1. ring.
Qed.
Lemma orth10 : tot (fun v => p1 v * p0 v) = 0.
Proof.
  rewrite (tot_ext _ (fun v => 1 * (fst v * p0 v) + - k10 * (p0 v * p0 v))) by (intros v; unfold p1; ring). rewrite tot_lin. pose proof (coef_ok fst p0). fold k10 in *. lra.
Qed.
Lemma orth01 : tot (fun v => p0 v * p1 v) = 0.
Proof. rewrite <- orth10. apply tot_ext. intros. ring. Qed.
Lemma orth20 : tot (fun v => p2 v * p0 v) = 0.
Proof.
  rewrite (tot_ext _ (fun v => 1 * (1 * (sq v * p0 v) + - k20 * (p0 v * p0 v)) + - k21 * (p1 v * p0 v))) by (intros v; unfold p2; ring).
  rewrite !tot_lin, orth10. pose proof (coef_ok sq p0). fold k20 in *. lra.
Qed.
Lemma orth21 : tot (fun v => p2 v * p1 v) = 0.
Proof.
  rewrite (tot_ext _ (fun v => 1 * (1 * (sq v * p1 v) + - k20 * (p0 v * p1 v)) + - k21 * (p1 v * p1 v))) by (intros v; unfold p2; ring).
  rewrite !tot_lin, orth01. pose proof (coef_ok sq p1). fold k21 in *. lra.
Qed.
Definition res (v : R * R) : R := snd v - c0 * p0 v - c1 * p1 v - c2 * p2 v.
Lemma res_orth (p : R * R -> R) : p = p0 \/ p = p1 \/ p = p2 -> tot (fun v => res v * p v) = 0.
Proof.
  intros H. rewrite (tot_ext _ (fun v => 1 * (1 * (snd v * p v) + - c0 * (p0 v * p v)) + 1 * (- c1 * (p1 v * p v) + - c2 * (p2 v * p v)))) by (intros v; unfold res; ring). rewrite !tot_lin.
  pose proof orth10. pose proof orth01. pose proof orth20. pose proof orth21.
  assert (O02 : tot (fun v => p0 v * p2 v) = 0) by (rewrite <- orth20; apply tot_ext; intros; ring). assert (O12 : tot (fun v => p1 v * p2 v) = 0) by (rewrite <- orth21; apply tot_ext; intros; ring).
  destruct H as [->|[->| ->]]; [pose proof (coef_ok snd p0) as C; fold c0 in C|pose proof (coef_ok snd p1) as C; fold c1 in C|pose proof (coef_ok snd p2) as C; fold c2 in C];
    repeat match goal with E : tot _ = 0 |- _ => rewrite E; clear E end; lra.
Qed.
Lemma best_min b : tot (fun v => (polyval best (fst v) - snd v) * (polyval best (fst v) - snd v)) <= tot (fun v => (polyval b (fst v) - snd v) * (polyval b (fst v) - snd v)).
Proof.
  destruct b as [[b0 b1] b2]. rewrite (tot_ext _ (fun v => res v * res v)) by (intros v; unfold best, polyval, res, p2, p1, p0, sq; ring).
  set (e2 := b0 - c2). set (e1 := b1 + b0 * k21 - c1). set (e0 := b2 + b1 * k10 + b0 * k20 - c0).
  rewrite (tot_ext (fun v => (polyval (b0, b1, b2) (fst v) - snd v) * (polyval (b0, b1, b2) (fst v) - snd v))
    (fun v => 1 * (1 * (res v * res v) + 1 * ((e0 * p0 v + e1 * p1 v + e2 * p2 v) * (e0 * p0 v + e1 * p1 v + e2 * p2 v))) + -2 * (1 * (e0 * (res v * p0 v) + e1 * (res v * p1 v)) + e2 * (res v * p2 v)))).
  - rewrite !tot_lin, (res_orth p0), (res_orth p1), (res_orth p2) by auto. pose proof (tot_sq (fun v => e0 * p0 v + e1 * p1 v + e2 * p2 v)) as P. cbv beta in P. lra.
  - intros v. unfold e0, e1, e2, polyval, res, p2, p1, p0, sq. ring.
Qed.
End S.
Definition lsq (xs ys : list R) : beta := best (combine xs ys).
Theorem lsq_ok : least_squares lsq.
Proof. intros xs ys b _. exact (best_min (combine xs ys) b). Qed.
