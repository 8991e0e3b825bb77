From Coq Require Import Reals Lra.
From Verif Require Import QSpace_Model.
Open Scope R_scope.

Lemma PI_ne0 : PI <> 0. Proof. apply PI_neq0. Qed.
Lemma qd_inverse q : q <> 0 -> d_to_q (q_to_d q) = q /\ q_to_d (d_to_q q) = q.
Proof. intros H. unfold d_to_q, q_to_d. pose proof PI_ne0. split; field; auto. Qed.
Lemma tt_roundtrip tt wl : wl <> 0 -> - PI <= tt <= PI -> q_to_twotheta (twotheta_to_q tt wl) wl = tt.
Proof.
  intros Hw Ht. unfold q_to_twotheta, twotheta_to_q. pose proof PI_ne0.
  replace (4 * PI / wl * sin (tt / 2) * (wl / (4 * PI))) with (sin (tt / 2)) by (field; auto).
  rewrite asin_sin by lra. field.
Qed.
Lemma q_roundtrip q wl : 0 < wl -> Rabs q <= 4 * PI / wl -> twotheta_to_q (q_to_twotheta q wl) wl = q.
Proof.
  intros Hw Hq. unfold q_to_twotheta, twotheta_to_q. pose proof PI_RGT_0 as Hp.
  replace (2 * asin (q * (wl / (4 * PI))) / 2) with (asin (q * (wl / (4 * PI)))) by field.
  assert (Hb : -1 <= q * (wl / (4 * PI)) <= 1).
  { assert (Hw' : 0 < wl / (4 * PI)) by (apply Rdiv_lt_0_compat; lra).
    assert (E : 4 * PI / wl * (wl / (4 * PI)) = 1) by (field; split; lra).
    assert (H : - (4 * PI / wl) <= q <= 4 * PI / wl) by (revert Hq; unfold Rabs; destruct (Rcase_abs q); lra).
    split.
    - replace (-1) with (- (4 * PI / wl) * (wl / (4 * PI))) by lra. apply Rmult_le_compat_r; lra.
    - rewrite <- E. apply Rmult_le_compat_r; lra. }
  rewrite sin_asin by exact Hb. field. split; lra.
Qed.
Lemma q_no_roundtrip q wl : 0 < wl -> 4 * PI / wl < Rabs q -> twotheta_to_q (q_to_twotheta q wl) wl <> q.
Proof.
  intros Hw Hq E. unfold q_to_twotheta, twotheta_to_q in E. pose proof PI_RGT_0 as Hp.
  set (s := sin _) in E. assert (Hs : -1 <= s <= 1) by (split; apply SIN_bound).
  assert (Hc : 0 < 4 * PI / wl) by (apply Rdiv_lt_0_compat; lra).
  set (c := 4 * PI / wl) in *. rewrite <- E in Hq. rewrite Rabs_mult in Hq.
  rewrite (Rabs_right c) in Hq by lra.
  assert (Rabs s <= 1) by (unfold Rabs; destruct (Rcase_abs s); lra).
  assert (c * Rabs s <= c * 1) by (apply Rmult_le_compat_l; lra). lra.
Qed.
Lemma tt_increasing a b wl : 0 < wl -> 0 <= a -> a < b -> b <= PI -> twotheta_to_q a wl < twotheta_to_q b wl.
Proof.
  intros Hw Ha Hab Hb. unfold twotheta_to_q. pose proof PI_RGT_0 as Hp.
  apply Rmult_lt_compat_l; [apply Rdiv_lt_0_compat; lra|].
  apply sin_increasing_1; lra.
Qed.
Lemma bragg tt wl : 0 < wl -> 0 < tt -> tt <= PI -> wl = 2 * q_to_d (twotheta_to_q tt wl) * sin (tt / 2).
Proof.
  intros Hw Ht Hp. unfold q_to_d, twotheta_to_q. pose proof PI_RGT_0.
  assert (0 < sin (tt / 2)) by (apply sin_gt_0; lra). field. repeat split; lra.
Qed.
