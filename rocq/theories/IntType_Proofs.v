From Coq Require Import ZArith Lia.
From Verif Require Import IntType_Model IntType_Spec.
Local Open Scope Z_scope.

Lemma numpy_bits t : numpy_int t -> 1 <= bits t <= 64. Proof. unfold numpy_int. lia. Qed.
Section T.
Context (t : int_type) (H : 1 <= bits t).
Lemma half : 2 ^ bits t = 2 * 2 ^ (bits t - 1).
Proof. replace (bits t) with (Z.succ (bits t - 1)) at 1 by lia. apply Z.pow_succ_r. lia. Qed.
Lemma half_pos : 0 < 2 ^ (bits t - 1). Proof. apply Z.pow_pos_nonneg; lia. Qed.
Lemma store_reduced z : reduced t z (store t z).
Proof.
  unfold reduced, of_type, store. pose proof half. pose proof half_pos. destruct (signed t).
  - pose proof (Z.mod_pos_bound (z + 2 ^ (bits t - 1)) (2 ^ bits t) ltac:(lia)). split; [lia|].
    exists (- ((z + 2 ^ (bits t - 1)) / 2 ^ bits t)). pose proof (Z.div_mod (z + 2 ^ (bits t - 1)) (2 ^ bits t) ltac:(lia)). lia.
  - pose proof (Z.mod_pos_bound z (2 ^ bits t) ltac:(lia)). split; [lia|].
    exists (- (z / 2 ^ bits t)). pose proof (Z.div_mod z (2 ^ bits t) ltac:(lia)). lia.
Qed.
Lemma reduced_unique z v w : reduced t z v -> reduced t z w -> v = w.
Proof.
  unfold reduced, of_type. pose proof half. pose proof half_pos. intros [A [m E]] [B [n F]]. subst.
  destruct (signed t); assert (m = n); nia.
Qed.
Lemma store_congr a b : (exists m, a = b + m * 2 ^ bits t) -> store t a = store t b.
Proof.
  intros [m E]. apply (reduced_unique b); [|apply store_reduced]. destruct (store_reduced a) as [O [n F]]. split; [exact O|]. exists (n + m). lia.
Qed.
Lemma store_id v : of_type t v -> store t v = v.
Proof. intros O. apply (reduced_unique v); [apply store_reduced|]. split; [exact O|]. exists 0. lia. Qed.
Lemma store_of z : of_type t (store t z). Proof. apply store_reduced. Qed.
Lemma store_exact z : store t z = z <-> of_type t z.
Proof. split; [intros E; rewrite <- E; apply store_of|apply store_id]. Qed.
Lemma store_shift z : exists m, store t z = z + m * 2 ^ bits t. Proof. apply store_reduced. Qed.
Lemma store_add a b : store t (store t a + store t b) = store t (a + b).
Proof. apply store_congr. destruct (store_shift a) as [m ->]. destruct (store_shift b) as [n ->]. exists (m + n). lia. Qed.
Lemma store_sub a b : store t (store t a - store t b) = store t (a - b).
Proof. apply store_congr. destruct (store_shift a) as [m ->]. destruct (store_shift b) as [n ->]. exists (m - n). lia. Qed.
Lemma store_0 : store t 0 = 0.
Proof. apply store_id. unfold of_type. pose proof half. pose proof half_pos. destruct (signed t); lia. Qed.
Lemma store_wider w a : bits t <= bits w -> store t (store w a) = store t a.
Proof.
  intros L. apply store_congr. unfold store. assert (P : 0 < 2 ^ bits w) by (apply Z.pow_pos_nonneg; lia).
  assert (E : 2 ^ bits w = 2 ^ (bits w - bits t) * 2 ^ bits t) by (rewrite <- Z.pow_add_r by lia; f_equal; lia).
  destruct (signed w).
  - exists (- ((a + 2 ^ (bits w - 1)) / 2 ^ bits w) * 2 ^ (bits w - bits t)).
    pose proof (Z.div_mod (a + 2 ^ (bits w - 1)) (2 ^ bits w) ltac:(lia)). nia.
  - exists (- (a / 2 ^ bits w) * 2 ^ (bits w - bits t)). pose proof (Z.div_mod a (2 ^ bits w) ltac:(lia)). nia.
Qed.
End T.
