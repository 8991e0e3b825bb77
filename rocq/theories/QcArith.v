(* Linear and non-linear arithmetic over Qc by translation to Q. *)
From Verif Require Import Common.
From Coq Require Export Lqa.
From Coq Require Import Qround.

Lemma some_inj {A} (x y : A) : Some x = Some y -> x = y. Proof. congruence. Qed.
Lemma this_plus a b : (this (a + b)%Qc == this a + this b)%Q. Proof. apply Qred_correct. Qed.
Lemma this_mult a b : (this (a * b)%Qc == this a * this b)%Q. Proof. apply Qred_correct. Qed.
Lemma this_opp a : (this (- a)%Qc == - this a)%Q. Proof. apply Qred_correct. Qed.
Lemma this_minus a b : (this (a - b)%Qc == this a - this b)%Q.
Proof. unfold Qcminus. rewrite this_plus, this_opp. reflexivity. Qed.
Lemma this_inv a : (this (/ a)%Qc == / this a)%Q. Proof. apply Qred_correct. Qed.
Lemma this_div a b : (this (a / b)%Qc == this a / this b)%Q.
Proof. unfold Qcdiv. rewrite this_mult, this_inv. reflexivity. Qed.
Lemma this_0 : (this 0%Qc == 0)%Q. Proof. reflexivity. Qed.
Lemma this_1 : (this 1%Qc == 1)%Q. Proof. reflexivity. Qed.
Lemma Qceq_this a b : a = b -> (this a == this b)%Q. Proof. intros ->; reflexivity. Qed.
Lemma Qcne_this a b : a <> b -> ~ (this a == this b)%Q.
Proof. intros H E. apply H. apply Qc_is_canon. exact E. Qed.
Lemma this_qz z : (this (qz z) == inject_Z z)%Q. Proof. rewrite qz_this. reflexivity. Qed.

Ltac qc_push_in H :=
  repeat first [rewrite this_plus in H | rewrite this_minus in H | rewrite this_mult in H
    | rewrite this_opp in H | rewrite this_div in H | rewrite this_inv in H
    | rewrite this_0 in H | rewrite this_1 in H].
Ltac qc_push :=
  repeat first [rewrite this_plus | rewrite this_minus | rewrite this_mult
    | rewrite this_opp | rewrite this_div | rewrite this_inv | rewrite this_0 | rewrite this_1].
Ltac qc_hyp H := qc_push_in H; try (rewrite !qz_this in H).
Ltac qc_hyps :=
  repeat match goal with
  | H : @eq Qc ?a ?b |- _ => apply Qceq_this in H; qc_hyp H
  | H : Qcle ?a ?b |- _ => unfold Qcle in H; qc_hyp H
  | H : Qclt ?a ?b |- _ => unfold Qclt in H; qc_hyp H
  | H : ~ Qcle ?a ?b |- _ => apply Qcnot_le_lt in H
  | H : ~ Qclt ?a ?b |- _ => apply Qcnot_lt_le in H
  end.
Ltac qc_goal :=
  match goal with
  | |- @eq Qc _ _ => apply Qc_is_canon
  | |- Qcle _ _ => unfold Qcle
  | |- Qclt _ _ => unfold Qclt
  | |- _ => exfalso
  end; qc_push; try (rewrite !qz_this).
Ltac qclra := qc_hyps; qc_goal; lra.
Ltac qcnra := qc_hyps; qc_goal; nra.

Lemma qn_nonneg n : (0 <= qn n)%Qc.
Proof. unfold qn. rewrite <- qz_0. apply qz_le. lia. Qed.
Lemma qn_pos n : n <> 0 -> (0 < qn n)%Qc.
Proof. intros H. unfold qn. rewrite <- qz_0. apply qz_lt. lia. Qed.
Lemma qn_le a b : a <= b -> (qn a <= qn b)%Qc. Proof. intros H. unfold qn. apply qz_le. lia. Qed.
Lemma qn_lt a b : a < b -> (qn a < qn b)%Qc. Proof. intros H. unfold qn. apply qz_lt. lia. Qed.
Lemma qn_lt_inv a b : (qn a < qn b)%Qc -> a < b.
Proof. unfold qn. rewrite qz_lt. lia. Qed.
Lemma qn_le_inv a b : (qn a <= qn b)%Qc -> a <= b.
Proof. unfold qn. rewrite qz_le. lia. Qed.
Lemma qn_inj a b : qn a = qn b -> a = b. Proof. unfold qn. intros H. apply qz_inj in H. lia. Qed.
Lemma qn_sub a b : b <= a -> qn (a - b) = (qn a - qn b)%Qc.
Proof. intros H. unfold qn. rewrite <- qz_sub. f_equal. lia. Qed.

Lemma Qc_mul_div a b : b <> 0%Qc -> (b * (a / b) = a)%Qc. Proof. intros H. field. exact H. Qed.
Lemma Qc_le_div a b c : (0 < c)%Qc -> ((a <= b / c)%Qc <-> (a * c <= b)%Qc).
Proof.
  intros Hc. assert (Hn : c <> 0%Qc) by (intros ->; apply (Qclt_not_eq 0 0); [exact Hc|reflexivity]).
  pose proof (Qc_mul_div b c Hn) as E. set (t := (b / c)%Qc) in *. clearbody t. subst b. split; intros H; qcnra.
Qed.
Lemma Qc_lt_div a b c : (0 < c)%Qc -> ((a < b / c)%Qc <-> (a * c < b)%Qc).
Proof.
  intros Hc. assert (Hn : c <> 0%Qc) by (intros ->; apply (Qclt_not_eq 0 0); [exact Hc|reflexivity]).
  pose proof (Qc_mul_div b c Hn) as E. set (t := (b / c)%Qc) in *. clearbody t. subst b. split; intros H; qcnra.
Qed.
Lemma Qc_div_le a b c : (0 < c)%Qc -> ((b / c <= a)%Qc <-> (b <= a * c)%Qc).
Proof.
  intros Hc. split; intros H.
  - destruct (Qclt_le_dec (a * c) b) as [Hl|Hl]; [|exact Hl]. apply Qc_lt_div in Hl; [|exact Hc]. qclra.
  - destruct (Qclt_le_dec a (b / c)) as [Hl|Hl]; [|exact Hl]. apply Qc_lt_div in Hl; [|exact Hc]. qclra.
Qed.
Lemma Qc_div_lt a b c : (0 < c)%Qc -> ((b / c < a)%Qc <-> (b < a * c)%Qc).
Proof.
  intros Hc. split; intros H.
  - destruct (Qclt_le_dec b (a * c)) as [Hl|Hl]; [exact Hl|]. apply Qc_le_div in Hl; [|exact Hc]. qclra.
  - destruct (Qclt_le_dec (b / c) a) as [Hl|Hl]; [exact Hl|]. apply Qc_le_div in Hl; [|exact Hc]. qclra.
Qed.
Lemma Qc_div_nonneg a c : (0 <= a)%Qc -> (0 < c)%Qc -> (0 <= a / c)%Qc.
Proof. intros Ha Hc. apply Qc_le_div; [exact Hc|]. qclra. Qed.
Lemma Qc_div_pos a c : (0 < a)%Qc -> (0 < c)%Qc -> (0 < a / c)%Qc.
Proof. intros Ha Hc. apply Qc_lt_div; [exact Hc|]. qclra. Qed.
Lemma Qc_neq_of_lt a b : (a < b)%Qc -> b <> a.
Proof. intros H ->. apply (Qclt_not_eq a a); [exact H|reflexivity]. Qed.

(** floor *)
Lemma Qfloor_qc (q : Qc) : (qz (Qfloor (this q)) <= q)%Qc /\ (q < qz (Qfloor (this q)) + 1)%Qc.
Proof.
  pose proof (Qfloor_le (this q)) as H1. pose proof (Qlt_floor (this q)) as H2.
  split.
  - unfold Qcle. rewrite this_qz. exact H1.
  - unfold Qclt. rewrite this_plus, this_qz, this_1. rewrite inject_Z_plus in H2. exact H2.
Qed.
Lemma Qfloor_unique (q : Qc) z : (qz z <= q)%Qc -> (q < qz z + 1)%Qc -> Qfloor (this q) = z.
Proof.
  intros H1 H2. destruct (Qfloor_qc q) as [H3 H4].
  assert (A : (qz (Qfloor (this q)) < qz (z + 1))%Qc).
  { rewrite qz_add, qz_1. eapply Qcle_lt_trans; eauto. }
  assert (B : (qz z < qz (Qfloor (this q) + 1))%Qc).
  { rewrite qz_add, qz_1. eapply Qcle_lt_trans; eauto. }
  apply (proj1 (qz_lt _ _)) in A. apply (proj1 (qz_lt _ _)) in B. lia.
Qed.
(** Archimedean. *)
Lemma qc_arch (q : Qc) : exists n, (q < qn n)%Qc.
Proof.
  exists (Z.to_nat (Z.max 0 (Qfloor (this q) + 1))). destruct (Qfloor_qc q) as [_ H].
  eapply Qclt_le_trans; [exact H|]. rewrite <- qz_1, <- qz_add. unfold qn. apply qz_le. lia.
Qed.
