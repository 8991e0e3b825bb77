(* Shared vocabulary of all models: checked array access, Python index and
   slice conventions, exact rational arithmetic.  Nothing in this file models a
   particular function of /repo. *)
From Coq Require Export List Arith ZArith Lia Bool.
From Coq Require Export QArith Qcanon.
From Coq Require Import ZifyBool ZifyNat.
Export ListNotations.
(* QArith/Qcanon open their own scopes; keep nat the default. *)
Global Close Scope Q_scope.
Global Close Scope Qc_scope.
Global Open Scope nat_scope.
Ltac Zify.zify_post_hook ::= Z.div_mod_to_equations.

(* ------------------------------------------------------------------ *)
(** * The error monad: [None] is "the real program raises here".       *)
Definition bind {A B} (x : option A) (k : A -> option B) : option B :=
  match x with Some a => k a | None => None end.
Notation "x <- e ;; k" := (bind e (fun x => k))
  (at level 61, e at next level, right associativity).

(** Left-to-right loop over a list with an error monad state. *)
Fixpoint foldM {S A} (f : S -> A -> option S) (l : list A) (s : S) : option S :=
  match l with
  | [] => Some s
  | a :: l' => s' <- f s a ;; foldM f l' s'
  end.

Lemma foldM_app {S A} (f : S -> A -> option S) l1 l2 s :
  foldM f (l1 ++ l2) s = (s' <- foldM f l1 s ;; foldM f l2 s').
Proof.
  revert s; induction l1 as [|a l1 IH]; intros s; cbn; [reflexivity|].
  destruct (f s a) as [s'|]; cbn; [apply IH|reflexivity].
Qed.

(* ------------------------------------------------------------------ *)
(** * Checked list update *)
Fixpoint upd {A} (l : list A) (n : nat) (v : A) : option (list A) :=
  match l, n with
  | [], _ => None
  | _ :: l', 0 => Some (v :: l')
  | a :: l', S n' => match upd l' n' v with
                     | Some r => Some (a :: r) | None => None end
  end.

Lemma upd_some {A} (l : list A) n v :
  n < length l -> exists l', upd l n v = Some l'.
Proof.
  revert n; induction l as [|a l IH]; intros [|n] Hn; cbn in *; try lia.
  - eauto.
  - destruct (IH n ltac:(lia)) as [l' E]; rewrite E; eauto.
Qed.

Lemma upd_none {A} (l : list A) n v : length l <= n -> upd l n v = None.
Proof.
  revert n; induction l as [|a l IH]; intros [|n] Hn; cbn in *; try lia; auto.
  rewrite IH by lia; reflexivity.
Qed.

Lemma upd_length {A} (l : list A) n v l' :
  upd l n v = Some l' -> length l' = length l.
Proof.
  revert n l'; induction l as [|a l IH]; intros [|n] l' H; cbn in *; try discriminate.
  - injection H as <-; reflexivity.
  - destruct (upd l n v) as [r|] eqn:E; [|discriminate].
    injection H as <-; cbn; f_equal; eapply IH; eauto.
Qed.

Lemma upd_bound {A} (l : list A) n v l' :
  upd l n v = Some l' -> n < length l.
Proof.
  intros H; destruct (Nat.lt_ge_cases n (length l)) as [|Hge]; auto.
  rewrite upd_none in H by exact Hge; discriminate.
Qed.

Lemma upd_nth_eq {A} (l : list A) n v l' :
  upd l n v = Some l' -> nth_error l' n = Some v.
Proof.
  revert n l'; induction l as [|a l IH]; intros [|n] l' H; cbn in *; try discriminate.
  - injection H as <-; reflexivity.
  - destruct (upd l n v) as [r|] eqn:E; [|discriminate].
    injection H as <-; cbn; eapply IH; eauto.
Qed.

Lemma upd_nth_ne {A} (l : list A) n m v l' :
  upd l n v = Some l' -> m <> n -> nth_error l' m = nth_error l m.
Proof.
  revert n m l'; induction l as [|a l IH]; intros [|n] m l' H Hne; cbn in *; try discriminate.
  - injection H as <-; destruct m; [lia|reflexivity].
  - destruct (upd l n v) as [r|] eqn:E; [|discriminate].
    injection H as <-; destruct m; [reflexivity|]; cbn; eapply IH; eauto.
Qed.

Lemma nth_error_ext {A} (l1 l2 : list A) :
  (forall n, nth_error l1 n = nth_error l2 n) -> l1 = l2.
Proof.
  revert l2; induction l1 as [|a l1 IH]; intros [|b l2] H; auto.
  - specialize (H 0); discriminate.
  - specialize (H 0); discriminate.
  - f_equal.
    + specialize (H 0); cbn in H; congruence.
    + apply IH; intros n; exact (H (S n)).
Qed.

Lemma nth_error_ext_len {A} (l1 l2 : list A) :
  length l1 = length l2 ->
  (forall n, n < length l1 -> nth_error l1 n = nth_error l2 n) -> l1 = l2.
Proof.
  intros HL H; apply nth_error_ext; intros n.
  destruct (Nat.lt_ge_cases n (length l1)) as [Hn|Hn]; [auto|].
  rewrite (proj2 (nth_error_None l1 n)) by lia.
  rewrite (proj2 (nth_error_None l2 n)) by lia; reflexivity.
Qed.

Lemma nth_error_seq s n i :
  i < n -> nth_error (seq s n) i = Some (s + i).
Proof.
  revert s i; induction n as [|n IH]; intros s [|i] H; cbn; try lia.
  - f_equal; lia.
  - rewrite IH by lia; f_equal; lia.
Qed.

Lemma nth_error_map_seq {A} (f : nat -> A) n i :
  i < n -> nth_error (map f (seq 0 n)) i = Some (f i).
Proof.
  intros H; rewrite nth_error_map, nth_error_seq by exact H; reflexivity.
Qed.

Lemma nth_error_nth_lt {A} (l : list A) n d :
  n < length l -> nth_error l n = Some (nth n l d).
Proof. intros H; apply nth_error_nth'; exact H. Qed.

(* ------------------------------------------------------------------ *)
(** * Python indexing and slicing on an axis of length [n] *)
(** Index [i] of an axis of length [n]: negative indices count from the end,
    anything else outside raises IndexError ([None]). *)
Definition pyindex (n i : Z) : option nat :=
  if (0 <=? i)%Z && (i <? n)%Z then Some (Z.to_nat i)
  else if (- n <=? i)%Z && (i <? 0)%Z then Some (Z.to_nat (n + i))
  else None.

(** Start or stop of a unit-step slice, normalised to [0..n]. *)
Definition pybound (n i : Z) : Z :=
  if (i <? 0)%Z then Z.max 0 (n + i) else Z.min n i.

(** Membership of position [p] in [slice(lo, hi)] on an axis of length [n]. *)
Definition in_slice (n lo hi p : Z) : bool :=
  (pybound n lo <=? p)%Z && (p <? pybound n hi)%Z && (0 <=? p)%Z && (p <? n)%Z.

(** The sub-list selected by [l[lo:hi]]. *)
Definition pyslice {A} (l : list A) (lo hi : Z) : list A :=
  let n := Z.of_nat (length l) in
  let a := Z.to_nat (pybound n lo) in
  let b := Z.to_nat (pybound n hi) in
  firstn (b - a) (skipn a l).

Lemma pyindex_bound n i k : pyindex n i = Some k -> (Z.of_nat k < n)%Z.
Proof.
  unfold pyindex; intros H.
  destruct ((0 <=? i)%Z && (i <? n)%Z) eqn:E1.
  - injection H as <-; lia.
  - destruct ((- n <=? i)%Z && (i <? 0)%Z) eqn:E2; [|discriminate].
    injection H as <-; lia.
Qed.

(* ------------------------------------------------------------------ *)
(** * Exact rationals *)
Definition qz (z : Z) : Qc := Q2Qc (z # 1)%Q.
Definition qn (n : nat) : Qc := qz (Z.of_nat n).

Lemma qz_this z : this (qz z) = (z # 1)%Q.
Proof.
  unfold qz, Q2Qc; cbn [this].
  unfold Qred; cbn.
  pose proof (Z.ggcd_gcd z 1) as Hg.
  pose proof (Z.ggcd_correct_divisors z 1) as Hd.
  destruct (Z.ggcd z 1) as [g [a b]]; cbn in *.
  rewrite Z.gcd_1_r in Hg; subst g.
  destruct Hd as [H1 H2].
  replace a with z by lia; replace b with 1%Z by lia; reflexivity.
Qed.

Lemma qz_add a b : (qz (a + b) = qz a + qz b)%Qc.
Proof.
  apply Qc_is_canon; unfold qz, Qcplus, Q2Qc; cbn [this]; rewrite !Qred_correct.
  unfold Qeq, Qplus; cbn; lia.
Qed.
Lemma qz_mul a b : (qz (a * b) = qz a * qz b)%Qc.
Proof.
  apply Qc_is_canon; unfold qz, Qcmult, Q2Qc; cbn [this]; rewrite !Qred_correct.
  unfold Qeq, Qmult; cbn; lia.
Qed.
Lemma qz_opp a : (qz (- a) = - qz a)%Qc.
Proof.
  apply Qc_is_canon; unfold qz, Qcopp, Q2Qc; cbn [this]; rewrite !Qred_correct.
  unfold Qeq, Qopp; cbn; lia.
Qed.
Lemma qz_sub a b : (qz (a - b) = qz a - qz b)%Qc.
Proof. unfold Z.sub, Qcminus; rewrite qz_add, qz_opp; reflexivity. Qed.
Lemma qz_inj a b : qz a = qz b -> a = b.
Proof.
  intros H; apply (f_equal this) in H; rewrite !qz_this in H.
  injection H; auto.
Qed.
Lemma qz_0 : qz 0 = 0%Qc. Proof. reflexivity. Qed.
Lemma qz_1 : qz 1 = 1%Qc. Proof. reflexivity. Qed.
Lemma qz_neq0 a : a <> 0%Z -> qz a <> 0%Qc.
Proof. intros H E; apply H, qz_inj; rewrite E; reflexivity. Qed.
Lemma qz_le a b : (qz a <= qz b)%Qc <-> (a <= b)%Z.
Proof. unfold Qcle; rewrite !qz_this; unfold Qle; cbn; lia. Qed.
Lemma qz_lt a b : (qz a < qz b)%Qc <-> (a < b)%Z.
Proof. unfold Qclt; rewrite !qz_this; unfold Qlt; cbn; lia. Qed.

Lemma qn_add a b : (qn (a + b) = qn a + qn b)%Qc.
Proof. unfold qn; rewrite Nat2Z.inj_add, qz_add; reflexivity. Qed.
Lemma qn_mul a b : (qn (a * b) = qn a * qn b)%Qc.
Proof. unfold qn; rewrite Nat2Z.inj_mul, qz_mul; reflexivity. Qed.
Lemma qn_S a : (qn (S a) = qn a + 1)%Qc.
Proof. unfold qn; rewrite Nat2Z.inj_succ; unfold Z.succ; rewrite qz_add; reflexivity. Qed.
Lemma qn_neq0 a : a <> 0 -> qn a <> 0%Qc.
Proof. intros H; apply qz_neq0; lia. Qed.

(** Sum of a list of rationals. *)
Fixpoint qsum (l : list Qc) : Qc :=
  match l with [] => 0%Qc | x :: l' => (x + qsum l')%Qc end.

Lemma qsum_app l1 l2 : (qsum (l1 ++ l2) = qsum l1 + qsum l2)%Qc.
Proof. induction l1 as [|x l1 IH]; cbn; [ring|rewrite IH; ring]. Qed.

(** Decidable comparisons as booleans. *)
Definition Qc_eqb (a b : Qc) : bool := if Qc_eq_dec a b then true else false.
Definition Qc_ltb (a b : Qc) : bool := if Qclt_le_dec a b then true else false.
Definition Qc_leb (a b : Qc) : bool := if Qclt_le_dec b a then false else true.

Lemma Qc_eqb_spec a b : Bool.reflect (a = b) (Qc_eqb a b).
Proof. unfold Qc_eqb; destruct (Qc_eq_dec a b); constructor; assumption. Qed.
Lemma Qc_ltb_spec a b : Bool.reflect (a < b)%Qc (Qc_ltb a b).
Proof.
  unfold Qc_ltb; destruct (Qclt_le_dec a b) as [H|H]; constructor; [assumption|].
  intros H'; exact (Qclt_not_le _ _ H' H).
Qed.
Lemma Qc_leb_spec a b : Bool.reflect (a <= b)%Qc (Qc_leb a b).
Proof.
  unfold Qc_leb; destruct (Qclt_le_dec b a) as [H|H]; constructor; [|assumption].
  intros H'; exact (Qclt_not_le _ _ H H').
Qed.
