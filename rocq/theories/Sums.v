(* Finite sums of rationals indexed by naturals; auxiliary facts only. *)
From Verif Require Import Common.
From Coq Require Import ZifyBool ZifyNat Sorting.Permutation.

Definition sumn (n : nat) (f : nat -> Qc) : Qc := qsum (map f (seq 0 n)).

Lemma sumn_0 f : sumn 0 f = 0%Qc. Proof. reflexivity. Qed.
Lemma sumn_S n f : sumn (S n) f = (sumn n f + f n)%Qc.
Proof.
  unfold sumn. rewrite seq_S, map_app, qsum_app. cbn. ring.
Qed.
Lemma sumn_ext n f g : (forall i, i < n -> f i = g i) -> sumn n f = sumn n g.
Proof.
  intros H. unfold sumn. f_equal. apply map_ext_in. intros i Hi. apply in_seq in Hi. apply H; lia.
Qed.
Lemma sumn_zero n f : (forall i, i < n -> f i = 0%Qc) -> sumn n f = 0%Qc.
Proof.
  induction n as [|n IH]; intros H; [reflexivity|].
  rewrite sumn_S, IH, H by (intros; try apply H; lia). ring.
Qed.
Lemma sumn_plus n f g : sumn n (fun i => (f i + g i)%Qc) = (sumn n f + sumn n g)%Qc.
Proof. induction n as [|n IH]; [reflexivity|]. rewrite !sumn_S, IH. ring. Qed.
Lemma sumn_scale n c f : sumn n (fun i => (c * f i)%Qc) = (c * sumn n f)%Qc.
Proof. induction n as [|n IH]; [unfold sumn; cbn; ring|]. rewrite !sumn_S, IH. ring. Qed.
Lemma sumn_split a b f : sumn (a + b) f = (sumn a f + sumn b (fun i => f (a + i)%nat))%Qc.
Proof.
  induction b as [|b IH].
  - rewrite Nat.add_0_r. unfold sumn at 3. cbn. ring.
  - rewrite Nat.add_succ_r, !sumn_S, IH. ring.
Qed.
Lemma sumn_window n r h f : r + h <= n ->
  (forall i, i < n -> i < r \/ r + h <= i -> f i = 0%Qc) ->
  sumn n f = sumn h (fun i => f (r + i)).
Proof.
  intros Hn Hz. replace n with (r + (h + (n - r - h))) by lia.
  rewrite !sumn_split.
  rewrite (sumn_zero r) by (intros; apply Hz; lia).
  rewrite (sumn_zero (n - r - h)) by (intros; apply Hz; lia). ring.
Qed.
Lemma sumn_swap n m (f : nat -> nat -> Qc) :
  sumn n (fun i => sumn m (fun j => f i j)) = sumn m (fun j => sumn n (fun i => f i j)).
Proof.
  induction n as [|n IH].
  - unfold sumn at 1. cbn. symmetry. apply sumn_zero. reflexivity.
  - rewrite sumn_S, IH, <- sumn_plus. apply sumn_ext. intros i _. rewrite sumn_S. reflexivity.
Qed.
Lemma sumn_le n f g : (forall i, i < n -> (f i <= g i)%Qc) -> (sumn n f <= sumn n g)%Qc.
Proof.
  induction n as [|n IH]; intros H; [apply Qcle_refl|].
  rewrite !sumn_S. apply Qcplus_le_compat; [apply IH; intros; apply H; lia|apply H; lia].
Qed.
Lemma sumn_rev n f : sumn n f = sumn n (fun i => f (n - 1 - i)).
Proof.
  revert f; induction n as [|n IH]; intros f; [reflexivity|].
  rewrite sumn_S. replace (S n) with (1 + n) by lia. rewrite sumn_split.
  rewrite (sumn_ext n (fun i => f (1 + n - 1 - (1 + i))) (fun i => f (n - 1 - i)))
    by (intros; f_equal; lia).
  rewrite <- IH. unfold sumn at 2. cbn [seq map qsum].
  replace (1 + n - 1 - 0) with n by lia. ring.
Qed.

Lemma qsum_filter {A} (p : A -> bool) (f : A -> Qc) l :
  qsum (map f (filter p l)) = qsum (map (fun x => if p x then f x else 0%Qc) l).
Proof.
  induction l as [|a l IH]; cbn; [reflexivity|].
  destruct (p a); cbn; rewrite IH; ring.
Qed.
Lemma qsum_map_plus {A} (f g : A -> Qc) l :
  qsum (map (fun x => (f x + g x)%Qc) l) = (qsum (map f l) + qsum (map g l))%Qc.
Proof. induction l as [|a l IH]; cbn; [ring|rewrite IH; ring]. Qed.
Lemma qsum_map_scale {A} c (f : A -> Qc) l :
  qsum (map (fun x => (c * f x)%Qc) l) = (c * qsum (map f l))%Qc.
Proof. induction l as [|a l IH]; cbn; [ring|rewrite IH; ring]. Qed.
Lemma qsum_concat ls : qsum (concat ls) = qsum (map qsum ls).
Proof. induction ls as [|l ls IH]; cbn; [reflexivity|rewrite qsum_app, IH; reflexivity]. Qed.
Lemma qsum_prod (f : nat * nat -> Qc) n m :
  qsum (map f (list_prod (seq 0 n) (seq 0 m))) = sumn n (fun i => sumn m (fun j => f (i, j))).
Proof.
  unfold sumn at 1. generalize (seq 0 n). intros l.
  induction l as [|a l IH]; cbn [list_prod map qsum]; [reflexivity|].
  rewrite map_app, qsum_app, IH, map_map. reflexivity.
Qed.
Lemma qn_length_filter {A} (p : A -> bool) l :
  qn (length (filter p l)) = qsum (map (fun x => if p x then 1%Qc else 0%Qc) l).
Proof.
  induction l as [|a l IH]; cbn; [reflexivity|].
  destruct (p a); cbn [length]; rewrite ?qn_S, IH; ring.
Qed.
Lemma qsum_perm l l' : Permutation l l' -> qsum l = qsum l'.
Proof.
  induction 1 as [|x l l' H IH|x y l|l l' l'' H1 IH1 H2 IH2]; cbn; try congruence.
  ring.
Qed.
Lemma Qc_sq_nonneg (a : Qc) : (0 <= a * a)%Qc.
Proof.
  destruct (Qclt_le_dec a 0) as [H|H].
  - replace (a * a)%Qc with ((- a) * (- a))%Qc by ring.
    assert (0 <= - a)%Qc.
    { apply Qclt_le_weak in H. apply Qcopp_le_compat in H. exact H. }
    replace 0%Qc with (0 * (- a))%Qc by ring. apply Qcmult_le_compat_r; auto.
  - replace 0%Qc with (0 * a)%Qc by ring. apply Qcmult_le_compat_r; auto.
Qed.
