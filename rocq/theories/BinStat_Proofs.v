From Verif Require Import Common QcArith Sums Utils_Model Utils_Proofs Roi_Model Roi_Spec Roi_Proofs Roi_Stats BinStat_Model BinStat_Spec.
From Coq Require Import Permutation Sorted.

(** ** Sorting the axes *)
Lemma insert_map key i l : map key (insert_key key i l) = insert_key (fun k => k) (key i) (map key l).
Proof. induction l as [|j r IH]; cbn; [reflexivity|]. destruct (key i <=? key j); cbn; [reflexivity|]. rewrite IH. reflexivity. Qed.
Lemma map_nth_seq (l : list nat) : map (fun a => nth a l 0) (seq 0 (length l)) = l.
Proof.
  apply nth_error_ext_len; [now rewrite map_length, seq_length|]. intros n Hn. rewrite map_length, seq_length in Hn.
  rewrite nth_error_map_seq by exact Hn. symmetry. apply nth_error_nth'. exact Hn.
Qed.
Lemma sort_argsort nb : map (fun a => nth a nb 0) (argsort nb) = npsort nb.
Proof.
  unfold argsort, npsort. set (key := fun i => nth i nb 0).
  transitivity (fold_right (insert_key (fun i => i)) [] (map key (seq 0 (length nb)))); [|unfold key; rewrite map_nth_seq; reflexivity].
  induction (seq 0 (length nb)) as [|i l IH]; [reflexivity|]. cbn [fold_right map]. rewrite insert_map, IH. reflexivity.
Qed.
Lemma insert_perm key i l : Permutation (insert_key key i l) (i :: l).
Proof.
  induction l as [|j r IH]; cbn; [reflexivity|]. destruct (key i <=? key j); [reflexivity|].
  rewrite IH. apply perm_swap.
Qed.
Lemma argsort_perm nb : Permutation (argsort nb) (seq 0 (length nb)).
Proof.
  unfold argsort. induction (seq 0 (length nb)) as [|i l IH]; [reflexivity|]. cbn [fold_right]. rewrite insert_perm, IH. reflexivity.
Qed.

(** ** The flat number is the row-major position in the sorted axes *)
Lemma fold_sum (h : nat -> nat) l a : fold_left (fun acc i => acc + h i) l a = a + list_sum (map h l).
Proof. revert a. induction l as [|x l IH]; intros a; cbn; [lia|]. rewrite IH. unfold list_sum. lia. Qed.
Lemma list_sum_cons a l : list_sum (a :: l) = a + list_sum l. Proof. reflexivity. Qed.
Lemma flat_ravel nb c ni : ni <> [] -> flat_xy nb c ni = ravel (map (fun a => nth a nb 0) ni) (map (fun a => nth a c 0) ni).
Proof.
  unfold flat_xy. rewrite fold_sum, Nat.add_0_l.
  induction ni as [|x l IH]; [contradiction|]. intros _. destruct l as [|y l].
  - cbn. lia.
  - replace (length (x :: y :: l) - 1) with (S (length (y :: l) - 1)) by (cbn; lia).
    cbn [seq map]. rewrite list_sum_cons. rewrite <- seq_shift, map_map.
    cbn [nth]. change (skipn 1 (x :: y :: l)) with (y :: l).
    match goal with |- context [map ?f (seq 0 (length (y :: l) - 1))] =>
      change f with (fun i => nth (nth i (y :: l) 0) c 0 * prod_n (map (fun a => nth a nb 0) (skipn (S i) (y :: l)))) end.
    replace (last (x :: y :: l) 0) with (last (y :: l) 0) by reflexivity.
    rewrite <- Nat.add_assoc, IH by discriminate. reflexivity.
Qed.

Lemma ravel_lt s i : Forall2 lt i s -> ravel s i < prod_n s.
Proof.
  induction 1 as [|a b i s H _ IH]; cbn [ravel prod_n fold_right]; [lia|]. fold (prod_n s).
  assert (a * prod_n s + prod_n s <= b * prod_n s) by nia. lia.
Qed.
Lemma ravel_inj s i j : Forall2 lt i s -> Forall2 lt j s -> ravel s i = ravel s j -> i = j.
Proof.
  intros Hi. revert j. induction Hi as [|a b i s H Hi IH]; intros j Hj E; inversion Hj as [|a' b' j' s' H' Hj']; subst; [reflexivity|].
  cbn [ravel] in E. pose proof (ravel_lt s i Hi). pose proof (ravel_lt s j' Hj'). assert (a = a') by nia. subst.
  f_equal. apply IH; [assumption|lia].
Qed.

(** ** Undoing the sort *)
Definition onto (D : nat) (l : list nat) : Prop := length l = D /\ forall k, k < D -> exists p, p < D /\ nth p l 0 = k.
Lemma swap_len l i j : length (swap l i j) = length l.
Proof. unfold swap. now rewrite map_length, seq_length. Qed.
Lemma swap_nth l i j k : k < length l -> nth k (swap l i j) 0 = nth (if k =? i then j else if k =? j then i else k) l 0.
Proof.
  intros Hk. unfold swap.
  apply nth_error_nth. rewrite nth_error_map_seq by exact Hk. reflexivity.
Qed.
Lemma swap_map (x : nat -> nat) l i j : i < length l -> j < length l -> swap (map x l) i j = map x (swap l i j).
Proof.
  intros Hi Hj. unfold swap. rewrite map_length, map_map. apply map_ext_in. intros k Hk. apply in_seq in Hk.
  assert (Hb : (if k =? i then j else if k =? j then i else k) < length l) by (destruct (k =? i), (k =? j); lia).
  rewrite (nth_indep _ 0 (x 0)) by (rewrite map_length; exact Hb). apply map_nth.
Qed.
Lemma swap_swap l i j : i < length l -> j < length l -> swap (swap l i j) i j = l.
Proof.
  intros Hi Hj. apply nth_ext with (d := 0) (d' := 0); [now rewrite !swap_len|]. intros k Hk. rewrite !swap_len in Hk.
  rewrite swap_nth by (rewrite swap_len; exact Hk). rewrite swap_nth.
  2:{ destruct (k =? i), (k =? j); rewrite ?swap_len; lia. }
  f_equal. destruct (Nat.eqb_spec k i) as [->|]; [|destruct (Nat.eqb_spec k j) as [->|]].
  - rewrite Nat.eqb_refl. destruct (Nat.eqb_spec j i); congruence.
  - rewrite Nat.eqb_refl. reflexivity.
  - rewrite (proj2 (Nat.eqb_neq k i)), (proj2 (Nat.eqb_neq k j)) by assumption. reflexivity.
Qed.
Lemma swap_onto D l i j : i < D -> j < D -> onto D l -> onto D (swap l i j).
Proof.
  intros Hi Hj [HL H]. split; [now rewrite swap_len|]. intros k Hk. destruct (H k Hk) as [p [Hp E]].
  exists (if p =? i then j else if p =? j then i else p). split; [destruct (p =? i), (p =? j); lia|].
  rewrite swap_nth by (destruct (p =? i), (p =? j); lia). rewrite <- E. f_equal.
  destruct (Nat.eqb_spec p i) as [->|]; [|destruct (Nat.eqb_spec p j) as [->|]].
  - rewrite Nat.eqb_refl. destruct (Nat.eqb_spec j i); congruence.
  - rewrite Nat.eqb_refl. reflexivity.
  - rewrite (proj2 (Nat.eqb_neq p i)), (proj2 (Nat.eqb_neq p j)) by assumption. reflexivity.
Qed.
Lemma position_ok x l p : p < length l -> nth p l 0 = x -> position x l < length l /\ nth (position x l) l 0 = x.
Proof.
  revert p. induction l as [|y r IH]; intros p Hp E; cbn in *; [lia|].
  destruct (Nat.eqb_spec x y) as [->|Hne]; [split; [lia|reflexivity]|]. destruct p as [|p]; [congruence|].
  destruct (IH p ltac:(lia) E). split; [lia|assumption].
Qed.
Lemma onto_perm D l : Permutation l (seq 0 D) -> onto D l.
Proof.
  intros H. assert (HL : length l = D) by (rewrite (Permutation_length H); apply seq_length). split; [exact HL|].
  intros k Hk. assert (Hin : In k l) by (apply (Permutation_in k (Permutation_sym H)); apply in_seq; lia).
  destruct (In_nth l k 0 Hin) as [p [Hp E]]. exists p. split; [lia|exact E].
Qed.
Lemma unsort_fold {A} (D : nat) t : forall (f0 : list nat -> A) ni0, t <= D -> onto D ni0 ->
  let s := fold_left swap_step (seq 0 t) (f0, ni0) in
  onto D (snd s) /\ (forall k, k < t -> nth k (snd s) 0 = k) /\
  (forall x : nat -> nat, fst s (map x (snd s)) = f0 (map x ni0)).
Proof.
  induction t as [|t IH]; intros f0 ni0 Ht HO.
  - cbn. split; [exact HO|]. split; [lia|reflexivity].
  - cbv zeta. rewrite seq_S, fold_left_app. destruct (IH f0 ni0 ltac:(lia) HO) as [H1 [H2 H3]].
    destruct (fold_left swap_step (seq 0 t) (f0, ni0)) as [f ni]. cbn [fst snd] in *.
    cbn [fold_left swap_step Nat.add fst snd]. pose proof H1 as [HL Hs]. destruct (Hs t ltac:(lia)) as [p [Hp Ep]].
    destruct (position_ok t ni p ltac:(lia) Ep) as [Hj Ej]. set (j := position t ni) in *.
    split; [apply swap_onto; [lia|lia|exact H1]|]. split.
    + intros k Hk. rewrite swap_nth by lia. destruct (Nat.eqb_spec k t) as [->|Hne]; [exact Ej|].
      destruct (Nat.eqb_spec k j) as [->|]; [|apply H2; lia]. rewrite H2 in Ej by lia. lia.
    + intros x. rewrite swap_map by (rewrite swap_len; lia). rewrite swap_swap by lia. apply H3.
Qed.
Lemma unsort_eq {A} (flat : nat -> A) nb idx : length idx = length nb ->
  unsort flat nb (argsort nb) idx = flat (ravel (npsort nb) (map (fun a => nth a idx 0) (argsort nb))).
Proof.
  intros HL. unfold unsort.
  destruct (unsort_fold (length nb) (length nb) (fun i => flat (ravel (npsort nb) i)) (argsort nb) (le_n _) (onto_perm _ _ (argsort_perm nb)))
    as [[H1 _] [H2 H3]].
  destruct (fold_left swap_step _ _) as [f ni]. cbn [fst snd] in *. rewrite <- H3. f_equal.
  transitivity (map (fun a => nth a idx 0) (seq 0 (length idx))); [now rewrite map_nth_seq|]. rewrite HL. f_equal. symmetry.
  apply nth_ext with (d := 0) (d' := 0); [now rewrite seq_length|]. intros k Hk. rewrite H2 by lia. rewrite seq_nth by lia. reflexivity.
Qed.

(** Samples of a bin *)
Lemma sorted_pick (nb c idx : list nat) : length c = length nb -> length idx = length nb -> nb <> [] ->
  Forall2 lt c nb -> Forall2 lt idx nb ->
  (flat_xy nb c (argsort nb) = ravel (npsort nb) (map (fun a => nth a idx 0) (argsort nb)) <-> c = idx).
Proof.
  intros Hc Hi Hnb Bc Bi. pose proof (argsort_perm nb) as HP. pose proof (onto_perm _ _ HP) as [HL Hon].
  assert (Hne : argsort nb <> []).
  { intros E. rewrite E in HL. destruct nb; [contradiction|discriminate]. }
  rewrite (flat_ravel nb c _ Hne), sort_argsort. split; [|intros ->; reflexivity].
  assert (Hb : forall d, length d = length nb -> Forall2 lt d nb -> Forall2 lt (map (fun a => nth a d 0) (argsort nb)) (npsort nb)).
  { intros d Hd B. rewrite <- sort_argsort. assert (Hin : forall a, In a (argsort nb) -> a < length nb).
    { intros a Ha. apply (Permutation_in a HP) in Ha. apply in_seq in Ha. lia. }
    assert (HB : forall a, a < length nb -> nth a d 0 < nth a nb 0).
    { clear -B. induction B as [|x y d nb H B IH]; intros [|a] Ha; cbn in *; try lia. apply IH. lia. }
    clear -Hin HB. induction (argsort nb) as [|x l IH]; cbn; constructor; [apply HB, Hin; left; reflexivity|].
    apply IH. intros a Ha. apply Hin. right. exact Ha. }
  intros E. apply ravel_inj in E; [|apply Hb; assumption|apply Hb; assumption].
  apply nth_ext with (d := 0) (d' := 0); [congruence|]. intros k Hk. destruct (Hon k ltac:(lia)) as [p [Hp Ek]].
  assert (E' : nth_error (map (fun a => nth a c 0) (argsort nb)) p = nth_error (map (fun a => nth a idx 0) (argsort nb)) p) by congruence.
  rewrite !nth_error_map in E'. rewrite (nth_error_nth' _ 0) in E' by lia. cbn in E'. rewrite Ek in E'. congruence.
Qed.
