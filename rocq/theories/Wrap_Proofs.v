(* Lookups, iteration and comparison of the X-ray data mappings. *)
From Coq Require Import Permutation Sorted.
From Verif Require Import Common QcArith Text_Model Elem_Data Elem_Model XrfLine_Model Wrap_Model.

(** the names of a quantity, as written in the documentation *)
Definition names (q : quantity) : list text := match q with Lines | Cs | Csb => lines_written | _ => shells end.
Lemma text_eqb_true a b : text_eqb a b = true <-> a = b.
Proof. unfold text_eqb. destruct (list_eq_dec ascii_dec a b); split; congruence. Qed.
Fixpoint nodupb (l : list text) : bool := match l with [] => true | a :: r => negb (existsb (text_eqb a) r) && nodupb r end.
Lemma nodupb_ok l : nodupb l = true -> NoDup l.
Proof.
  induction l as [|a l IH]; cbn; [constructor|]. rewrite andb_true_iff, negb_true_iff. intros [H1 H2]. constructor; [|auto].
  intros I. apply Bool.not_true_iff_false in H1. apply H1. apply existsb_exists. exists a. split; [exact I|]. apply text_eqb_true; reflexivity.
Qed.
Lemma lower_nodup q : NoDup (map lower (names q)).
Proof. destruct q; apply nodupb_ok; vm_compute; reflexivity. Qed.
Lemma code_in l k c j : find_code (combine l (seq j (length l))) k = Some c <-> exists i, c = (j + i)%nat /\ nth_error l i = Some k /\ forall i', (i' < i)%nat -> nth_error l i' <> Some k.
Proof.
  revert j. induction l as [|a l IH]; intros j; cbn.
  - split; [discriminate|]. intros ([|i] & _ & H & _); discriminate H.
  - destruct (text_eqb k a) eqn:E.
    + apply text_eqb_true in E as ->. split.
      * intros H. injection H as <-. exists 0%nat. split; [lia|]. split; [reflexivity|]. intros i' B; lia.
      * intros (i & -> & H & M). destruct i as [|i]; [f_equal; lia|]. exfalso. apply (M 0%nat); [lia|reflexivity].
    + rewrite IH. split.
      * intros (i & -> & H & M). exists (S i). split; [lia|]. split; [exact H|]. intros [|i'] B; cbn; [intros Q; injection Q as ->; rewrite (proj2 (text_eqb_true k k) eq_refl) in E; discriminate|apply M; lia].
      * intros (i & -> & H & M). destruct i as [|i]; [cbn in H; injection H as ->; rewrite (proj2 (text_eqb_true k k) eq_refl) in E; discriminate|].
        exists i. split; [lia|]. split; [exact H|]. intros i' B. apply (M (S i')). lia.
Qed.
Lemma nodup_nth {A} (l : list A) i j x : NoDup l -> nth_error l i = Some x -> nth_error l j = Some x -> i = j.
Proof. intros N H1 H2. eapply (proj1 (NoDup_nth_error l) N); [apply nth_error_Some; congruence|congruence]. Qed.
Lemma table_names q : table_of q = combine (map lower (names q)) (seq 0 (length (map lower (names q)))).
Proof. destruct q; reflexivity. Qed.
Lemma find_iff q k c : find_code (table_of q) k = Some c <-> exists n, nth_error (names q) c = Some n /\ k = lower n.
Proof.
  rewrite table_names, code_in. split.
  - intros (i & -> & H & _). rewrite nth_error_map in H. cbn. destruct (nth_error (names q) i) as [n|]; [|discriminate H]. cbn in H. injection H as <-. eauto.
  - intros (n & H & ->). exists c. split; [reflexivity|]. assert (E : nth_error (map lower (names q)) c = Some (lower n)) by (rewrite nth_error_map, H; reflexivity).
    split; [exact E|]. intros i' B E'. pose proof (nodup_nth _ _ _ _ (lower_nodup q) E E'). lia.
Qed.
Lemma find_none q k : find_code (table_of q) k = None <-> forall n, In n (names q) -> k <> lower n.
Proof.
  split.
  - intros H n I ->. destruct (In_nth_error _ _ I) as [c C]. rewrite (proj2 (find_iff q (lower n) c)) in H by eauto. discriminate.
  - intros H. destruct (find_code _ _) as [c|] eqn:E; [|reflexivity]. apply find_iff in E as (n & N & ->). exfalso. apply (H n); [eapply nth_error_In; eauto|reflexivity].
Qed.
Lemma lower_lower s : lower (lower s) = lower s.
Proof.
  induction s as [|c s IH]; cbn; [reflexivity|]. f_equal; [|exact IH].
  destruct c as [[] [] [] [] [] [] [] []]; reflexivity.
Qed.

(** sorting *)
Definition before (a b : text) : Prop := text_leb a b = true.
Lemma leb_total a b : text_leb a b = true \/ text_leb b a = true.
Proof.
  revert b. induction a as [|x a IH]; intros [|y b]; cbn [text_leb]; auto.
  destruct (Nat.ltb_spec (nat_of_ascii x) (nat_of_ascii y)), (Nat.ltb_spec (nat_of_ascii y) (nat_of_ascii x)); cbn [orb]; auto; try lia.
  assert (nat_of_ascii x = nat_of_ascii y) as -> by lia. rewrite Nat.eqb_refl. cbn [andb]. apply IH.
Qed.
Lemma leb_trans a b c : text_leb a b = true -> text_leb b c = true -> text_leb a c = true.
Proof.
  revert b c. induction a as [|x a IH]; intros [|y b] [|z c]; cbn [text_leb]; auto; try discriminate.
  rewrite !orb_true_iff, !andb_true_iff, !Nat.ltb_lt, !Nat.eqb_eq. intros [H1|[H1 H2]] [H3|[H3 H4]]; try (left; lia). right. split; [lia|]. eapply IH; eauto.
Qed.
Lemma leb_antisym a b : text_leb a b = true -> text_leb b a = true -> a = b.
Proof.
  revert b. induction a as [|x a IH]; intros [|y b]; cbn [text_leb]; auto; try discriminate.
  rewrite !orb_true_iff, !andb_true_iff, !Nat.ltb_lt, !Nat.eqb_eq. intros [H1|[H1 H2]] [H3|[H3 H4]]; try lia.
  f_equal; [|apply IH; auto]. rewrite <- (ascii_nat_embedding x), <- (ascii_nat_embedding y). congruence.
Qed.
Lemma insert_perm k l : Permutation (k :: l) (insert k l).
Proof. induction l as [|x l IH]; cbn; [reflexivity|]. destruct (text_leb k x); [reflexivity|]. rewrite perm_swap. constructor. exact IH. Qed.
Lemma sorted_perm l : Permutation l (sorted l).
Proof. induction l as [|k l IH]; cbn; [constructor|]. rewrite <- insert_perm. constructor. exact IH. Qed.
Lemma insert_sorted k l : StronglySorted before l -> StronglySorted before (insert k l).
Proof.
  induction 1 as [|x l H IH F]; cbn; [repeat constructor|]. destruct (text_leb k x) eqn:E.
  - constructor; [constructor; auto|]. constructor; [exact E|]. eapply Forall_impl; [|exact F]. intros a. apply leb_trans, E.
  - constructor; [exact IH|]. rewrite <- insert_perm. constructor; [|exact F]. destruct (leb_total k x); unfold before; congruence.
Qed.
Lemma sorted_sorted l : StronglySorted before (sorted l).
Proof. induction l; cbn; [constructor|]. apply insert_sorted. assumption. Qed.
Lemma fst_table q : map fst (table_of q) = map lower (names q).
Proof. destruct q; reflexivity. Qed.
Lemma iter_perm w : Permutation (map lower (names (what w))) (iter w).
Proof. unfold iter. rewrite fst_table. apply sorted_perm. Qed.
Lemma iter_nodup w : NoDup (iter w).
Proof. eapply Permutation_NoDup; [apply iter_perm|apply lower_nodup]. Qed.
Lemma iter_in w k : In k (iter w) <-> exists n, In n (names (what w)) /\ k = lower n.
Proof.
  split.
  - intros I. apply (Permutation_in _ (Permutation_sym (iter_perm w))) in I. apply in_map_iff in I as (n & <- & I). eauto.
  - intros (n & I & ->). apply (Permutation_in _ (iter_perm w)). apply in_map, I.
Qed.

Section W.
Context (f2 : quantity -> Z -> nat -> option Qc) (f3 : quantity -> Z -> nat -> Qc -> option Qc).
Notation getitem := (getitem f2 f3).
Definition matching (w : wrap) : Prop := needs_energy (what w) = match energy w with Some _ => true | None => false end.
Definition value_at (w : wrap) (c : nat) : Qc :=
  or0 (match energy w with None => f2 (what w) (element_no w) c | Some e => f3 (what w) (element_no w) c e end).
Lemma getitem_value w key n c : matching w -> nth_error (names (what w)) c = Some n -> lower key = lower n -> getitem w key = Value (value_at w c).
Proof.
  intros M N E. unfold Wrap_Model.getitem. rewrite (proj2 (find_iff (what w) (lower key) c)) by eauto. unfold matching in M. rewrite M.
  unfold value_at, or0. destruct (energy w); reflexivity.
Qed.
Lemma getitem_error w key : (forall n, In n (names (what w)) -> lower key <> lower n) -> getitem w key = KeyError.
Proof. intros H. unfold Wrap_Model.getitem. rewrite (proj2 (find_none _ _) H). reflexivity. Qed.
Lemma getitem_mismatch w key n : ~ matching w -> In n (names (what w)) -> lower key = lower n -> getitem w key = TypeError.
Proof.
  intros M I E. destruct (In_nth_error _ _ I) as [c C]. unfold Wrap_Model.getitem. rewrite (proj2 (find_iff (what w) (lower key) c)) by eauto.
  unfold matching in M. destruct (energy w), (needs_energy (what w)); congruence.
Qed.
Lemma named_dec q key : (exists c n, nth_error (names q) c = Some n /\ lower key = lower n) \/ (forall n, In n (names q) -> lower key <> lower n).
Proof.
  destruct (find_code (table_of q) (lower key)) as [c|] eqn:E.
  - apply find_iff in E as (n & N & E). left. eauto.
  - right. apply find_none, E.
Qed.
Lemma items_spec w ks l : items_of f2 f3 w ks = Some l <-> map fst l = ks /\ forall p, In p l -> getitem w (fst p) = Value (snd p).
Proof.
  revert l. induction ks as [|k ks IH]; intros l; cbn.
  - split; [intros H; injection H as <-; split; [reflexivity|intros p []]|]. intros [H _]. apply map_eq_nil in H as ->. reflexivity.
  - destruct (getitem w k) as [v| |] eqn:E.
    + destruct (items_of f2 f3 w ks) as [r|] eqn:Q; cbn.
      * pose proof (proj1 (IH r) eq_refl) as [R1 R2]. split.
        -- intros H. injection H as <-. cbn. split; [f_equal; exact R1|]. intros p [<-|I]; [exact E|apply R2, I].
        -- intros [H1 H2]. destruct l as [|[k' v'] l]; [discriminate H1|]. cbn in H1. injection H1 as -> H1.
           assert (X : Some r = Some l) by (apply IH; split; [exact H1|intros p I; apply H2; right; exact I]). injection X as ->.
           specialize (H2 (k, v') (or_introl eq_refl)). cbn in H2. congruence.
      * split; [discriminate|]. intros [H1 H2]. destruct l as [|[k' v'] l]; [discriminate H1|]. cbn in H1. injection H1 as -> H1.
        assert (X : @None (list (text * Qc)) = Some l) by (apply IH; split; [exact H1|intros p I; apply H2; right; exact I]). discriminate X.
    + split; [discriminate|]. intros [H1 H2]. destruct l as [|[k' v'] l]; [discriminate H1|]. cbn in H1. injection H1 as -> H1. specialize (H2 _ (or_introl eq_refl)). cbn in H2. congruence.
    + split; [discriminate|]. intros [H1 H2]. destruct l as [|[k' v'] l]; [discriminate H1|]. cbn in H1. injection H1 as -> H1. specialize (H2 _ (or_introl eq_refl)). cbn in H2. congruence.
Qed.
Lemma all_some w : matching w -> exists l, all f2 f3 w = Some l.
Proof.
  intros M. unfold all. assert (H : forall ks, (forall k, In k ks -> In k (iter w)) -> exists l, items_of f2 f3 w ks = Some l).
  { induction ks as [|k ks IH]; intros H; cbn; [eauto|].
    destruct (proj1 (iter_in w k) (H k (or_introl eq_refl))) as (n & I & ->). destruct (In_nth_error _ _ I) as [c C].
    rewrite (getitem_value w (lower n) n c M C (lower_lower n)). destruct IH as [l ->]; [intros k K; apply H; right; exact K|]. cbn. eauto. }
  apply H; auto.
Qed.
Lemma all_none w : ~ matching w -> all f2 f3 w = None.
Proof.
  intros M. unfold all. destruct (iter w) as [|k ks] eqn:E.
  - exfalso. pose proof (iter_perm w) as P. rewrite E in P. apply Permutation_sym, Permutation_nil in P. destruct (what w); discriminate P.
  - cbn. destruct (proj1 (iter_in w k)) as (n & I & ->); [rewrite E; left; reflexivity|].
    rewrite (getitem_mismatch w (lower n) n M I (lower_lower n)). reflexivity.
Qed.
Lemma find_key (l : list (text * Qc)) k v : NoDup (map fst l) -> In (k, v) l -> find (fun q => text_eqb k (fst q)) l = Some (k, v).
Proof.
  induction l as [|[k' v'] l IH]; cbn; [intros _ []|]. intros N I. inversion N as [|? ? N1 N2]; subst. destruct (text_eqb k k') eqn:E.
  - apply text_eqb_true in E as ->. destruct I as [I|I]; [congruence|]. exfalso. apply N1. apply in_map_iff. exists (k', v). auto.
  - destruct I as [I|I]; [injection I as -> ->; rewrite (proj2 (text_eqb_true k k) eq_refl) in E; discriminate|]. apply IH; auto.
Qed.
Lemma equal_iff a b : matching a -> matching b -> names (what a) = names (what b) ->
  equal f2 f3 a b = Some true <-> forall c, (c < length (names (what a)))%nat -> value_at a c = value_at b c.
Proof.
  intros Ma Mb N. unfold equal. destruct (all_some a Ma) as [x X], (all_some b Mb) as [y Y]. rewrite X, Y. cbn [bind].
  apply items_spec in X as [X1 X2], Y as [Y1 Y2]. assert (I : iter a = iter b) by (unfold iter; rewrite !fst_table, N; reflexivity).
  assert (L : length x = length y). { rewrite <- (map_length fst x), <- (map_length fst y), X1, Y1, I. reflexivity. }
  rewrite L, Nat.eqb_refl. cbn [andb].
  assert (V : forall w l, matching w -> map fst l = iter w -> (forall p, In p l -> getitem w (fst p) = Value (snd p)) ->
    forall c n, nth_error (names (what w)) c = Some n -> In (lower n, value_at w c) l).
  { intros w l M H1 H2 c n C. assert (K : In (lower n) (map fst l)). { rewrite H1. apply iter_in. exists n. split; [eapply nth_error_In; eauto|reflexivity]. }
    apply in_map_iff in K as ([k v] & K1 & K2). cbn in K1. subst k. specialize (H2 _ K2). cbn in H2. rewrite (getitem_value w (lower n) n c M C (lower_lower n)) in H2. congruence. }
  assert (Ny : NoDup (map fst y)) by (rewrite Y1; apply iter_nodup). split.
  - intros H c B. injection H as H. rewrite forallb_forall in H. destruct (nth_error (names (what a)) c) as [n|] eqn:C; [|apply nth_error_None in C; lia].
    specialize (H _ (V a x Ma X1 X2 c n C)). cbn [fst snd] in H. rewrite (find_key y (lower n) (value_at b c) Ny) in H.
    + cbn [snd] in H. destruct (Qc_eqb_spec (value_at a c) (value_at b c)); [assumption|discriminate H].
    + apply (V b y Mb Y1 Y2 c n). rewrite <- N. exact C.
  - intros H. f_equal. apply forallb_forall. intros [k v] P. cbn [fst snd].
    assert (K : In k (iter a)). { rewrite <- X1. apply in_map_iff. exists (k, v). auto. }
    apply iter_in in K as (n & K & ->). destruct (In_nth_error _ _ K) as [c C].
    assert (E : v = value_at a c). { specialize (X2 _ P). cbn in X2. rewrite (getitem_value a (lower n) n c Ma C (lower_lower n)) in X2. congruence. }
    rewrite (find_key y (lower n) (value_at b c) Ny) by (apply (V b y Mb Y1 Y2 c n); rewrite <- N; exact C).
    cbn [snd]. destruct (Qc_eqb_spec v (value_at b c)) as [|D]; [reflexivity|]. exfalso. apply D. rewrite E. apply H. apply nth_error_Some. congruence.
Qed.
End W.
