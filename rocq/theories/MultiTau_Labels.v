(* Label renumbering: the in-place loop computes the rank of each label. *)
From Verif Require Import Common MultiTau_Model MultiTau_Spec.
From Coq Require Import ZifyBool ZifyNat Sorted Permutation.

Lemma insert_u_In x l y : In y (insert_u x l) <-> y = x \/ In y l.
Proof.
  induction l as [|z l IH]; cbn; [firstorder|].
  destruct (Z.ltb_spec x z); cbn; [firstorder|].
  destruct (Z.eqb_spec x z); cbn; [subst; firstorder|]. rewrite IH; firstorder.
Qed.

Lemma unique_In l y : In y (unique l) <-> In y l.
Proof.
  induction l as [|x l IH]; cbn; [tauto|]. rewrite insert_u_In, IH. firstorder.
Qed.

Lemma insert_u_sorted x l :
  StronglySorted Z.lt l -> StronglySorted Z.lt (insert_u x l).
Proof.
  induction l as [|z l IH]; cbn; intros H; [constructor; auto; constructor|].
  inversion H as [|? ? H1 H2]; subst.
  destruct (Z.ltb_spec x z).
  - constructor; auto. constructor; auto.
    rewrite Forall_forall in *; intros y Hy; specialize (H2 y Hy); lia.
  - destruct (Z.eqb_spec x z); [auto|]. constructor; auto.
    rewrite Forall_forall in *; intros y Hy. apply insert_u_In in Hy as [->|Hy]; [lia|auto].
Qed.

Lemma unique_sorted l : StronglySorted Z.lt (unique l).
Proof. induction l as [|x l IH]; cbn; [constructor|apply insert_u_sorted; exact IH]. Qed.

(** What the sequence of passes does to one element. *)
Fixpoint rename (us : list Z) (a x : Z) : Z :=
  match us with
  | [] => x
  | u :: us' => if (x =? u)%Z then (a + 1)%Z else rename us' (a + 1)%Z x
  end.

Lemma rename_notin us a x : ~ In x us -> rename us a x = x.
Proof.
  revert a; induction us as [|u us IH]; intros a H; cbn in *; auto.
  destruct (Z.eqb_spec x u); [subst; tauto|]. apply IH; tauto.
Qed.

Lemma remap_fold us : forall a arr,
  StronglySorted Z.lt us -> (forall u, In u us -> (a + 1 <= u)%Z) -> (0 <= a)%Z ->
  fold_left remap_pass
    (combine us (map Z.of_nat (seq (Z.to_nat (a + 1)) (length us)))) arr
  = map (rename us a) arr.
Proof.
  induction us as [|u us IH]; intros a arr Hs Hu Ha.
  - cbn. rewrite map_id. reflexivity.
  - cbn [length seq map combine fold_left].
    inversion Hs as [|? ? H1 H2]; subst. rewrite Forall_forall in H2.
    replace (S (Z.to_nat (a + 1))) with (Z.to_nat (a + 1 + 1)) by lia.
    assert (Hu' : forall u0, In u0 us -> (a + 1 + 1 <= u0)%Z).
    { intros v Hv. specialize (H2 v Hv). specialize (Hu u (or_introl eq_refl)). lia. }
    rewrite IH by (auto; lia).
    unfold remap_pass. rewrite map_map. apply map_ext. intros x. cbn [fst snd rename].
    destruct (Z.eqb_spec x u) as [->|Hne]; [|reflexivity].
    rewrite rename_notin; [lia|].
    intros Hin. specialize (Hu' _ Hin). lia.
Qed.

Lemma rename_rank us : forall a x, StronglySorted Z.lt us -> In x us ->
  rename us a x = (a + Z.of_nat (length (filter (fun y => (y <=? x)%Z) us)))%Z.
Proof.
  induction us as [|u us IH]; intros a x Hs Hin; [destruct Hin|].
  inversion Hs as [|? ? H1 H2]; subst. rewrite Forall_forall in H2.
  cbn [rename filter]. destruct Hin as [->|Hin].
  - rewrite Z.eqb_refl. replace (x <=? x)%Z with true by lia. cbn [length].
    assert (E : filter (fun y => (y <=? x)%Z) us = []).
    { clear -H2. induction us as [|v us IH]; cbn; auto.
      pose proof (H2 v (or_introl eq_refl)).
      replace (v <=? x)%Z with false by lia. apply IH. intros; apply H2; right; auto. }
    rewrite E. cbn; lia.
  - pose proof (H2 x Hin). destruct (Z.eqb_spec x u); [lia|].
    replace (u <=? x)%Z with true by lia. rewrite IH by auto. cbn [length]. lia.
Qed.

Lemma sorted_NoDup l : StronglySorted Z.lt l -> NoDup l.
Proof.
  induction 1 as [|x l Hs IH Hf]; constructor; auto.
  rewrite Forall_forall in Hf. intros Hin. specialize (Hf x Hin). lia.
Qed.

(** The positive labels, and pairs (raster index, label), as the code sees them. *)
Definition sel (labels : list Z) : list (nat * Z) :=
  filter (fun p => (0 <? snd p)%Z) (combine (seq 0 (length labels)) labels).

Lemma extract_sel labels :
  extract_label_indices labels = (map snd (sel labels), map fst (sel labels)).
Proof. reflexivity. Qed.

Lemma combine_seq_nth (labels : list Z) : forall a,
  combine (seq a (length labels)) labels
  = map (fun p => (p, nth (p - a) labels 0%Z)) (seq a (length labels)).
Proof.
  induction labels as [|x labels IH]; intros a; cbn; [reflexivity|].
  rewrite IH, Nat.sub_diag. f_equal. apply map_ext_in. intros p Hp.
  apply in_seq in Hp. replace (p - a) with (S (p - S a)) by lia. reflexivity.
Qed.

Lemma filter_map_comm {A B} (f : A -> B) p l :
  filter p (map f l) = map f (filter (fun x => p (f x)) l).
Proof. induction l as [|a l IH]; cbn; auto. destruct (p (f a)); cbn; rewrite IH; auto. Qed.

Lemma filter_filter {A} (p q : A -> bool) l :
  filter p (filter q l) = filter (fun x => q x && p x) l.
Proof.
  induction l as [|a l IH]; cbn; auto. destruct (q a); cbn; [|auto].
  destruct (p a); cbn; rewrite IH; auto.
Qed.

Lemma sel_positions labels :
  sel labels = map (fun p => (p, nth p labels 0%Z)) (all_positions labels).
Proof.
  unfold sel, all_positions. rewrite combine_seq_nth, filter_map_comm. cbn [snd].
  rewrite (filter_ext _ (fun p => (0 <? nth p labels 0%Z)%Z)).
  - apply map_ext; intros; rewrite ?Nat.sub_0_r; reflexivity.
  - intros; rewrite Nat.sub_0_r; reflexivity.
Qed.

Lemma map_fst_sel labels : map fst (sel labels) = all_positions labels.
Proof. rewrite sel_positions, map_map. cbn [fst]. apply map_id. Qed.

Lemma map_snd_sel_In labels x : In x (map snd (sel labels)) <-> In x labels /\ (0 < x)%Z.
Proof.
  unfold sel. split.
  - intros H. apply in_map_iff in H as ([p y] & <- & H). apply filter_In in H as [H1 H2].
    apply in_combine_r in H1. cbn in *. split; [auto|lia].
  - intros [H1 H2]. apply In_nth with (d := 0%Z) in H1 as (n & Hn & E).
    apply in_map_iff. exists (n, x). split; auto. apply filter_In. split; [|cbn; lia].
    rewrite combine_seq_nth. apply in_map_iff. exists n. rewrite Nat.sub_0_r, E.
    split; auto. apply in_seq; lia.
Qed.

Lemma same_elems_length (l1 l2 : list Z) :
  NoDup l1 -> NoDup l2 -> (forall x, In x l1 <-> In x l2) -> length l1 = length l2.
Proof.
  intros H1 H2 H. apply Permutation_length, NoDup_Permutation; auto.
Qed.

Lemma roi_no_unique labels x :
  length (filter (fun y => (y <=? x)%Z) (unique (map snd (sel labels)))) = roi_no labels x.
Proof.
  unfold roi_no. apply same_elems_length.
  - apply NoDup_filter, sorted_NoDup, unique_sorted.
  - apply NoDup_nodup.
  - intros y. rewrite filter_In, unique_In, map_snd_sel_In, nodup_In, filter_In.
    rewrite andb_true_iff, Z.ltb_lt. tauto.
Qed.

Lemma n_rois_unique labels : length (unique (map snd (sel labels))) = n_rois labels.
Proof.
  unfold n_rois. apply same_elems_length.
  - apply sorted_NoDup, unique_sorted.
  - apply NoDup_nodup.
  - intros y. rewrite unique_In, map_snd_sel_In, nodup_In, filter_In, Z.ltb_lt. tauto.
Qed.

(** The main fact: renumbering replaces every label by its rank. *)
Lemma remap_spec labels :
  remap (map snd (sel labels))
  = map (fun x => Z.of_nat (roi_no labels x)) (map snd (sel labels)).
Proof.
  unfold remap, label_mapping. change 1 with (Z.to_nat (0 + 1)).
  rewrite remap_fold.
  - apply map_ext_in. intros x Hx. rewrite rename_rank.
    + rewrite roi_no_unique. lia.
    + apply unique_sorted.
    + apply unique_In; exact Hx.
  - apply unique_sorted.
  - intros u Hu. apply unique_In, map_snd_sel_In in Hu. lia.
  - lia.
Qed.

Definition clabels (labels : list Z) : list nat :=
  map (fun p => roi_no labels (nth p labels 0%Z)) (all_positions labels).

Lemma remap_clabels labels :
  map Z.to_nat (remap (map snd (sel labels))) = clabels labels.
Proof.
  rewrite remap_spec, map_map, sel_positions, !map_map. cbn [snd].
  apply map_ext. intros p. rewrite Nat2Z.id. reflexivity.
Qed.

Lemma roi_no_mono labels x y :
  In y labels -> (0 < y)%Z -> (x < y)%Z -> roi_no labels x < roi_no labels y.
Proof.
  intros Hy H0 Hxy. rewrite <- !roi_no_unique.
  assert (Hin : In y (unique (map snd (sel labels))))
    by (apply unique_In, map_snd_sel_In; auto).
  induction (unique (map snd (sel labels))) as [|u us IH]; [destruct Hin|].
  assert (Hle : forall l, length (filter (fun v => (v <=? x)%Z) l)
                       <= length (filter (fun v => (v <=? y)%Z) l)).
  { induction l as [|v l IHl]; cbn; auto.
    destruct (Z.leb_spec v x), (Z.leb_spec v y); cbn; lia. }
  cbn [filter]. destruct Hin as [->|Hin].
  - replace (y <=? x)%Z with false by lia. replace (y <=? y)%Z with true by lia.
    cbn. specialize (Hle us). lia.
  - specialize (IH Hin). destruct (Z.leb_spec u x), (Z.leb_spec u y); cbn; lia.
Qed.

Lemma roi_no_range labels x :
  In x labels -> (0 < x)%Z -> 1 <= roi_no labels x <= n_rois labels.
Proof.
  intros Hx H0. split.
  - rewrite <- roi_no_unique.
    assert (Hin : In x (filter (fun y => (y <=? x)%Z) (unique (map snd (sel labels))))).
    { apply filter_In. split; [|lia]. apply unique_In, map_snd_sel_In; auto. }
    destruct (filter _ _); [destruct Hin|cbn; lia].
  - rewrite <- roi_no_unique, <- n_rois_unique.
    induction (unique _) as [|u us IH]; cbn; auto. destruct (u <=? x)%Z; cbn; lia.
Qed.

(** Every ROI number 1..n is taken. *)
Lemma sorted_rank_onto us : forall r, StronglySorted Z.lt us ->
  1 <= r <= length us ->
  exists x, In x us /\ length (filter (fun y => (y <=? x)%Z) us) = r.
Proof.
  induction us as [|u us IH]; intros r Hs Hr; [cbn in Hr; lia|].
  inversion Hs as [|? ? H1 H2]; subst. rewrite Forall_forall in H2.
  destruct (Nat.eq_dec r 1) as [->|Hne].
  - exists u. split; [left; auto|]. cbn. replace (u <=? u)%Z with true by lia. cbn.
    f_equal. clear -H2. induction us as [|v us IH]; cbn; auto.
    pose proof (H2 v (or_introl eq_refl)). replace (v <=? u)%Z with false by lia.
    apply IH; intros; apply H2; right; auto.
  - cbn in Hr. destruct (IH (r - 1) H1 ltac:(lia)) as (x & Hx & E).
    exists x. split; [right; auto|]. cbn. pose proof (H2 x Hx).
    replace (u <=? x)%Z with true by lia. cbn. lia.
Qed.

Lemma roi_no_onto labels r : 1 <= r <= n_rois labels ->
  exists x, In x labels /\ (0 < x)%Z /\ roi_no labels x = r.
Proof.
  intros Hr. rewrite <- n_rois_unique in Hr.
  destruct (sorted_rank_onto _ r (unique_sorted _) Hr) as (x & Hx & E).
  rewrite roi_no_unique in E. apply unique_In, map_snd_sel_In in Hx as [Hx1 Hx2].
  eauto.
Qed.

Lemma max_label_bound l m : (forall x, In x l -> x <= m) -> max_label l <= m.
Proof.
  unfold max_label. induction l as [|x l IH]; cbn; intros H; [lia|].
  specialize (IH (fun y Hy => H y (or_intror Hy))). specialize (H x (or_introl eq_refl)). lia.
Qed.
Lemma max_label_In l x : In x l -> x <= max_label l.
Proof.
  unfold max_label. induction l as [|y l IH]; cbn; [intros []|intros [->|H]; [lia|]].
  specialize (IH H). lia.
Qed.

Lemma all_positions_In labels p :
  In p (all_positions labels) <-> p < length labels /\ (0 < nth p labels 0%Z)%Z.
Proof. unfold all_positions. rewrite filter_In, in_seq, Z.ltb_lt. lia. Qed.

Lemma max_clabels labels : max_label (clabels labels) = n_rois labels.
Proof.
  apply Nat.le_antisymm.
  - apply max_label_bound. intros x Hx. apply in_map_iff in Hx as (p & <- & Hp).
    apply all_positions_In in Hp as [Hp1 Hp2].
    apply roi_no_range; auto. apply nth_In; auto.
  - destruct (Nat.eq_dec (n_rois labels) 0) as [->|Hne]; [lia|].
    destruct (roi_no_onto labels (n_rois labels) ltac:(lia)) as (x & Hx & H0 & <-).
    apply max_label_In. apply In_nth with (d := 0%Z) in Hx as (p & Hp & <-).
    unfold clabels. apply in_map_iff. exists p. split; auto. apply all_positions_In; auto.
Qed.
