From Verif Require Import Common Dict_Model Dict_Spec Dict_Proofs.

(** ** What a user can see: values read through the API. *)
Definition rc_value {V} (d : list (string * node V)) (k : string) : option V :=
  match rc_get d (split_dot k) with inl (Leaf v) => Some v | _ => None end.
Definition md_value_at d (k : string) : option (pyval * pyval) :=
  match snd (md_getitem d k) with Some (Leaf v) => Some v | _ => None end.

Definition leaf_at {V} (d : list (string * node V)) (p : list string) : option V :=
  match node_at (Branch d) p with Some (Leaf v) => Some v | _ => None end.
Lemma rc_value_eq {V} (d : list (string * node V)) k : rc_value d k = leaf_at d (split_dot k).
Proof.
  unfold rc_value, leaf_at. pose proof (rc_get_spec d (split_dot k) (split_ne k)) as H.
  destruct (rc_get d (split_dot k)) as [n|[]]; [rewrite H; reflexivity| | | |];
   try contradiction; destruct H as [_ ->]; reflexivity.
Qed.
Lemma md_value_eq d k : md_value_at d k = leaf_at d (split_dot k).
Proof. unfold md_value_at, md_getitem, leaf_at. rewrite md_get_res by apply split_ne. reflexivity. Qed.
Lemma blocked_iff {V} (d : list (string * node V)) k :
  blocked d (split_dot k) <-> exists k' v, below k' k /\ rc_value d k' = Some v.
Proof.
  split.
  - intros (q & v & Hq & Hn).
    assert (Hqn : q <> []) by (intros ->; discriminate).
    assert (Hd : forall x, In x q -> no_dot x).
    { intros x Hx. destruct Hq as (a & r & E). apply (split_nodot k). rewrite E. apply in_app_iff. auto. }
    exists (join_dot q), v. rewrite below_iff, rc_value_eq, split_join by assumption.
    split; [exact Hq|]. unfold leaf_at. rewrite Hn. reflexivity.
  - intros (k' & v & Hb & Hv). exists (split_dot k'), v. split; [apply below_iff; exact Hb|].
    rewrite rc_value_eq in Hv. unfold leaf_at in Hv.
    destruct (node_at (Branch d) (split_dot k')) as [[w|]|]; congruence.
Qed.

(** ** Reachable dictionaries are well formed *)
Lemma rc_set_wf {V} (d : list (string * node V)) k v : wfn (Branch d) -> wfn (Branch (fst (rc_set d (split_dot k) v))).
Proof.
  intros Hw. destruct (rc_set_spec d (split_dot k) v (split_ne k)) as [[-> _]|[-> _]]; [|exact Hw].
  apply md_set_wf; [|exact Hw]. intros x Hx; eapply split_nodot; exact Hx.
Qed.
Lemma rc_del_wf {V} (d : list (string * node V)) k : wfn (Branch d) -> wfn (Branch (fst (rc_del d (split_dot k)))).
Proof.
  intros Hw. pose proof (rc_del_spec d (split_dot k) Hw (split_ne k) (split_nodot k)) as H.
  destruct (rc_del d (split_dot k)) as [d' [e|]]; cbn; [destruct H as (-> & _); exact Hw|apply H].
Qed.
Lemma rc_run_wf {V} (ops : list (rc_op V)) : wfn (Branch (rc_run ops)).
Proof.
  unfold rc_run. assert (H : forall d, wfn (Branch d) -> wfn (Branch (fold_left rc_step ops d))).
  { induction ops as [|o ops IH]; intros d Hd; cbn; [exact Hd|]. apply IH. unfold rc_step.
    destruct o; [apply rc_set_wf|apply rc_del_wf]; exact Hd. }
  apply H, wf_nil.
Qed.
Lemma md_run_wf ops : wfn (Branch (md_run ops)).
Proof.
  unfold md_run. assert (H : forall d, wfn (Branch d) -> wfn (Branch (fold_left md_step ops d))).
  { induction ops as [|o ops IH]; intros d Hd; cbn [fold_left]; [exact Hd|]. apply IH. unfold md_step.
    destruct o as [k v|k|k].
    - unfold md_setitem. destruct (md_wrap v); cbn [fst];
        [apply md_set_wf|apply md_get_wf]; auto; intros x Hx; eapply split_nodot; exact Hx.
    - apply md_get_wf; auto; intros x Hx; eapply split_nodot; exact Hx.
    - unfold md_delitem. rewrite md_rc_del. apply rc_del_wf. exact Hd. }
  apply H, wf_nil.
Qed.

(** ** RCParamDict *)
Lemma rc_set_ok {V} (d : list (string * node V)) k v :
  match rc_set d (split_dot k) v with
  | (d', None) =>
      rc_value d' k = Some v /\
      (forall k', below k k' -> rc_value d' k' = None) /\
      (forall k', apart k k' -> rc_value d' k' = rc_value d k') /\
      (forall k', below k' k -> rc_value d k' = None /\ rc_value d' k' = None)
  | (d', Some e) => d' = d /\ e = KeyErr /\ exists k' w, below k' k /\ rc_value d k' = Some w
  end.
Proof.
  destruct (rc_set_spec d (split_dot k) v (split_ne k)) as [[-> Hb]|[-> Hb]].
  - rewrite blocked_iff in Hb.
    destruct (md_set_spec d (split_dot k) v (split_ne k)) as (H1 & H2 & H3 & H4).
    split; [rewrite rc_value_eq; unfold leaf_at; rewrite H1; reflexivity|]. split.
    { intros k' Hk. rewrite rc_value_eq. unfold leaf_at. rewrite H2 by (apply below_iff; exact Hk). reflexivity. }
    split.
    { intros k' Hk. rewrite !rc_value_eq. unfold leaf_at. rewrite H4 by (apply apart_iff; exact Hk). reflexivity. }
    intros k' Hk. split.
    { destruct (rc_value d k') as [w|] eqn:E; [|reflexivity]. exfalso. apply Hb. eauto. }
    rewrite rc_value_eq. unfold leaf_at. destruct (H3 (split_dot k')) as (d0 & ->); [apply below_iff; exact Hk|reflexivity].
  - rewrite blocked_iff in Hb. auto.
Qed.
Lemma rc_del_ok {V} (ops : list (rc_op V)) k : let d := rc_run ops in
  match rc_del d (split_dot k) with
  | (d', None) =>
      rc_get d' (split_dot k) = inr KeyErr /\
      (forall k', k' = k \/ below k k' -> rc_value d' k' = None) /\
      (forall k', k' <> k -> ~ below k k' -> rc_value d' k' = rc_value d k')
  | (d', Some e) => d' = d /\
      (e = KeyErr /\ rc_get d (split_dot k) = inr KeyErr \/
       e = AttrErr /\ exists k' w, below k' k /\ rc_value d k' = Some w)
  end.
Proof.
  intros d. pose proof (rc_run_wf ops) as Hw. fold d in Hw.
  pose proof (rc_del_spec d (split_dot k) Hw (split_ne k) (split_nodot k)) as H.
  destruct (rc_del d (split_dot k)) as [d' [e|]].
  - destruct H as (-> & Hn & H). split; [reflexivity|].
    destruct H as [[-> Hb]|[-> Hb]]; [left|right; rewrite blocked_iff in Hb; auto].
    split; [reflexivity|]. pose proof (rc_get_spec d (split_dot k) (split_ne k)) as Hg.
    destruct (rc_get d (split_dot k)) as [n|[]]; try congruence; try contradiction.
    destruct Hg as [Hg _]. contradiction.
  - destruct H as (Hw' & (n & Hn) & Hz & Ho & Hs).
    assert (Hnone : forall q, under (split_dot k) q -> node_at (Branch d') q = None).
    { intros q (r & ->). rewrite node_at_app, Hz. reflexivity. }
    split; [|split].
    + pose proof (rc_get_spec d' (split_dot k) (split_ne k)) as Hg.
      destruct (rc_get d' (split_dot k)) as [m|[]]; try congruence; try contradiction.
      exfalso. destruct Hg as [(q & v & Hq & Hv) _]. destruct (Hs q Hq) as (a & b & _ & E). congruence.
    + intros k' Hk. rewrite rc_value_eq. unfold leaf_at. rewrite Hnone; [reflexivity|].
      apply under_strict. destruct Hk as [->|Hk]; [auto|right; apply below_iff; exact Hk].
    + intros k' H1 H2. rewrite !rc_value_eq. unfold leaf_at.
      rewrite below_iff in H2.
      assert (Hu : ~ under (split_dot k) (split_dot k')).
      { rewrite under_strict. intros [E|E]; [apply H1; apply split_inj; congruence|contradiction]. }
      destruct (path_cases (split_dot k) (split_dot k')) as [C|[C|C]]; [contradiction| |].
      * destruct (Hs _ C) as (a & b & -> & ->). reflexivity.
      * rewrite Ho; [reflexivity|exact Hu|]. intros Hc. apply (proj2 C). apply under_strict. auto.
Qed.
Lemma rc_iter_ok {V} (ops : list (rc_op V)) : let d := rc_run ops in
  NoDup (iter_keys d) /\ (forall k, In k (iter_keys d) <-> rc_value d k <> None) /\
  dict_len d = List.length (iter_keys d).
Proof.
  intros d. destruct (iter_keys_spec d (rc_run_wf ops)) as [H1 H2]. split; [exact H1|]. split; [|reflexivity].
  intros k. rewrite H2, rc_value_eq. unfold leaf_at. split.
  - intros (v & ->). discriminate.
  - destruct (node_at (Branch d) (split_dot k)) as [[v|]|]; try congruence. eauto.
Qed.
Lemma rc_contains_ok {V} (d : list (string * node V)) k :
  match rc_contains d (split_dot k) with
  | inl true => exists n, rc_get d (split_dot k) = inl n
  | inl false => rc_get d (split_dot k) = inr KeyErr
  | inr e => e = TypeErr
  end /\
  (rc_contains d (split_dot k) = inr TypeErr <-> exists k' w, below k' k /\ rc_value d k' = Some w).
Proof.
  unfold rc_contains. pose proof (rc_get_spec d (split_dot k) (split_ne k)) as Hg.
  rewrite <- blocked_iff.
  destruct (rc_get d (split_dot k)) as [n|[]]; try contradiction.
  - split; [eauto|]. split; [discriminate|]. intros (q & v & (a & r & E) & Hq). exfalso.
    rewrite E, node_at_app, Hq in Hg. discriminate.
  - split; [reflexivity|]. split; [discriminate|]. intros Hb. exfalso. tauto.
  - split; [reflexivity|]. tauto.
Qed.

(** ** MD_dict *)
Lemma md_set_ok d k val m : md_wrap val = inl m ->
  let d' := fst (md_setitem d k val) in
  snd (md_setitem d k val) = None /\ md_value_at d' k = Some m /\
  (forall k', apart k k' -> md_value_at d' k' = md_value_at d k') /\
  (forall k', below k k' \/ below k' k -> md_value_at d' k' = None).
Proof.
  intros Hm. unfold md_setitem. rewrite Hm. cbn [fst snd]. cbv zeta.
  destruct (md_set_spec d (split_dot k) m (split_ne k)) as (H1 & H2 & H3 & H4).
  split; [reflexivity|]. split; [rewrite md_value_eq; unfold leaf_at; rewrite H1; reflexivity|]. split.
  - intros k' Hk. rewrite !md_value_eq. unfold leaf_at. rewrite H4 by (apply apart_iff; exact Hk). reflexivity.
  - intros k' [Hk|Hk]; rewrite md_value_eq; unfold leaf_at.
    + rewrite H2 by (apply below_iff; exact Hk). reflexivity.
    + destruct (H3 (split_dot k')) as (d0 & ->); [apply below_iff; exact Hk|reflexivity].
Qed.
Lemma md_set_bad d k val e : md_wrap val = inr e ->
  e = IndexErr /\ (exists l, val = PSeq l /\ List.length l < 2) /\
  snd (md_setitem d k val) = Some IndexErr /\
  fst (md_setitem d k val) = fst (md_getitem d k).
Proof.
  intros H. unfold md_setitem. rewrite H. cbn. destruct val as [|s|z|l|a u]; try discriminate.
  unfold md_wrap in H. destruct (nth_error l 1) as [x|] eqn:E.
  - destruct x; try discriminate H; destruct l as [|? [|? [|]]]; discriminate H.
  - injection H as <-. apply nth_error_None in E. repeat split; try reflexivity.
    exists l. split; [reflexivity|lia].
Qed.
Lemma md_get_ok d k : let d' := fst (md_getitem d k) in
  (forall k', ~ below k' k -> md_value_at d' k' = md_value_at d k') /\
  (forall k', below k' k -> md_value_at d' k' = None /\
      exists sub, snd (md_getitem d' k') = Some (Branch sub)).
Proof.
  cbv zeta. change (fst (md_getitem d k)) with (fst (md_get d (split_dot k))).
  set (d' := fst (md_get d (split_dot k))).
  destruct (md_get_state d (split_dot k) (split_ne k)) as [H1 H2]. fold d' in H1, H2. split.
  - intros k' Hk. rewrite !md_value_eq. unfold leaf_at. rewrite H2; [reflexivity|].
    rewrite <- below_iff. exact Hk.
  - intros k' Hk. apply below_iff in Hk. destruct (H1 _ Hk) as (sub & E). split.
    + rewrite md_value_eq. unfold leaf_at. rewrite E. reflexivity.
    + exists sub. unfold md_getitem. rewrite md_get_res by apply split_ne. exact E.
Qed.
Lemma md_contains_ok d k : snd (md_contains d k) = true. Proof. reflexivity. Qed.
Lemma md_iter_ok ops : let d := md_run ops in
  NoDup (iter_keys d) /\ (forall k, In k (iter_keys d) <-> md_value_at d k <> None) /\
  dict_len d = List.length (iter_keys d).
Proof.
  intros d. destruct (iter_keys_spec d (md_run_wf ops)) as [H1 H2]. split; [exact H1|]. split; [|reflexivity].
  intros k. rewrite H2, md_value_eq. unfold leaf_at. split.
  - intros (v & ->). discriminate.
  - destruct (node_at (Branch d) (split_dot k)) as [[v|]|]; try congruence. eauto.
Qed.
Lemma md_del_ok ops k : let d := md_run ops in
  match md_delitem d k with
  | (d', None) => (forall k', k' = k \/ below k k' -> md_value_at d' k' = None) /\
      (forall k', k' <> k -> ~ below k k' -> md_value_at d' k' = md_value_at d k')
  | (d', Some e) => d' = d /\ snd (md_getitem d k) = None
  end.
Proof.
  intros d. pose proof (md_run_wf ops) as Hw. fold d in Hw.
  unfold md_delitem. rewrite md_rc_del.
  pose proof (rc_del_spec d (split_dot k) Hw (split_ne k) (split_nodot k)) as H.
  destruct (rc_del d (split_dot k)) as [d' [e|]].
  - destruct H as (-> & Hn & H). split; [reflexivity|].
    unfold md_getitem. rewrite md_get_res by apply split_ne. exact Hn.
  - destruct H as (Hw' & (n & Hn) & Hz & Ho & Hs). split.
    + intros k' Hk. rewrite md_value_eq. unfold leaf_at.
      assert (Hu : under (split_dot k) (split_dot k')).
      { apply under_strict. destruct Hk as [->|Hk]; [auto|right; apply below_iff; exact Hk]. }
      destruct Hu as (r & ->). rewrite node_at_app, Hz. reflexivity.
    + intros k' H1 H2. rewrite !md_value_eq. unfold leaf_at.
      rewrite below_iff in H2.
      assert (Hu : ~ under (split_dot k) (split_dot k')).
      { rewrite under_strict. intros [E|E]; [apply H1; apply split_inj; congruence|contradiction]. }
      destruct (path_cases (split_dot k) (split_dot k')) as [C|[C|C]]; [contradiction| |].
      * destruct (Hs _ C) as (a & b & -> & ->). reflexivity.
      * rewrite Ho; [reflexivity|exact Hu|]. intros Hc. apply (proj2 C). apply under_strict. auto.
Qed.
