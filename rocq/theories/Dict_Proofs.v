From Verif Require Import Common Dict_Model Dict_Spec.
From Coq Require Import ZifyBool ZifyNat Logic.FinFun.

(** ** Splitting and joining keys *)
Fixpoint no_dot (s : string) : Prop :=
  match s with EmptyString => True | String c r => c <> "."%char /\ no_dot r end.

Lemma split_ne s : split_dot s <> [].
Proof.
  destruct s as [|c r]; cbn; [discriminate|]. destruct (Ascii.eqb c "."); [discriminate|].
  destruct (split_dot r); discriminate.
Qed.
Lemma split_nodot s : forall x, In x (split_dot s) -> no_dot x.
Proof.
  induction s as [|c r IH]; cbn; intros x Hx.
  - destruct Hx as [<-|[]]. exact I.
  - destruct (Ascii.eqb_spec c ".") as [->|Hc].
    + destruct Hx as [<-|Hx]; [exact I|auto].
    + destruct (split_dot r) as [|y ys] eqn:E; [exfalso; exact (split_ne r E)|].
      destruct Hx as [<-|Hx]; cbn; [split; [exact Hc|apply IH; left; reflexivity]|apply IH; right; exact Hx].
Qed.
Lemma join_split s : join_dot (split_dot s) = s.
Proof.
  induction s as [|c r IH]; [reflexivity|]. cbn [split_dot].
  destruct (Ascii.eqb_spec c ".") as [->|Hc].
  - destruct (split_dot r) as [|y ys] eqn:E; [exfalso; exact (split_ne r E)|].
    change (join_dot (EmptyString :: y :: ys)) with (String "."%char (join_dot (y :: ys))).
    rewrite IH. reflexivity.
  - destruct (split_dot r) as [|y ys] eqn:E; [exfalso; exact (split_ne r E)|].
    destruct ys as [|z zs]; cbn in *; [rewrite IH; reflexivity|]. rewrite <- IH. reflexivity.
Qed.
Lemma split_dotted x r : no_dot x -> split_dot (append x (String "."%char r)) = x :: split_dot r.
Proof.
  induction x as [|c x IH]; cbn; [reflexivity|]. intros [Hc Hx].
  destruct (Ascii.eqb_spec c ".") as [->|_]; [contradiction|]. rewrite IH by exact Hx. reflexivity.
Qed.
Lemma split_single x : no_dot x -> split_dot x = [x].
Proof.
  induction x as [|c x IH]; cbn; [reflexivity|]. intros [Hc Hx].
  destruct (Ascii.eqb_spec c ".") as [->|_]; [contradiction|]. rewrite IH by exact Hx. reflexivity.
Qed.
Lemma split_join l : l <> [] -> (forall x, In x l -> no_dot x) -> split_dot (join_dot l) = l.
Proof.
  induction l as [|x l IH]; intros Hne Hl; [contradiction|].
  destruct l as [|y l].
  - apply split_single. apply Hl. left; reflexivity.
  - change (join_dot (x :: y :: l)) with (append x (String "."%char (join_dot (y :: l)))).
    rewrite split_dotted by (apply Hl; left; reflexivity).
    rewrite IH; [reflexivity|discriminate|]. intros z Hz. apply Hl. right; exact Hz.
Qed.
Lemma split_app k r : split_dot (k ++ "." ++ r)%string = split_dot k ++ split_dot r.
Proof.
  induction k as [|c k IH]; [reflexivity|].
  change ((String c k ++ "." ++ r)%string) with (String c (k ++ "." ++ r)%string).
  cbn [split_dot]. rewrite IH. destruct (Ascii.eqb c "."); [reflexivity|].
  destruct (split_dot k) as [|y ys] eqn:E; [exfalso; exact (split_ne k E)|]. reflexivity.
Qed.
Lemma split_inj k k' : split_dot k = split_dot k' -> k = k'.
Proof. intros E. rewrite <- (join_split k), <- (join_split k'), E. reflexivity. Qed.
Lemma append_assoc a b c : ((a ++ b) ++ c = a ++ (b ++ c))%string.
Proof. induction a as [|x a IH]; cbn; [reflexivity|]. rewrite IH. reflexivity. Qed.
Lemma join_app l a r : l <> [] -> join_dot (l ++ a :: r) = (join_dot l ++ "." ++ join_dot (a :: r))%string.
Proof.
  induction l as [|x l IH]; intros Hne; [contradiction|]. destruct l as [|y l]; [reflexivity|].
  change ((x :: y :: l) ++ a :: r) with (x :: y :: (l ++ a :: r)).
  change (join_dot (x :: y :: (l ++ a :: r))) with ((x ++ "." ++ join_dot ((y :: l) ++ a :: r))%string).
  rewrite IH by discriminate.
  change (join_dot (x :: y :: l)) with ((x ++ "." ++ join_dot (y :: l))%string).
  rewrite !append_assoc. reflexivity.
Qed.
Lemma below_iff k k' : below k k' <-> strictly_under (split_dot k) (split_dot k').
Proof.
  split.
  - intros (r & ->). rewrite split_app. destruct (split_dot r) as [|a s] eqn:E; [exfalso; exact (split_ne r E)|].
    exists a, s. reflexivity.
  - intros (a & s & E). exists (join_dot (a :: s)).
    rewrite <- (join_split k'), E, join_app by apply split_ne. rewrite join_split. reflexivity.
Qed.
Lemma under_strict p q : under p q <-> p = q \/ strictly_under p q.
Proof.
  split.
  - intros ([|a r] & ->); [left; rewrite app_nil_r; reflexivity|right; exists a, r; reflexivity].
  - intros [<-|(a & r & ->)]; [exists []; rewrite app_nil_r; reflexivity|exists (a :: r); reflexivity].
Qed.
Lemma apart_iff k k' : apart k k' <-> unrelated (split_dot k) (split_dot k').
Proof.
  unfold apart, unrelated. rewrite !below_iff, !under_strict. split.
  - intros (H1 & H2 & H3). split; intros [E|E]; try contradiction; apply H1; apply split_inj; congruence.
  - intros [H1 H2]. split; [intros ->; apply H1; auto|]. split; intros H; [apply H1|apply H2]; auto.
Qed.
(** Recursing on key.split(".", 1) visits the segments of key.split("."). *)
Lemma split1_split s :
  split_dot s = match split1 s with (a, None) => [a] | (a, Some r) => a :: split_dot r end.
Proof.
  induction s as [|c r IH]; [reflexivity|]. cbn [split_dot split1].
  destruct (Ascii.eqb c "."); [reflexivity|].
  rewrite IH. destruct (split1 r) as [a [b|]]; reflexivity.
Qed.

(** ** Tree nodes *)
Section N.
Context {V : Type}.
Implicit Types (d : list (string * node V)) (n : node V).

Fixpoint node_at n (p : list string) : option (node V) :=
  match p with
  | [] => Some n
  | k :: r => match n with
              | Branch d => match dget d k with Some m => node_at m r | None => None end
              | Leaf _ => None
              end
  end.

Lemma dget_dset d k n k' : dget (dset d k n) k' = if String.eqb k k' then Some n else dget d k'.
Proof.
  induction d as [|[a m] d IH]; cbn.
  - rewrite String.eqb_sym. reflexivity.
  - destruct (String.eqb_spec k a) as [->|Hne]; cbn.
    + rewrite (String.eqb_sym k' a). destruct (String.eqb_spec a k') as [->|H]; [reflexivity|].
      reflexivity.
    + destruct (String.eqb_spec k' a) as [->|H]; [|exact IH].
      destruct (String.eqb_spec k a); [contradiction|reflexivity].
Qed.
Lemma dset_same d k n : dget d k = Some n -> dset d k n = d.
Proof.
  induction d as [|[a m] d IH]; cbn; [discriminate|].
  destruct (String.eqb_spec k a) as [->|Hne]; [intros [= ->]; reflexivity|].
  intros H. rewrite IH by exact H. reflexivity.
Qed.
Lemma node_at_dset d k n k' q : node_at (Branch (dset d k n)) (k' :: q)
  = if String.eqb k k' then node_at n q else node_at (Branch d) (k' :: q).
Proof. cbn. rewrite dget_dset. destruct (String.eqb k k'); reflexivity. Qed.
Lemma node_at_nil k q : node_at (Branch ([] : list (string * node V))) (k :: q) = None.
Proof. reflexivity. Qed.
Lemma node_at_sub d k q : q <> [] ->
  node_at (Branch (md_sub d k)) q = node_at (Branch d) (k :: q).
Proof.
  intros Hq. unfold md_sub. cbn [node_at].
  destruct q as [|a q]; [contradiction|].
  destruct (dget d k) as [[v|d0]|]; reflexivity.
Qed.
Lemma node_at_app n p q : node_at n (p ++ q) = match node_at n p with Some m => node_at m q | None => None end.
Proof.
  revert n. induction p as [|k p IH]; intros n; cbn; [reflexivity|].
  destruct n as [v|d]; [reflexivity|]. destruct (dget d k); [apply IH|reflexivity].
Qed.

(** Path relations. *)
Lemma under_refl p : under p p. Proof. exists []. rewrite app_nil_r. reflexivity. Qed.
Lemma strictly_under_cons k p q : strictly_under (k :: p) (k :: q) <-> strictly_under p q.
Proof.
  split; intros (a & r & E); exists a, r; cbn in *; [injection E as ->; reflexivity|rewrite E; reflexivity].
Qed.
Lemma under_cons k p q : under (k :: p) (k :: q) <-> under p q.
Proof. split; intros (r & E); exists r; cbn in *; [injection E as ->; reflexivity|rewrite E; reflexivity]. Qed.
Lemma under_cons_ne k k' p q : k <> k' -> ~ under (k :: p) (k' :: q).
Proof. intros Hne (r & E). cbn in E. injection E as E _. congruence. Qed.
Lemma under_nil q : under [] q. Proof. exists q. reflexivity. Qed.
Lemma under_to_nil p : under p [] -> p = [].
Proof. intros (r & E). symmetry in E. apply app_eq_nil in E. tauto. Qed.
Lemma strictly_under_nil q : strictly_under [] q <-> q <> [].
Proof.
  split; [intros (a & r & ->); discriminate|]. destruct q as [|a r]; [contradiction|].
  intros _. exists a, r. reflexivity.
Qed.
Lemma unrelated_cons k p q : unrelated (k :: p) (k :: q) <-> unrelated p q.
Proof. unfold unrelated. rewrite !under_cons. tauto. Qed.

Lemma path_cases p q : under p q \/ strictly_under q p \/ unrelated p q.
Proof.
  revert q. induction p as [|k p IH]; intros q; [left; apply under_nil|].
  destruct q as [|k' q]; [right; left; apply strictly_under_nil; discriminate|].
  destruct (String.string_dec k k') as [->|Hne].
  - rewrite under_cons, strictly_under_cons, unrelated_cons. apply IH.
  - right; right. split; apply under_cons_ne; congruence.
Qed.

(** ** MD_dict *)
Lemma md_set_spec d p v : p <> [] ->
  node_at (Branch (md_set d p v)) p = Some (Leaf v) /\
  (forall q, strictly_under p q -> node_at (Branch (md_set d p v)) q = None) /\
  (forall q, strictly_under q p -> exists d', node_at (Branch (md_set d p v)) q = Some (Branch d')) /\
  (forall q, unrelated p q -> node_at (Branch (md_set d p v)) q = node_at (Branch d) q).
Proof.
  revert d. induction p as [|k p IH]; intros d Hne; [contradiction|]. clear Hne.
  destruct p as [|k2 p].
  - cbn [md_set]. repeat split.
    + rewrite node_at_dset, String.eqb_refl. reflexivity.
    + intros q (a & r & ->). cbn [app]. rewrite node_at_dset, String.eqb_refl. reflexivity.
    + intros q (a & r & E). destruct q as [|b q]; [cbn; eauto|]. cbn in E. injection E as -> E.
      destruct q; discriminate.
    + intros q [H1 H2]. destruct q as [|k' q]; [exfalso; apply H2, under_nil|].
      rewrite node_at_dset. destruct (String.eqb_spec k k') as [->|Hne]; [|reflexivity].
      exfalso. apply H1. apply under_cons, under_nil.
  - specialize (IH (md_sub d k) ltac:(discriminate)) as (I1 & I2 & I3 & I4).
    change (md_set d (k :: k2 :: p) v) with (dset d k (Branch (md_set (md_sub d k) (k2 :: p) v))).
    remember (k2 :: p) as r eqn:Er. repeat split.
    + rewrite node_at_dset, String.eqb_refl. exact I1.
    + intros q (a & s & ->). cbn [app]. rewrite node_at_dset, String.eqb_refl. apply I2. exists a, s. reflexivity.
    + intros q Hq. destruct q as [|k' q]; [cbn; eauto|].
      destruct (String.string_dec k' k) as [->|Hne].
      * rewrite node_at_dset, String.eqb_refl. apply I3. apply (proj1 (strictly_under_cons k q r)). exact Hq.
      * destruct Hq as (a & s & E). cbn in E. injection E as E _. congruence.
    + intros q Hq. destruct q as [|k' q]; [exfalso; apply (proj2 Hq), under_nil|].
      rewrite node_at_dset. destruct (String.eqb_spec k k') as [->|Hne]; [|reflexivity].
      apply unrelated_cons in Hq. rewrite I4 by exact Hq. apply node_at_sub.
      intros ->. apply (proj2 Hq), under_nil.
Qed.

Lemma md_get_res d p : p <> [] -> snd (md_get d p) = node_at (Branch d) p.
Proof.
  revert d. induction p as [|k p IH]; intros d Hne; [contradiction|]. clear Hne.
  destruct p as [|k2 p]; [cbn; destruct (dget d k); reflexivity|].
  change (md_get d (k :: k2 :: p)) with
    (let '(d', res) := md_get (md_sub d k) (k2 :: p) in (dset d k (Branch d'), res)).
  specialize (IH (md_sub d k) ltac:(discriminate)).
  destruct (md_get (md_sub d k) (k2 :: p)) as [d' res]. cbn [snd] in *. rewrite IH.
  apply node_at_sub. discriminate.
Qed.
(** After a read: strict prefixes are branches, everything else is as before. *)
Lemma md_get_state d p : p <> [] ->
  (forall q, strictly_under q p -> exists d', node_at (Branch (fst (md_get d p))) q = Some (Branch d')) /\
  (forall q, ~ strictly_under q p -> node_at (Branch (fst (md_get d p))) q = node_at (Branch d) q).
Proof.
  revert d. induction p as [|k p IH]; intros d Hne; [contradiction|]. clear Hne.
  destruct p as [|k2 p].
  - cbn [md_get fst]. split; [|reflexivity].
    intros q (a & r & E). destruct q as [|b q]; [cbn; eauto|]. cbn in E. injection E as -> E.
    destruct q; discriminate.
  - specialize (IH (md_sub d k) ltac:(discriminate)) as (I1 & I2).
    change (md_get d (k :: k2 :: p)) with
      (let '(d', res) := md_get (md_sub d k) (k2 :: p) in (dset d k (Branch d'), res)).
    destruct (md_get (md_sub d k) (k2 :: p)) as [d' res]. cbn [fst] in *.
    remember (k2 :: p) as r eqn:Er. split.
    + intros q Hq. destruct q as [|k' q]; [cbn; eauto|].
      destruct (String.string_dec k' k) as [->|Hne].
      * rewrite node_at_dset, String.eqb_refl. apply I1. apply (proj1 (strictly_under_cons k q r)). exact Hq.
      * destruct Hq as (a & s & E). cbn in E. injection E as E _. congruence.
    + intros q Hq. destruct q as [|k' q]; [exfalso; apply Hq; apply strictly_under_nil; discriminate|].
      rewrite node_at_dset. destruct (String.eqb_spec k k') as [->|Hne]; [|reflexivity].
      rewrite strictly_under_cons in Hq. rewrite I2 by exact Hq. apply node_at_sub.
      intros ->. apply Hq. apply strictly_under_nil. subst r; discriminate.
Qed.

(** ** Deletion (shared shape) *)
Lemma md_rc_del d p : md_del d p = rc_del d p.
Proof.
  reflexivity.
Qed.

(** ** Well-formed trees: unique, dot-free keys. *)
Inductive wfn : node V -> Prop :=
| wf_leaf v : wfn (Leaf v)
| wf_branch d : NoDup (map fst d) -> (forall k m, In (k, m) d -> no_dot k /\ wfn m) -> wfn (Branch d).
Notation wfd d := (wfn (Branch d)).

Lemma dget_In d k n : dget d k = Some n -> In (k, n) d.
Proof.
  induction d as [|[a m] d IH]; cbn; [discriminate|].
  destruct (String.eqb_spec k a) as [->|Hne]; [intros [= ->]; auto|auto].
Qed.
Lemma In_dget d k n : NoDup (map fst d) -> In (k, n) d -> dget d k = Some n.
Proof.
  induction d as [|[a m] d IH]; cbn; [tauto|]. intros Hnd Hin. inversion_clear Hnd.
  destruct Hin as [[= -> ->]|Hin]; [rewrite String.eqb_refl; reflexivity|].
  destruct (String.eqb_spec k a) as [->|Hne]; [|auto].
  exfalso. apply H. apply (in_map fst) in Hin. exact Hin.
Qed.
Lemma dget_None d k : dget d k = None <-> ~ In k (map fst d).
Proof.
  induction d as [|[a m] d IH]; cbn; [tauto|].
  destruct (String.eqb_spec k a) as [->|Hne]; [split; [discriminate|tauto]|].
  rewrite IH. intuition.
Qed.
Lemma dset_keys d k n k' : In k' (map fst (dset d k n)) <-> k' = k \/ In k' (map fst d).
Proof.
  induction d as [|[a m] d IH]; cbn; [intuition|].
  destruct (String.eqb_spec k a) as [->|Hne]; cbn; [intuition|]. rewrite IH. intuition.
Qed.
Lemma dset_wf d k n : wfd d -> no_dot k -> wfn n -> wfd (dset d k n).
Proof.
  intros H Hk Hn. inversion_clear H as [|? Hnd Hall]. constructor.
  - clear Hall. induction d as [|[a m] d IH]; cbn; [repeat constructor; auto|].
    inversion_clear Hnd. destruct (String.eqb_spec k a) as [->|Hne]; cbn; constructor; auto.
    rewrite dset_keys. intros [E|E]; [congruence|contradiction].
  - clear Hnd. intros k' m. induction d as [|[a m'] d IH]; cbn.
    + intros [[= <- <-]|[]]; auto.
    + destruct (String.eqb_spec k a) as [->|Hne]; cbn.
      * intros [[= <- <-]|H]; [split; [exact Hk|exact Hn]|apply Hall; right; exact H].
      * intros [[= <- <-]|H]; [apply Hall; left; reflexivity|].
        apply IH; [|exact H]. intros; apply Hall; right; assumption.
Qed.
Lemma ddel_In d k x : In x (ddel d k) -> In x d.
Proof.
  induction d as [|[a m] d IH]; cbn; [auto|]. destruct (String.eqb k a); cbn; [auto|]. intuition.
Qed.
Lemma ddel_wf d k : wfd d -> wfd (ddel d k).
Proof.
  intros H. inversion_clear H as [|? Hnd Hall]. constructor.
  - clear Hall. induction d as [|[a m] d IH]; cbn; [constructor|]. inversion_clear Hnd.
    destruct (String.eqb k a); cbn; [assumption|]. constructor; [|auto].
    intros Hin. apply H. apply in_map_iff in Hin as (x & <- & Hx). apply in_map. eapply ddel_In; exact Hx.
  - intros k' m Hin. apply Hall. eapply ddel_In; exact Hin.
Qed.
Lemma dget_ddel d k k' : NoDup (map fst d) ->
  dget (ddel d k) k' = if String.eqb k k' then None else dget d k'.
Proof.
  induction d as [|[a m] d IH]; cbn; intros Hnd.
  - destruct (String.eqb k k'); reflexivity.
  - inversion_clear Hnd. destruct (String.eqb_spec k a) as [->|Hne].
    + destruct (String.eqb_spec a k') as [->|Hne'].
      * apply dget_None. exact H.
      * destruct (String.eqb_spec k' a); [congruence|reflexivity].
    + cbn. destruct (String.eqb_spec k' a) as [->|Hne'].
      * destruct (String.eqb_spec k a); [contradiction|reflexivity].
      * apply IH. assumption.
Qed.
Lemma wf_nil : wfd []. Proof. constructor; [constructor|intros ? ? []]. Qed.
Lemma wf_sub d k m : wfd d -> dget d k = Some m -> wfn m /\ no_dot k.
Proof. intros H E. inversion_clear H as [|? Hnd Hall]. apply dget_In in E. apply Hall in E. tauto. Qed.
Lemma md_sub_wf d k : wfd d -> wfd (md_sub d k).
Proof.
  intros H. unfold md_sub. destruct (dget d k) as [[v|d0]|] eqn:E; try apply wf_nil.
  eapply wf_sub in E; [|exact H]. tauto.
Qed.

Definition nodots (p : list string) : Prop := forall x, In x p -> no_dot x.
Lemma nodots_cons k p : nodots (k :: p) -> no_dot k /\ nodots p.
Proof. intros H. split; [apply H; left; reflexivity|intros x Hx; apply H; right; exact Hx]. Qed.

Lemma md_set_wf d p v : nodots p -> wfd d -> wfd (md_set d p v).
Proof.
  revert d. induction p as [|k p IH]; intros d Hp Hd; [exact Hd|].
  apply nodots_cons in Hp as [Hk Hp]. destruct p as [|k2 p].
  - apply dset_wf; [exact Hd|exact Hk|constructor].
  - change (wfd (dset d k (Branch (md_set (md_sub d k) (k2 :: p) v)))).
    apply dset_wf; [exact Hd|exact Hk|]. apply IH; [exact Hp|]. apply md_sub_wf; exact Hd.
Qed.
Lemma md_get_wf d p : nodots p -> wfd d -> wfd (fst (md_get d p)).
Proof.
  revert d. induction p as [|k p IH]; intros d Hp Hd; [exact Hd|].
  apply nodots_cons in Hp as [Hk Hp]. destruct p as [|k2 p]; [exact Hd|].
  change (md_get d (k :: k2 :: p)) with
      (let '(d', res) := md_get (md_sub d k) (k2 :: p) in (dset d k (Branch d'), res)).
  specialize (IH (md_sub d k) Hp (md_sub_wf _ _ Hd)).
  destruct (md_get (md_sub d k) (k2 :: p)) as [d' res]. cbn [fst] in *.
  apply dset_wf; assumption.
Qed.

(** ** RCParamDict *)
Definition blocked d p := exists q v, strictly_under q p /\ node_at (Branch d) q = Some (Leaf v).

Lemma rc_set_spec d p v : p <> [] ->
  (rc_set d p v = (md_set d p v, None) /\ ~ blocked d p) \/
  (rc_set d p v = (d, Some KeyErr) /\ blocked d p).
Proof.
  revert d. induction p as [|k p IH]; intros d Hne; [contradiction|]. clear Hne.
  destruct p as [|k2 p].
  - left. split; [reflexivity|]. intros (q & w & (a & r & E) & Hq).
    destruct q as [|b q]; [discriminate|]. cbn in E. injection E as _ E. destruct q; discriminate.
  - assert (Hb : forall d0, dget d k = Some (Branch d0) ->
       blocked d (k :: k2 :: p) <-> blocked d0 (k2 :: p)).
    { intros d0 E0. split.
      - intros (q & w & Hq & Hn). destruct q as [|b q]; [discriminate|].
        destruct Hq as (a & r & E). cbn in E. injection E as <- E.
        cbn in Hn. rewrite E0 in Hn. exists q, w. split; [exists a, r; exact E|exact Hn].
      - intros (q & w & Hq & Hn). exists (k :: q), w. split; [apply strictly_under_cons; exact Hq|].
        cbn. rewrite E0. exact Hn. }
    cbn [rc_set]. change (match p with [] => _ | _ => _ end) with (rc_set [] (k2 :: p) v) || idtac.
    change (md_set d (k :: k2 :: p) v) with (dset d k (Branch (md_set (md_sub d k) (k2 :: p) v))).
    destruct (dget d k) as [[w|d0]|] eqn:E0.
    + right. split; [reflexivity|]. exists [k], w. split; [exists k2, p; reflexivity|].
      cbn. rewrite E0. reflexivity.
    + assert (Es : md_sub d k = d0) by (unfold md_sub; rewrite E0; reflexivity). rewrite Es.
      destruct (IH d0 ltac:(discriminate)) as [[E H]|[E H]]; cbn [rc_set] in E; rewrite E.
      * left. split; [reflexivity|]. rewrite (Hb d0 eq_refl). exact H.
      * right. split; [|apply (Hb d0 eq_refl); exact H]. rewrite dset_same by exact E0. reflexivity.
    + assert (Es : md_sub d k = []) by (unfold md_sub; rewrite E0; reflexivity). rewrite Es.
      destruct (IH [] ltac:(discriminate)) as [[E H]|[E H]]; cbn [rc_set] in E; rewrite E.
      * left. split; [reflexivity|]. intros (q & w & Hq & Hn).
        destruct q as [|b q]; [discriminate|].
        destruct Hq as (a & r & E'). cbn in E'. injection E' as <- E'. cbn in Hn. rewrite E0 in Hn. discriminate.
      * destruct H as (q & w & Hq & Hn). destruct q as [|b q]; [discriminate|discriminate].
Qed.

Lemma rc_get_spec d p : p <> [] ->
  match rc_get d p with
  | inl n => node_at (Branch d) p = Some n
  | inr TypeErr => blocked d p /\ node_at (Branch d) p = None
  | inr KeyErr => ~ blocked d p /\ node_at (Branch d) p = None
  | inr _ => False
  end.
Proof.
  revert d. induction p as [|k p IH]; intros d Hne; [contradiction|]. clear Hne.
  destruct p as [|k2 p].
  - cbn. destruct (dget d k) as [n|]; [reflexivity|]. split; [|reflexivity].
    intros (q & w & (a & r & E) & Hq).
    destruct q as [|b q]; [discriminate|]. cbn in E. injection E as _ E. destruct q; discriminate.
  - change (rc_get d (k :: k2 :: p)) with (match dget d k with
      | None => inr KeyErr | Some (Branch d0) => rc_get d0 (k2 :: p) | Some (Leaf _) => inr TypeErr end).
    change (node_at (Branch d) (k :: k2 :: p)) with
      (match dget d k with Some m => node_at m (k2 :: p) | None => None end).
    destruct (dget d k) as [[w|d0]|] eqn:E0.
    + split; [|reflexivity]. exists [k], w. split; [exists k2, p; reflexivity|]. cbn. rewrite E0. reflexivity.
    + assert (Hb : blocked d (k :: k2 :: p) <-> blocked d0 (k2 :: p)).
      { split.
        - intros (q & w & Hq & Hn). destruct q as [|b q]; [discriminate|].
          destruct Hq as (a & r & E). cbn in E. injection E as <- E.
          cbn in Hn. rewrite E0 in Hn. exists q, w. split; [exists a, r; exact E|exact Hn].
        - intros (q & w & Hq & Hn). exists (k :: q), w. split; [apply strictly_under_cons; exact Hq|].
          cbn. rewrite E0. exact Hn. }
      specialize (IH d0 ltac:(discriminate)). destruct (rc_get d0 (k2 :: p)) as [n|[]]; rewrite ?Hb; exact IH.
    + split; [|reflexivity]. intros (q & w & Hq & Hn).
      destruct q as [|b q]; [discriminate|].
      destruct Hq as (a & r & E'). cbn in E'. injection E' as <- E'. cbn in Hn. rewrite E0 in Hn. discriminate.
Qed.

Lemma rc_del_spec d p : wfd d -> p <> [] -> nodots p ->
  let '(d', e) := rc_del d p in
  match e with
  | None => wfd d' /\ (exists n, node_at (Branch d) p = Some n) /\ node_at (Branch d') p = None /\
      (forall q, ~ under p q -> ~ strictly_under q p -> node_at (Branch d') q = node_at (Branch d) q) /\
      (forall q, strictly_under q p -> exists d0 d1, node_at (Branch d) q = Some (Branch d0)
         /\ node_at (Branch d') q = Some (Branch d1))
  | Some er => d' = d /\ node_at (Branch d) p = None /\
      (er = KeyErr /\ ~ blocked d p \/ er = AttrErr /\ blocked d p)
  end.
Proof.
  revert d. induction p as [|k p IH]; intros d Hd Hne Hp; [contradiction|]. clear Hne.
  apply nodots_cons in Hp as [Hk Hp].
  destruct p as [|k2 p].
  - cbn [rc_del]. inversion Hd as [|? Hnd Hall]; subst.
    assert (Hs : forall q, strictly_under q [k] -> q = []).
    { intros q (a & r & E). destruct q as [|b q]; [reflexivity|]. cbn in E. injection E as _ E. destruct q; discriminate. }
    destruct (dget d k) as [n|] eqn:E0.
    + split; [apply ddel_wf; exact Hd|]. split; [exists n; cbn; rewrite E0; reflexivity|].
      split; [cbn; rewrite dget_ddel, String.eqb_refl by exact Hnd; reflexivity|]. split.
      * intros q H1 H2. destruct q as [|k' q]; [exfalso; apply H2; apply strictly_under_nil; discriminate|].
        cbn. rewrite dget_ddel by exact Hnd. destruct (String.eqb_spec k k') as [->|_]; [|reflexivity].
        exfalso. apply H1. apply under_cons, under_nil.
      * intros q Hq. rewrite (Hs q Hq). cbn. eauto.
    + split; [reflexivity|]. split; [cbn; rewrite E0; reflexivity|]. left. split; [reflexivity|].
      intros (q & w & Hq & Hn). rewrite (Hs q Hq) in Hn. discriminate.
  - change (rc_del d (k :: k2 :: p)) with (match dget d k with
      | None => (d, Some KeyErr)
      | Some (Branch d0) => let '(d', e) := rc_del d0 (k2 :: p) in (dset d k (Branch d'), e)
      | Some (Leaf _) => (d, Some AttrErr) end).
    change (node_at (Branch d) (k :: k2 :: p)) with
      (match dget d k with Some m => node_at m (k2 :: p) | None => None end).
    destruct (dget d k) as [[w|d0]|] eqn:E0.
    + split; [reflexivity|]. split; [reflexivity|]. right. split; [reflexivity|].
      exists [k], w. split; [exists k2, p; reflexivity|]. cbn. rewrite E0. reflexivity.
    + assert (Hb : blocked d (k :: k2 :: p) <-> blocked d0 (k2 :: p)).
      { split.
        - intros (q & w & Hq & Hn). destruct q as [|b q]; [discriminate|].
          destruct Hq as (a & r & E). cbn in E. injection E as <- E.
          cbn in Hn. rewrite E0 in Hn. exists q, w. split; [exists a, r; exact E|exact Hn].
        - intros (q & w & Hq & Hn). exists (k :: q), w. split; [apply strictly_under_cons; exact Hq|].
          cbn. rewrite E0. exact Hn. }
      assert (Hd0 : wfd d0) by (eapply wf_sub in E0; [|exact Hd]; tauto).
      specialize (IH d0 Hd0 ltac:(discriminate) Hp).
      destruct (rc_del d0 (k2 :: p)) as [d' [er|]].
      * destruct IH as (-> & H1 & H2). rewrite Hb. split; [apply dset_same; exact E0|auto].
      * destruct IH as (Hw & Hn & Hz & Ho & Hs). split; [apply dset_wf; assumption|].
        split; [exact Hn|]. split; [rewrite node_at_dset, String.eqb_refl; exact Hz|].
        remember (k2 :: p) as r eqn:Er. split.
        -- intros q H1 H2. destruct q as [|k' q]; [exfalso; apply H2; apply strictly_under_nil; discriminate|].
           rewrite node_at_dset. destruct (String.eqb_spec k k') as [->|_]; [|reflexivity].
           rewrite under_cons in H1. rewrite strictly_under_cons in H2.
           rewrite Ho by assumption. cbn. rewrite E0. reflexivity.
        -- intros q Hq. destruct q as [|k' q]; [cbn; eauto|].
           destruct (String.string_dec k' k) as [->|Hne].
           ++ apply (proj1 (strictly_under_cons _ _ _)) in Hq. rewrite node_at_dset, String.eqb_refl.
              destruct (Hs q Hq) as (a & b & Ha & Hb'). exists a, b. split; [|exact Hb']. cbn. rewrite E0. exact Ha.
           ++ destruct Hq as (a & s & E). cbn in E. injection E as E _. congruence.
    + split; [reflexivity|]. split; [reflexivity|]. left. split; [reflexivity|]. intros (q & w & Hq & Hn).
      destruct q as [|b q]; [discriminate|].
      destruct Hq as (a & r & E'). cbn in E'. injection E' as <- E'. cbn in Hn. rewrite E0 in Hn. discriminate.
Qed.

(** ** Iteration *)
Fixpoint node_ind' (P : node V -> Prop) (HL : forall v, P (Leaf v))
   (HB : forall d, Forall (fun kn => P (snd kn)) d -> P (Branch d)) (n : node V) {struct n} : P n :=
  match n with
  | Leaf v => HL v
  | Branch d => HB d ((fix go (d : list (string * node V)) : Forall (fun kn => P (snd kn)) d :=
      match d with
      | [] => Forall_nil _
      | (k, m) :: r => @Forall_cons (string * node V) (fun kn => P (snd kn)) (k, m) r (node_ind' P HL HB m) (go r)
      end) d)
  end.

Lemma leaf_paths_In n : wfn n -> forall p, In p (leaf_paths n) <-> exists v, node_at n p = Some (Leaf v).
Proof.
  induction n as [v|d IH] using node_ind'; intros Hw p.
  - cbn. split; [intros [<-|[]]; exists v; reflexivity|].
    intros (w & E). destruct p; [auto|discriminate].
  - inversion_clear Hw as [|? Hnd Hall]. cbn [leaf_paths]. rewrite in_flat_map. split.
    + intros ([k m] & Hin & Hp). apply in_map_iff in Hp as (r & <- & Hr).
      rewrite Forall_forall in IH. apply (IH (k, m) Hin) in Hr; [|apply (Hall k m Hin)].
      cbn. rewrite (In_dget d k m Hnd Hin). exact Hr.
    + intros (v & E). destruct p as [|k r]; [discriminate|]. cbn in E.
      destruct (dget d k) as [m|] eqn:Eg; [|discriminate]. apply dget_In in Eg.
      exists (k, m). split; [exact Eg|]. apply in_map. rewrite Forall_forall in IH.
      apply (IH (k, m) Eg); [apply (Hall k m Eg)|]. exists v. exact E.
Qed.
Lemma leaf_paths_NoDup n : wfn n -> NoDup (leaf_paths n).
Proof.
  induction n as [v|d IH] using node_ind'; intros Hw.
  - cbn. repeat constructor. auto.
  - inversion_clear Hw as [|? Hnd Hall]. cbn [leaf_paths].
    induction d as [|[k m] d IHd]; cbn; [constructor|].
    inversion_clear IH. inversion_clear Hnd. cbn [snd] in *.
    assert (Hm : NoDup (map (cons k) (leaf_paths m))).
    { apply Injective_map_NoDup; [intros a b [= E]; exact E|]. apply H. apply (Hall k m). left; reflexivity. }
    specialize (IHd H0 H2 (fun k' m' Hin => Hall k' m' (or_intror Hin))).
    assert (Hk : forall p, In p (map (cons k) (leaf_paths m)) -> exists r, p = k :: r).
    { intros p Hp. apply in_map_iff in Hp as (r & <- & _). eauto. }
    revert Hm Hk. generalize (map (cons k) (leaf_paths m)). intros l Hm Hk.
    induction Hm as [|p l Hp Hm IHl]; cbn; [exact IHd|]. constructor.
    + rewrite in_app_iff. intros [?|Hq]; [contradiction|].
      destruct (Hk p (or_introl eq_refl)) as (r & ->).
      apply in_flat_map in Hq as ([k' m'] & Hin & Hq'). apply in_map_iff in Hq' as (r' & [= -> _] & _).
      apply H1. apply (in_map fst) in Hin. exact Hin.
    + apply IHl. intros q Hq. apply Hk. right; exact Hq.
Qed.
Lemma leaf_paths_nodots n : wfn n -> forall p, In p (leaf_paths n) -> nodots p.
Proof.
  induction n as [v|d IH] using node_ind'; intros Hw p.
  - intros [<-|[]] x [].
  - inversion_clear Hw as [|? Hnd Hall]. cbn [leaf_paths]. rewrite in_flat_map.
    intros ([k m] & Hin & Hp). apply in_map_iff in Hp as (r & <- & Hr).
    rewrite Forall_forall in IH. destruct (Hall k m Hin) as [Hk Hm].
    intros x [<-|Hx]; [exact Hk|]. exact (IH (k, m) Hin Hm r Hr x Hx).
Qed.
Lemma leaf_paths_ne d p : In p (leaf_paths (Branch d)) -> p <> [].
Proof.
  cbn [leaf_paths]. rewrite in_flat_map. intros ([k m] & _ & Hp). apply in_map_iff in Hp as (r & <- & _). discriminate.
Qed.
Lemma iter_keys_spec d : wfd d -> NoDup (iter_keys d) /\
  forall key, In key (iter_keys d) <-> exists v, node_at (Branch d) (split_dot key) = Some (Leaf v).
Proof.
  intros Hw. unfold iter_keys. split.
  - assert (H : forall l, NoDup l -> (forall p, In p l -> p <> [] /\ nodots p) -> NoDup (map join_dot l)).
    { induction 1 as [|p l Hp Hl IH]; intros Hall; cbn; constructor.
      - rewrite in_map_iff. intros (q & E & Hq). apply Hp.
        destruct (Hall p (or_introl eq_refl)) as [P1 P2]. destruct (Hall q (or_intror Hq)) as [Q1 Q2].
        rewrite <- (split_join p P1 P2), <- E, (split_join q Q1 Q2). exact Hq.
      - apply IH. intros q Hq. apply Hall. right; exact Hq. }
    apply H; [apply leaf_paths_NoDup; exact Hw|].
    intros p Hp. split; [eapply leaf_paths_ne; exact Hp|eapply leaf_paths_nodots; eauto].
  - intros key. rewrite in_map_iff. split.
    + intros (p & <- & Hp). rewrite split_join; [apply leaf_paths_In; assumption| |].
      * eapply leaf_paths_ne; exact Hp.
      * eapply leaf_paths_nodots; eauto.
    + intros E. exists (split_dot key). split; [apply join_split|]. apply leaf_paths_In; assumption.
Qed.
End N.
