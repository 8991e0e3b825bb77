(* Proofs for Defaults_Model.v *)
From Verif Require Import Common Xrf_Model Defaults_Model Defaults_Spec.

Lemma set_nth_ne {A} (l : list A) i j x : i <> j -> nth_error (set_nth l i x) j = nth_error l j.
Proof. intros H. unfold set_nth. destruct (upd l i x) as [l'|] eqn:E; [|reflexivity]. apply (upd_nth_ne _ _ _ _ _ E). congruence. Qed.
Lemma set_nth_eq {A} (l : list A) i x : i < length l -> nth_error (set_nth l i x) i = Some x.
Proof. intros H. unfold set_nth. destruct (upd_some l i x H) as [l' E]. rewrite E. apply (upd_nth_eq _ _ _ _ E). Qed.
Lemma set_nth_length {A} (l : list A) i x : length (set_nth l i x) = length l.
Proof. unfold set_nth. destruct (upd l i x) as [l'|] eqn:E; [|reflexivity]. apply (upd_length _ _ _ _ E). Qed.
Lemma nth_app_keep {A} (l : list A) i x y : nth_error l i = Some x -> nth_error (l ++ y) i = Some x.
Proof. intros H. rewrite nth_error_app1; [exact H|]. apply nth_error_Some. congruence. Qed.
Lemma write_other w r r' p q : r' <> r -> obj w r = Some p -> obj (write w r' q) r = Some p.
Proof. intros N H. destruct r', r as [|i0]; cbn in *; auto; try congruence. rewrite set_nth_ne; [exact H|congruence]. Qed.
Lemma write_self w r p q : obj w r = Some p -> obj (write w r q) r = Some q.
Proof. destruct r as [|i]; cbn; [reflexivity|]. intros H. apply set_nth_eq. apply nth_error_Some. congruence. Qed.
Lemma write_dicts w r q : dicts (write w r q) = dicts w. Proof. destruct r; reflexivity. Qed.
Lemma write_reg w r q : registered (write w r q) = registered w. Proof. destruct r; reflexivity. Qed.
Lemma write_ctrls w r q : ctrls (write w r q) = ctrls w. Proof. destruct r; reflexivity. Qed.

Section P.
Context (cs : string -> Qc -> string -> Qc).
Notation run := (run cs).
Notation step := (step cs).
Lemma run_cons w o ops : run w (o :: ops) = run (step w o) ops. Proof. reflexivity. Qed.
Lemma run_app w a b : run w (a ++ b) = run (run w a) b. Proof. apply fold_left_app. Qed.
Ltac cases o := destruct o as [r'|r' k e|r' nm ex|r' vs|r' els|j nm|j els kws|tb|j k b|key j ov]; cbn [Defaults_Model.step].

Lemma step_dict w o r p : obj w r = Some p -> ~ changes_dict r o -> obj (step w o) r = Some p.
Proof.
  intros H N. cases o; cbn in N; auto.
  - destruct (obj w r'); [|exact H]. destruct r as [|i]; cbn in *; [exact H|]. apply nth_app_keep, H.
  - destruct (obj w r'); [|exact H]. apply write_other; auto.
  - destruct (obj w r'); [|exact H]. destruct (set_parameter_bound _ _ _ _); [|exact H]. apply write_other; auto.
  - destruct (obj w r'); [|exact H]. apply write_other; auto.
  - destruct (obj w r'); [|exact H]. destruct (controller cs _ els) as [[c [|]]|]; destruct r; exact H.
  - destruct (nth_error (ctrls w) j); [|exact H]. destruct (set_strategy _ _ _); destruct r; exact H.
  - destruct (nth_error (ctrls w) j); destruct r; exact H.
  - destruct (nth_error (dicts w) j); destruct r; exact H.
Qed.
Lemma run_dict ops : forall w r p, obj w r = Some p -> Forall (fun o => ~ changes_dict r o) ops -> obj (run w ops) r = Some p.
Proof.
  induction ops as [|o ops IH]; intros w r p H F; [exact H|]. rewrite run_cons. inversion F; subst. apply IH; [|assumption]. apply step_dict; assumption.
Qed.
Lemma step_ctrl w o i c : nth_error (ctrls w) i = Some c -> ~ changes_ctrl i o -> nth_error (ctrls (step w o)) i = Some c.
Proof.
  intros H N. cases o; cbn in N; auto.
  - destruct (obj w r'); exact H.
  - destruct (obj w r'); rewrite ?write_ctrls; exact H.
  - destruct (obj w r'); [|exact H]. destruct (set_parameter_bound _ _ _ _); rewrite ?write_ctrls; exact H.
  - destruct (obj w r'); rewrite ?write_ctrls; exact H.
  - destruct (obj w r'); [|exact H]. destruct (controller cs _ els) as [[c' [|]]|]; try exact H. cbn. apply nth_app_keep, H.
  - destruct (nth_error (ctrls w) j); [|exact H]. destruct (set_strategy _ _ _); [|exact H]. cbn. rewrite set_nth_ne; auto.
  - destruct (nth_error (ctrls w) j); [|exact H]. cbn. rewrite set_nth_ne; auto.
  - destruct (nth_error (dicts w) j); exact H.
Qed.
Lemma run_ctrl ops : forall w i c, nth_error (ctrls w) i = Some c -> Forall (fun o => ~ changes_ctrl i o) ops -> nth_error (ctrls (run w ops)) i = Some c.
Proof.
  induction ops as [|o ops IH]; intros w i c H F; [exact H|]. rewrite run_cons. inversion F; subst. apply IH; [|assumption]. apply step_ctrl; assumption.
Qed.
Lemma step_strategy w o i t : nth_error (dicts w) i = Some t -> ~ changes_strategy i o -> nth_error (dicts (step w o)) i = Some t.
Proof.
  intros H N. cases o; cbn in N; auto.
  - destruct (obj w r'); exact H.
  - destruct (obj w r'); rewrite ?write_dicts; exact H.
  - destruct (obj w r'); [|exact H]. destruct (set_parameter_bound _ _ _ _); rewrite ?write_dicts; exact H.
  - destruct (obj w r'); rewrite ?write_dicts; exact H.
  - destruct (obj w r'); [|exact H]. destruct (controller cs _ els) as [[c' [|]]|]; exact H.
  - destruct (nth_error (ctrls w) j); [|exact H]. destruct (set_strategy _ _ _); exact H.
  - destruct (nth_error (ctrls w) j); exact H.
  - cbn. apply nth_app_keep, H.
  - cbn. destruct (nth_error (dicts w) j) eqn:E; [|exact H]. rewrite set_nth_ne; auto.
  - destruct (nth_error (dicts w) j); exact H.
Qed.

(** registry *)
Lemma aget_reg w name : aget (reg w) name = option_map (fun i => {| sid := i; table := nth i (dicts w) [] |}) (aget (registered w) name).
Proof. unfold reg. induction (registered w) as [|[k i] l IH]; [reflexivity|]. cbn. destruct (String.eqb name k); [reflexivity|exact IH]. Qed.
Lemma aget_map_bound (f : string -> entry -> entry) p k e : aget p k = Some e -> aget (map (fun kv => let '(k, v) := kv in (k, f k v)) p) k = Some (f k e).
Proof.
  induction p as [|[k' v] p IH]; cbn; [discriminate|]. destruct (String.eqb_spec k k') as [->|]; [intros H; injection H as ->; reflexivity|exact IH].
Qed.
Lemma bound_step w r p name i extra k e : obj w r = Some p -> aget (registered w) name = Some i -> aget p k = Some e -> k <> "non_fitting_values"%string ->
  exists p' e', obj (step w (Bound r name extra)) r = Some p' /\ aget p' k = Some e' /\ value e' = value e /\ pmin e' = pmin e /\ pmax e' = pmax e /\
    bound e' = match aget (nth i (dicts w) []) k with Some b => b | None => match aget extra k with Some b => b | None => "fixed"%string end end.
Proof.
  intros H R K N. cbn [Defaults_Model.step]. rewrite H. unfold set_parameter_bound. rewrite aget_reg, R. cbn [option_map table].
  set (f := fun k v => if String.eqb k "non_fitting_values" then v else with_bound (match aget (nth i (dicts w) []) k with Some b => b | None => match aget extra k with Some b => b | None => "fixed"%string end end) v).
  eexists. exists (f k e). split; [apply (write_self _ _ p _ H)|].
  assert (E : forall q : params_t, map (fun kv => let '(k0, v) := kv in if String.eqb k0 "non_fitting_values" then (k0, v) else
    (k0, with_bound (match aget (nth i (dicts w) []) k0 with Some b => b | None => match aget extra k0 with Some b => b | None => "fixed"%string end end) v)) q
    = map (fun kv => let '(k0, v) := kv in (k0, f k0 v)) q).
  { intros q. apply map_ext. intros [k0 v]. unfold f. destruct (String.eqb k0 "non_fitting_values"); reflexivity. }
  rewrite E. split; [apply aget_map_bound, K|]. unfold f. destruct (String.eqb_spec k "non_fitting_values"); [contradiction|]. cbn. auto.
Qed.

(** words *)
Definition good (p : params_t) : Prop := forall k e, In (k, e) p -> k <> "non_fitting_values"%string -> word (bound e).
Definition good_world (w : world) : Prop := good (shared w) /\ Forall good (copies w) /\ Forall good_dict (dicts w).
Lemma aget_In {A} (d : list (string * A)) k v : aget d k = Some v -> In (k, v) d.
Proof. induction d as [|[k' w] d IH]; cbn; [discriminate|]. destruct (String.eqb_spec k k') as [->|]; [intros H; injection H as ->; now left|right; auto]. Qed.
Lemma In_aset {A} (d : list (string * A)) k v k' v' : In (k', v') (aset d k v) -> In (k', v') d \/ v' = v.
Proof.
  induction d as [|[k0 w] d IH]; cbn; [intros [H|[]]; injection H; auto|]. destruct (String.eqb k k0); cbn.
  - intros [H|H]; [injection H; auto|auto].
  - intros [H|H]; [auto|]. destruct (IH H); auto.
Qed.
Lemma Forall_set_nth {A} (P : A -> Prop) l i x : Forall P l -> P x -> Forall P (set_nth l i x).
Proof.
  intros F X. unfold set_nth. destruct (upd l i x) as [l'|] eqn:E; [|exact F]. apply Forall_forall. intros y Hy. apply In_nth_error in Hy as [j Hj].
  destruct (Nat.eq_dec j i) as [->|N]; [rewrite (upd_nth_eq _ _ _ _ E) in Hj; congruence|]. rewrite (upd_nth_ne _ _ _ _ _ E N) in Hj. apply nth_error_In in Hj. rewrite Forall_forall in F. auto.
Qed.
Lemma good_obj w r p : good_world w -> obj w r = Some p -> good p.
Proof. intros (A & B & _) H. destruct r; cbn in H; [injection H as <-; exact A|]. apply nth_error_In in H. rewrite Forall_forall in B. auto. Qed.
Lemma good_write w r p : good_world w -> good p -> good_world (write w r p).
Proof. intros (A & B & C) G. destruct r; repeat split; auto. apply Forall_set_nth; assumption. Qed.
Lemma word_fixed : word "fixed". Proof. unfold word, bound_words. cbn. auto. Qed.
Lemma good_bound w r p name ex p' : good_world w -> good_dict ex -> obj w r = Some p -> set_parameter_bound (reg w) p name ex = inl p' -> good p'.
Proof.
  intros (A & B & C) X H. unfold set_parameter_bound. rewrite aget_reg. destruct (aget (registered w) name) as [i|]; [|discriminate]. cbn [option_map table].
  intros E. injection E as <-. intros k e I N. apply in_map_iff in I as ([k0 v] & I & J). destruct (String.eqb_spec k0 "non_fitting_values") as [->|N0]; injection I as <- <-; [contradiction|]. cbn [bound with_bound].
  assert (D : good_dict (nth i (dicts w) [])).
  { destruct (nth_in_or_default i (dicts w) []) as [Hd|Hd]; [rewrite Forall_forall in C; auto|rewrite Hd; intros ? ? []]. }
  destruct (aget (nth i (dicts w) []) k0) as [b|] eqn:E1; [apply aget_In in E1; eapply D; eassumption|].
  destruct (aget ex k0) as [b|] eqn:E2; [apply aget_In in E2; eapply X; eassumption|apply word_fixed].
Qed.
Lemma good_step w o : good_world w -> word_op o -> good_world (step w o).
Proof.
  intros G W. cases o; cbn in W; auto.
  - destruct (obj w r') as [p|] eqn:E; [|exact G]. destruct G as (A & B & C). repeat split; auto. apply Forall_app. split; [exact B|]. constructor; [|constructor]. apply (good_obj w r' p); [repeat split; auto|exact E].
  - destruct (obj w r') as [p|] eqn:E; [|exact G]. apply good_write; [exact G|]. intros k' e' I N. destruct (In_aset _ _ _ _ _ I) as [J| ->]; [|exact W]. apply (good_obj w r' p G E k' e' J N).
  - destruct (obj w r') as [p|] eqn:E; [|exact G]. destruct (set_parameter_bound (reg w) p nm ex) as [p'|] eqn:F; [|exact G]. apply good_write; [exact G|]. eapply good_bound; eassumption.
  - destruct (obj w r') as [p|] eqn:E; [|exact G]. apply good_write; [exact G|]. intros k e I N. unfold update_parameter_dict in I. apply in_map_iff in I as ([k0 v] & I & J).
    destruct (aget vs (fit_name k0)); injection I as <- <-; apply (good_obj w r' p G E k0 v J N).
  - destruct (obj w r') as [p|]; [|exact G]. destruct (controller cs p els) as [[c' [|]]|]; exact G.
  - destruct (nth_error (ctrls w) j); [|exact G]. destruct (set_strategy _ _ _); exact G.
  - destruct (nth_error (ctrls w) j); exact G.
  - destruct G as (A & B & C). repeat split; auto. cbn. apply Forall_app. split; [exact C|]. constructor; [exact W|constructor].
  - destruct G as (A & B & C). repeat split; auto. cbn. destruct (nth_error (dicts w) j) as [t|] eqn:E; [|exact C]. apply Forall_set_nth; [exact C|].
    intros k' b' I. destruct (In_aset _ _ _ _ _ I) as [J| ->]; [|exact W]. apply nth_error_In in E. rewrite Forall_forall in C. apply (C t E k' b' J).
  - destruct (nth_error (dicts w) j); exact G.
Qed.
Lemma good_run ops : forall w, good_world w -> Forall word_op ops -> good_world (run w ops).
Proof. induction ops as [|o ops IH]; intros w G F; [exact G|]. rewrite run_cons. inversion F; subst. apply IH; [apply good_step; assumption|assumption]. Qed.
End P.

Definition is_word (b : string) : bool := mem b bound_words.
Lemma is_word_ok b : is_word b = true -> word b.
Proof. unfold is_word, mem. intros H. apply existsb_exists in H as (x & I & E). apply String.eqb_eq in E. subst. exact I. Qed.
Lemma start_good : good_world start.
Proof.
  split; [|split; [constructor|]].
  - intros k e I N. cbn in I. repeat (destruct I as [I|I]; [injection I as <- <-; try (apply is_word_ok; reflexivity); now destruct N|]). destruct I.
  - cbn [start dicts]. repeat (apply Forall_cons || apply Forall_nil); intros k b I; cbn in I; repeat (destruct I as [I|I]; [injection I as <- <-; apply is_word_ok; reflexivity|]); destruct I.
Qed.
Lemma default_hint_ok e : (exists h, default_hint e = inl h) <-> In (bound e) bound_words.
Proof.
  unfold default_hint. split.
  - intros [h H]. repeat match type of H with context [String.eqb ?a ?b] => destruct (String.eqb_spec a b) as [E|]; [rewrite E; cbn; tauto|] end. discriminate.
  - intros H. cbn in H. repeat (destruct H as [<-|H]; [eexists; reflexivity|]). destruct H.
Qed.
Lemma default_hint_spec e h : default_hint e = inl h -> hint_spec e h.
Proof.
  unfold default_hint, hint_spec. destruct e as [v mn mx b]. cbn [bound value pmin pmax]. intros H.
  repeat match type of H with context [String.eqb ?a ?b] => destruct (String.eqb_spec a b) as [->|]; [injection H as <-; cbn; auto 10|] end. discriminate.
Qed.
Lemma set_default_ok p args : good p -> ~ In "non_fitting_values"%string args ->
  snd (set_default p args) = None /\ map fst (fst (set_default p args)) = filter (fun a => match aget p a with Some _ => true | None => false end) args /\
  forall a h, In (a, h) (fst (set_default p args)) -> exists e, aget p a = Some e /\ hint_spec e h.
Proof.
  intros G. induction args as [|a args IH]; intros N; [cbn; repeat split; intros ? ? []|]. destruct IH as (A & B & C); [intros I; apply N; now right|]. cbn [set_default filter].
  destruct (aget p a) as [e|] eqn:E; [|auto]. destruct (String.eqb_spec a "non_fitting_values") as [->|Ne]; [exfalso; apply N; now left|].
  destruct (proj2 (default_hint_ok e)) as [h Hh]; [apply (G a e); [apply aget_In, E|exact Ne]|]. rewrite Hh. destruct (set_default p args) as [hs x]. cbn in *. subst x.
  split; [reflexivity|]. split; [f_equal; exact B|]. intros a' h' [I|I]; [injection I as <- <-; exists e; split; [exact E|apply default_hint_spec, Hh]|apply C, I].
Qed.
