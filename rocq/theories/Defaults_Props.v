(* C116: the default fit parameters and the objects that share them. *)
From Verif Require Import Common Xrf_Model Defaults_Model Defaults_Spec Defaults_Proofs.
From Coq Require Import Lia.

(** The shipped table: distinct names, the limits in order with the value between them, a known word for the bound, and
    exactly the names every built-in strategy has a bound for. *)
Theorem C116_shipped :
  NoDup (map fst default_param) /\
  (forall k e, In (k, e) default_param -> k <> "non_fitting_values"%string ->
     (pmin e < pmax e)%Qc /\ (pmin e <= value e)%Qc /\ (value e <= pmax e)%Qc /\ In (bound e) bound_words) /\
  (forall name s, aget builtin name = Some s -> map fst (table s) = map fst default_param).
Proof.
  assert (L : forall a b, Qc_leb a b = true -> (a <= b)%Qc) by (intros a b; destruct (Qc_leb_spec a b); congruence).
  assert (S : forall a b, Qc_ltb a b = true -> (a < b)%Qc) by (intros a b; destruct (Qc_ltb_spec a b); congruence).
  split; [|split].
  - cbn. repeat (constructor; [cbn; intuition discriminate|]). constructor.
  - intros k e I N. cbn in I. repeat (destruct I as [I|I];
      [injection I as <- <-; first [now destruct N|split; [apply S; reflexivity|split; [apply L; reflexivity|split; [apply L; reflexivity|apply is_word_ok; reflexivity]]]]|]).
    destruct I.
  - intros name s. unfold builtin. cbn [aget]. repeat (match goal with |- context [String.eqb ?a ?b] => destruct (String.eqb a b); [intros H; injection H as <-; reflexivity|] end). discriminate.
Qed.
Print Assumptions C116_shipped.

(** At the start every built-in name stands for the strategy of that name. *)
Theorem C116_start name : option_map table (aget (reg start) name) = option_map table (aget builtin name).
Proof.
  unfold builtin, reg, start. cbn [registered dicts map fst snd aget nth].
  repeat (match goal with |- context [String.eqb ?a ?b] => destruct (String.eqb a b); [reflexivity|] end). reflexivity.
Qed.
Print Assumptions C116_start.
Example C116_start_ex : option_map table (aget (reg start) "linear"%string) = Some linear /\ linear <> adjust_element /\ adjust_element <> e_calibration.
Proof. split; [reflexivity|]. split; discriminate. Qed.

(** Dictionaries, controllers and strategies are changed only by statements given that very object: copies and controllers
    are independent of each other and of the defaults. *)
Theorem C116_isolated cs ops w :
  (forall r p, obj w r = Some p -> Forall (fun o => ~ changes_dict r o) ops -> obj (run cs w ops) r = Some p) /\
  (forall i c, nth_error (ctrls w) i = Some c -> Forall (fun o => ~ changes_ctrl i o) ops -> nth_error (ctrls (run cs w ops)) i = Some c).
Proof. split; [intros r p; apply run_dict|intros i c; apply run_ctrl]. Qed.
Print Assumptions C116_isolated.

(** So get_para() stays as shipped as long as only copies and controllers are changed ... *)
Theorem C116_copies_safe cs ops : Forall (fun o => ~ changes_dict get_para o) ops -> obj (run cs start ops) get_para = Some default_param.
Proof. intros F. apply (run_dict cs ops start Shared default_param); [reflexivity|exact F]. Qed.
Print Assumptions C116_copies_safe.
(** ... but get_para() is the table itself: a strategy applied to its result is what every later get_para() returns. *)
Theorem C116_leak_refuted cs w name i k e ops :
  aget (registered w) name = Some i -> aget (shared w) k = Some e -> k <> "non_fitting_values"%string -> Forall (fun o => ~ changes_dict get_para o) ops ->
  exists p e', obj (run cs w (Bound get_para name [] :: ops)) get_para = Some p /\ aget p k = Some e' /\
    bound e' = match aget (nth i (dicts w) []) k with Some b => b | None => "fixed"%string end.
Proof.
  intros R K N F. destruct (bound_step cs w Shared (shared w) name i [] k e eq_refl R K N) as (p & e' & A & B & _ & _ & _ & C).
  exists p, e'. split; [|split; [exact B|exact C]]. rewrite run_cons. apply run_dict; assumption.
Qed.
Print Assumptions C116_leak_refuted.
(** each built-in strategy changes some default this way, for every later use of the defaults *)
Theorem C116_leak_builtin_refuted cs name i ops : aget (registered start) name = Some i -> Forall (fun o => ~ changes_dict get_para o) ops ->
  exists p k e e', obj (run cs start (Bound get_para name [] :: ops)) get_para = Some p /\ aget default_param k = Some e /\ aget p k = Some e' /\ bound e' <> bound e.
Proof.
  intros R F. cbn in R.
  assert (X : forall k e b, aget (registered start) name = Some i -> aget default_param k = Some e -> k <> "non_fitting_values"%string ->
     match aget (nth i (dicts start) []) k with Some b => b | None => "fixed"%string end = b -> b <> bound e ->
     exists p k e e', obj (run cs start (Bound get_para name [] :: ops)) get_para = Some p /\ aget default_param k = Some e /\ aget p k = Some e' /\ bound e' <> bound e).
  { intros k e b R' K N Hb D. destruct (C116_leak_refuted cs start name i k e ops R' K N F) as (p & e' & A & B & C). exists p, k, e, e'. rewrite C, Hb. auto. }
  repeat match type of R with context [String.eqb ?a ?b] => destruct (String.eqb_spec a b) as [->|] end; try discriminate; injection R as <-;
    first [eapply (X "e_linear"%string); [reflexivity|reflexivity|discriminate|reflexivity|discriminate]
          |eapply (X "compton_angle"%string); [reflexivity|reflexivity|discriminate|reflexivity|discriminate]
          |eapply (X "compton_f_tail"%string); [reflexivity|reflexivity|discriminate|reflexivity|discriminate]
          |eapply (X "compton_f_step"%string); [reflexivity|reflexivity|discriminate|reflexivity|discriminate]].
Qed.
Print Assumptions C116_leak_builtin_refuted.

(** A registered strategy is the dictionary itself, not a snapshot: editing it afterwards changes what its name does. *)
Theorem C116_strategy_alias_refuted cs w key i k b r p e :
  (i < length (dicts w))%nat -> obj w r = Some p -> aget p k = Some e -> k <> "non_fitting_values"%string ->
  exists p' e', obj (run cs w [Register key i true; EditDict i k b; Bound r key []]) r = Some p' /\ aget p' k = Some e' /\ bound e' = b.
Proof.
  intros Hi H K N. set (w1 := run cs w [Register key i true]). set (w2 := run cs w1 [EditDict i k b]).
  assert (H2 : obj w2 r = Some p).
  { unfold w2. apply run_dict; [|repeat constructor; auto]. unfold w1. apply run_dict; [exact H|repeat constructor; auto]. }
  destruct (nth_error (dicts w) i) as [t|] eqn:T; [|apply nth_error_None in T; lia].
  assert (G : forall (d : list (string * nat)) x, aget (aset d key x) key = Some x).
  { intros d x. induction d as [|[k' v] d IH]; cbn; [rewrite String.eqb_refl; reflexivity|]. destruct (String.eqb key k') eqn:E; cbn; rewrite E; [reflexivity|exact IH]. }
  assert (G2 : forall (d : list (string * string)) x, aget (aset d k x) k = Some x).
  { intros d x. induction d as [|[k' v] d IH]; cbn; [rewrite String.eqb_refl; reflexivity|]. destruct (String.eqb k k') eqn:E; cbn; rewrite E; [reflexivity|exact IH]. }
  assert (M : forall (l : registry) s, map (fun p => (fst p, sid (snd p))) (aset l key s) = aset (map (fun p => (fst p, sid (snd p))) l) key (sid s)).
  { intros l s. induction l as [|[k' v] l IH]; cbn; [reflexivity|]. destruct (String.eqb key k'); cbn; [reflexivity|f_equal; exact IH]. }
  assert (R : aget (registered w2) key = Some i).
  { unfold w2, w1. cbn. rewrite T. cbn. unfold register_strategy. destruct (aget (reg w) key); cbn [fst]; rewrite M; apply G. }
  assert (D : nth i (dicts w2) [] = aset t k b).
  { unfold w2, w1. cbn. rewrite T. cbn. rewrite T. apply nth_error_nth. apply set_nth_eq. exact Hi. }
  destruct (bound_step cs w2 r p key i [] k e H2 R K N) as (p' & e' & A & B & _ & _ & _ & C). exists p', e'. split; [exact A|]. split; [exact B|].
  rewrite C, D, G2. reflexivity.
Qed.
Print Assumptions C116_strategy_alias_refuted.

(** set_default: after any program that writes only the five words as bounds it never raises, gives hints to exactly the
    arguments that are parameters, in order, and each hint says what the entry of get_para() says at that time. *)
Theorem C116_set_default cs ops args : Forall word_op ops -> ~ In "non_fitting_values"%string args ->
  exists para hints, obj (run cs start ops) get_para = Some para /\ set_default para args = (hints, None) /\
    map fst hints = filter (fun a => match aget para a with Some _ => true | None => false end) args /\
    forall a h, In (a, h) hints -> exists e, aget para a = Some e /\ hint_spec e h.
Proof.
  intros F N. exists (shared (run cs start ops)), (fst (set_default (shared (run cs start ops)) args)). split; [reflexivity|].
  destruct (set_default_ok (shared (run cs start ops)) args) as (A & B & C); [apply (good_run cs ops start start_good F)|exact N|].
  split; [rewrite <- A; apply surjective_pairing|]. split; [exact B|exact C].
Qed.
Print Assumptions C116_set_default.
(** any other word raises, and the arguments before it already have their hints *)
Theorem C116_set_default_raises para a args b e : aget para b = Some e -> b <> "non_fitting_values"%string -> ~ In (bound e) bound_words ->
  snd (set_default para a) = None ->
  set_default para (a ++ b :: args) = (fst (set_default para a), Some ValueErr).
Proof.
  intros E N W H. assert (H' : exists hs, set_default para a = (hs, None)) by (exists (fst (set_default para a)); rewrite <- H; apply surjective_pairing). clear H.
  assert (D : default_hint e = inr ValueErr).
  { destruct (default_hint e) as [h|x] eqn:D; [exfalso; apply W, default_hint_ok; exists h; exact D|]. unfold default_hint in D.
    repeat match type of D with context [String.eqb ?u ?v] => destruct (String.eqb u v); [discriminate|] end. congruence. }
  induction a as [|c a IH]; cbn [app set_default fst].
  - rewrite E. destruct (String.eqb_spec b "non_fitting_values"); [contradiction|]. rewrite D. reflexivity.
  - destruct H' as [hs H]. cbn [set_default] in H. destruct (aget para c) as [ec|] eqn:Ec; [|apply IH; exists hs; exact H].
    destruct (String.eqb c "non_fitting_values"); [discriminate|]. destruct (default_hint ec) as [h|]; [|discriminate]. destruct (set_default para a) as [hs' x] eqn:Ea.
    injection H as <- ->. rewrite IH by (exists hs'; reflexivity). reflexivity.
Qed.
Print Assumptions C116_set_default_raises.

(** ** Runs *)
Definition cs0 (el : string) (e : Qc) (ln : string) : Qc := 1%Qc.
(** the advised use: copy first; the defaults keep e_linear free within limits *)
Example safe_run : let w := run cs0 start [Deepcopy get_para; Bound (Copy 0) "linear" []; NewCtrl (Copy 0) ["Fe_K"]; CtrlStrategy 0 "free_more"; Deepcopy get_para]%string in
  option_map (fun p => option_map bound (aget p "e_linear")) (obj w (Copy 0)) = Some (Some "fixed"%string) /\
  option_map (fun p => option_map bound (aget p "e_linear")) (obj w (Copy 1)) = Some (Some "lohi"%string) /\
  option_map (fun c => option_map bound (aget (params c) "e_linear")) (nth_error (ctrls w) 0) = Some (Some "lohi"%string).
Proof. vm_compute. auto. Qed.
(** the same without the copy: the second user starts with everything fixed *)
Example leak_run : let w := run cs0 start [Bound get_para "linear" []; Deepcopy get_para; NewCtrl get_para ["Fe_K"]]%string in
  option_map (fun p => option_map bound (aget p "e_linear")) (obj w (Copy 0)) = Some (Some "fixed"%string) /\
  option_map (fun c => option_map bound (aget (params c) "e_linear")) (nth_error (ctrls w) 0) = Some (Some "fixed"%string).
Proof. vm_compute. auto. Qed.
(** elastic(x, coherent_sct_amplitude, coherent_sct_energy, fwhm_offset, ...) *)
Example hints_run : option_map (fun p => map (fun x => (fst x, hvary (snd x), option_map this (hmin (snd x)))) (fst (set_default p ["coherent_sct_amplitude"; "coherent_sct_energy"; "epsilon"; "fwhm_fanoprime"]%string)))
    (obj (run cs0 start []) get_para)
  = Some [("coherent_sct_amplitude", Some true, None); ("coherent_sct_energy", Some true, Some (9 # 1)%Q); ("fwhm_fanoprime", Some false, None)]%string.
Proof. vm_compute. reflexivity. Qed.
