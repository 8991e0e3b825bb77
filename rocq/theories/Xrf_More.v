(* The parameter controller, line energies, model assembly, areas and fitted values. *)
From Verif Require Import Common QcArith Xrf_Model Xrf_Proofs.
Open Scope list_scope.

(** ** The controller *)
Lemma fold_put k c : forall names st,
  let st' := fold_left (fun s n => put s k c n) names st in
  element_list st' = element_list st /\ linenames st' = linenames st /\
  (forall n, aget (params st') n = if mem n names then Some (default_entry k) else aget (params st) n) /\
  (forall n, aget (estrategy st') n = match c with Some b => if mem n names then Some b else aget (estrategy st) n | None => aget (estrategy st) n end) /\
  (c = None -> estrategy st' = estrategy st).
Proof.
  induction names as [|m names IH]; intros st; cbn [fold_left].
  - cbn. repeat split; auto. now destruct c.
  - destruct (IH (put st k c m)) as (A & B & C & D & E). cbn zeta in *. repeat split.
    + rewrite A. reflexivity.
    + rewrite B. reflexivity.
    + intros n. rewrite C. cbn [put params]. rewrite aget_aset. cbn [mem existsb]. fold (mem n names).
      destruct (mem n names), (String.eqb n m); reflexivity.
    + intros n. rewrite D. destruct c as [b|]; cbn [put estrategy]; [|reflexivity]. rewrite aget_aset. cbn [mem existsb]. fold (mem n names).
      destruct (mem n names), (String.eqb n m); reflexivity.
    + intros ->. rewrite E by reflexivity. reflexivity.
Qed.

Section Tables.
Context (cs : string -> Qc -> string -> Qc) (en : string -> string -> Qc) (is_element : string -> bool).
Notation add_param := (add_param cs). Notation add_params := (add_params cs). Notation controller := (controller cs).

(** What a successful call does. *)
Lemma add_param_ok st k el c st' : add_param st k el c = (st', None) ->
  exists names, added_names (linenames st') k el = inl names /\
    (forall n, aget (params st') n = if mem n names then Some (default_entry k) else aget (params st) n) /\
    (forall n, aget (estrategy st') n = match c with Some b => if mem n names then Some b else aget (estrategy st) n | None => aget (estrategy st) n end) /\
    (c = None -> estrategy st' = estrategy st) /\
    element_list st' = (if mem el (element_list st) then element_list st else element_list st ++ [el]).
Proof.
  unfold add_param. destruct (mem el (element_list st)) eqn:M.
  - destruct (added_names (linenames st) k el) as [names|] eqn:N; [|discriminate]. intros [= <-].
    destruct (fold_put k c names st) as (A & B & C & D & E). cbn zeta in *. exists names. rewrite B. auto.
  - destruct (aget (params st) "coherent_sct_energy") as [e|]; [|discriminate].
    match goal with |- context[added_names (linenames ?x) k el] => set (st1 := x) end.
    destruct (added_names (linenames st1) k el) as [names|] eqn:N; [|discriminate]. intros [= <-].
    destruct (fold_put k c names st1) as (A & B & C & D & E). cbn zeta in *. exists names. rewrite B. repeat split; auto.
Qed.
Lemma add_param_bad st el c : mem el (element_list st) = false -> aget (params st) "coherent_sct_energy" <> None -> area_name el = inr ValueErr ->
  snd (add_param st Area el c) = Some ValueErr /\ element_list (fst (add_param st Area el c)) = element_list st ++ [el].
Proof.
  intros M H A. unfold add_param. rewrite M. destruct (aget (params st) "coherent_sct_energy"); [|congruence].
  cbn [added_names linenames]. rewrite A. now split.
Qed.
Lemma add_params_keep : forall l st st', add_params st l = (st', None) ->
  (forall n, aget (params st) n <> None -> aget (params st') n <> None) /\
  ((forall k el c, In (k, el, c) l -> c = None) -> estrategy st' = estrategy st) /\
  (forall k el c, In (k, el, c) l -> forall n, added_names [] k el = inl [n] -> (forall ls, added_names ls k el = inl [n]) -> aget (params st') n <> None).
Proof.
  induction l as [|[[k el] c] l IH]; intros st st'; cbn [Xrf_Model.add_params].
  - intros [= <-]. repeat split; auto; now intros k el c [].
  - destruct (add_param st k el c) as [st1 [e|]] eqn:E; [discriminate|]. intros H.
    destruct (IH st1 st' H) as (A & B & C). destruct (add_param_ok _ _ _ _ _ E) as (names & N & P & S & S0 & L).
    assert (K : forall n, aget (params st) n <> None -> aget (params st1) n <> None).
    { intros n Hn. rewrite P. destruct (mem n names); [discriminate|exact Hn]. }
    repeat split.
    + auto.
    + intros Hc. rewrite B; [|intros; eapply Hc; right; eauto]. apply S0. eapply Hc. now left.
    + intros k0 el0 c0 [X|X] n Hn Hs.
      * injection X as -> -> ->. apply A. rewrite P. rewrite Hs in N. assert (names = [n]) as -> by congruence. cbn. rewrite String.eqb_refl. discriminate.
      * eapply C; eauto.
Qed.
(** After any strategy that does not name it, a parameter without its own constraint is fixed. *)
Lemma strategy_fixes reg st name s st' n e : aget reg name = Some s -> set_strategy reg st name = inl st' -> aget (params st) n = Some e ->
  n <> "non_fitting_values"%string -> aget (table s) n = None ->
  exists e', aget (params st') n = Some e' /\ value e' = value e /\ pmin e' = pmin e /\ pmax e' = pmax e /\
    bound e' = match aget (estrategy st) n with Some b => b | None => "fixed"%string end.
Proof.
  intros R H He Hn Ht. unfold set_strategy in H. destruct (set_bound_get reg (params st) name (estrategy st) s n e R He) as (p' & e' & P & _ & G & V & M1 & M2 & B).
  rewrite P in H. injection H as <-. exists e'. cbn. repeat split; auto. rewrite B, Ht.
  destruct (String.eqb n "non_fitting_values") eqn:E; [apply String.eqb_eq in E; congruence|reflexivity].
Qed.
Lemma strategy_keeps_estrategy reg st name st' : set_strategy reg st name = inl st' -> estrategy st' = estrategy st /\ element_list st' = element_list st /\ linenames st' = linenames st.
Proof. unfold set_strategy. destruct (set_parameter_bound _ _ _ _); [|discriminate]. now intros [= <-]. Qed.

(** The names of the areas are not those of a built-in strategy. *)
Definition ends_area (s : string) : bool := contains "area" s.
Lemma contains_app_r sub a b : contains sub b = true -> contains sub (a ++ b) = true.
Proof. intros H. induction a as [|x a IH]; cbn; [exact H|]. rewrite IH. apply orb_true_r. Qed.
Lemma area_name_ends el n : area_name el = inl n -> contains "area" n = true.
Proof.
  unfold area_name.
  repeat match goal with |- context[if ?c then _ else _] => destruct c end; intros [= <-].
  - apply (contains_app_r "area" _ "_ka1_area"). reflexivity.
  - apply (contains_app_r "area" _ "_la1_area"). reflexivity.
  - apply (contains_app_r "area" _ "_ma1_area"). reflexivity.
  - apply (contains_app_r "area" _ "_area"). reflexivity.
  - apply (contains_app_r "area" "pileup_"). apply (contains_app_r "area" _ "_area"). reflexivity.
Qed.
Lemma aget_In {A} (d : list (string * A)) k v : aget d k = Some v -> In (k, v) d.
Proof.
  induction d as [|[k' w] r IH]; cbn; [discriminate|]. destruct (String.eqb k k') eqn:E.
  - apply String.eqb_eq in E as ->. intros [= ->]. now left.
  - auto.
Qed.
Lemma builtin_no_area name s n : aget builtin name = Some s -> contains "area" n = true -> aget (table s) n = None /\ n <> "non_fitting_values"%string.
Proof.
  intros H A. split; [|intros ->; discriminate A].
  apply aget_In in H. destruct (aget (table s) n) as [v|] eqn:E; [|reflexivity]. exfalso. apply aget_In in E.
  assert (X : In n global_names).
  { repeat destruct H as [H|H]; try (injection H as <- <-; cbn [table] in E; apply in_combine_l in E; exact E). destruct H. }
  assert (Y : forallb (fun x => negb (contains "area" x)) global_names = true) by reflexivity.
  rewrite forallb_forall in Y. specialize (Y n X). rewrite A in Y. discriminate.
Qed.
Lemma area_added ls el n : area_name el = inl n -> added_names ls Area el = inl [n].
Proof. intros H. cbn [added_names]. now rewrite H. Qed.
(** A controller as constructed: every area becomes fixed under every built-in strategy. *)
Lemma fresh_areas_fixed p els st name st' el n : controller p els = inl (st, None) -> set_strategy builtin st name = inl st' ->
  In el els -> area_name el = inl n -> exists e, aget (params st') n = Some e /\ bound e = "fixed"%string.
Proof.
  unfold controller. destruct (aget p "coherent_sct_energy") as [e0|]; [|discriminate]. intros [= H] S I A.
  destruct (add_params_keep _ _ _ H) as (_ & B & C). rewrite (surjective_pairing (add_params _ _)) in H.
  assert (HE : estrategy st = []).
  { apply B. intros k el0 c Hc. apply in_flat_map in Hc as (x & _ & Hc). cbn in Hc. repeat destruct Hc as [Hc|Hc]; try congruence. destruct Hc. }
  assert (HP : aget (params st) n <> None).
  { apply (C Area el None); [|now apply area_added|intros; now apply area_added].
    apply in_flat_map. exists el. split; [exact I|]. cbn. auto. }
  destruct (aget (params st) n) as [e|] eqn:E; [|congruence].
  destruct (aget builtin name) as [s|] eqn:R; [|unfold set_strategy in S; rewrite (set_bound_unknown _ _ _ _ R) in S; discriminate].
  destruct (builtin_no_area name s n R (area_name_ends el n A)) as (T & N).
  destruct (strategy_fixes builtin st name s st' n e R S E N T) as (e' & G & _ & _ & _ & Bd).
  exists e'. split; [exact G|]. rewrite Bd, HE. reflexivity.
Qed.
(** ** update_element_prop in general *)
Lemma add_param_present st k el c st' : In el (element_list st) -> add_param st k el c = (st', None) -> element_list st' = element_list st /\ linenames st' = linenames st.
Proof.
  intros I. unfold Xrf_Model.add_param. assert (mem el (element_list st) = true) as -> by now apply mem_In.
  destruct (added_names (linenames st) k el) as [names|]; [|discriminate]. intros [= <-]. destruct (fold_put k c names st) as (A & B & _). auto.
Qed.
Lemma add_params_all : forall l st st', (forall k el c, In (k, el, c) l -> In el (element_list st)) -> add_params st l = (st', None) ->
  element_list st' = element_list st /\ linenames st' = linenames st /\
  forall n, (exists k el c names, In (k, el, c) l /\ added_names (linenames st) k el = inl names /\ In n names /\ aget (params st') n = Some (default_entry k) /\
               match c with Some b => aget (estrategy st') n = Some b | None => True end)
         \/ ((forall k el c names, In (k, el, c) l -> added_names (linenames st) k el = inl names -> ~ In n names) /\
             aget (params st') n = aget (params st) n /\ aget (estrategy st') n = aget (estrategy st) n).
Proof.
  induction l as [|[[k el] c] l IH]; intros st st' HE; cbn [Xrf_Model.add_params].
  - intros [= <-]. split; [reflexivity|]. split; [reflexivity|]. intros n. right. split; [now intros k el c names []|auto].
  - destruct (add_param st k el c) as [st1 [e|]] eqn:E; [discriminate|]. intros H.
    destruct (add_param_present _ _ _ _ _ (HE k el c (or_introl eq_refl)) E) as [A B].
    destruct (add_param_ok _ _ _ _ _ E) as (names & N & P & Q & _ & _). rewrite B in N.
    destruct (IH st1 st' ltac:(intros k' el' c' I; rewrite A; exact (HE k' el' c' (or_intror I))) H) as (A' & B' & C'). rewrite A', B'. split; [exact A|]. split; [exact B|]. rewrite B in C'.
    intros n. destruct (C' n) as [(k' & el' & c' & names' & I & N' & J & R)|(Z & P' & Q')].
    + left. exists k', el', c', names'. split; [right; exact I|auto].
    + rewrite P in P'. rewrite Q in Q'. destruct (mem n names) eqn:M.
      * left. exists k, el, c, names. split; [left; reflexivity|]. split; [exact N|]. split; [now apply mem_In|]. split; [exact P'|]. destruct c; [exact Q'|exact I].
      * right. split; [|split; [exact P'|destruct c; exact Q']]. intros k' el' c' names' [[= <- <- <-]|I] N' J; [|exact (Z k' el' c' names' I N' J)].
        assert (names' = names) as -> by congruence. apply mem_In in J. congruence.
Qed.
(** the kind of a parameter can be told from its name *)
Lemma ascii_app a b : list_ascii_of_string (a ++ b) = (list_ascii_of_string a ++ list_ascii_of_string b)%list.
Proof. induction a as [|c a IH]; [reflexivity|]. cbn. now rewrite IH. Qed.
Lemma suffix_kind p q k k' : (p ++ suffix k)%string = (q ++ suffix k')%string -> k = k'.
Proof.
  intros H. apply (f_equal (fun s => firstn 2 (rev (list_ascii_of_string s)))) in H. rewrite !ascii_app, !rev_app_distr in H.
  destruct k, k'; cbn in H; try reflexivity; discriminate.
Qed.
Lemma str_assoc (a b c : string) : (a ++ (b ++ c))%string = ((a ++ b) ++ c)%string.
Proof. induction a as [|x a IH]; [reflexivity|]. cbn. now rewrite IH. Qed.
Lemma added_suffix ls k el names n : added_names ls k el = inl names -> In n names -> exists p, n = (p ++ suffix k)%string.
Proof.
  assert (G : (if (String.length el <=? 4)%nat then
      match split "_" el with
      | [el; fam] => match transitions fam with
          | None => inr KeyErr
          | Some ts => inl (map (fun ln => (ln ++ "_" ++ suffix k)%string)
                              (filter (fun ln => mem ln ls) (map (fun t => (el ++ "_" ++ t)%string) ts)))
          end
      | _ => inr ValueErr
      end
    else if contains "user" (lower el) then inl [(el ++ "_" ++ suffix k)%string]
    else inl [(("pileup_" ++ replace "-" "_" el) ++ suffix k)%string]) = inl names -> In n names -> exists p, n = (p ++ suffix k)%string).
  { destruct (String.length el <=? 4)%nat.
    - destruct (split "_" el) as [|e [|fam [|? ?]]]; try discriminate. destruct (transitions fam) as [ts|]; [|discriminate]. intros [= <-] I.
      apply in_map_iff in I. destruct I as (ln & <- & _). exists (ln ++ "_")%string. now rewrite <- str_assoc.
    - destruct (contains "user" (lower el)); intros [= <-] [<-|[]].
      + exists (el ++ "_")%string. now rewrite <- str_assoc.
      + exists ("pileup_" ++ replace "-" "_" el)%string. reflexivity. }
  destruct k; try exact G. clear G. cbn [added_names]. destruct (area_name el) as [a|] eqn:E; [|discriminate]. intros [= <-] [<-|[]]. unfold area_name in E.
  destruct (mem el K_LINE); [injection E as <-; exists (hd EmptyString (split "_" el) ++ "_ka1_")%string; now rewrite <- str_assoc|].
  destruct (mem el L_LINE); [injection E as <-; exists (hd EmptyString (split "_" el) ++ "_la1_")%string; now rewrite <- str_assoc|].
  destruct (mem el M_LINE); [injection E as <-; exists (hd EmptyString (split "_" el) ++ "_ma1_")%string; now rewrite <- str_assoc|].
  destruct (contains "user" (lower el)); [injection E as <-; exists (el ++ "_")%string; now rewrite <- str_assoc|].
  destruct (contains "-" el); [|discriminate]. injection E as <-. exists ("pileup_" ++ replace "-" "_" el ++ "_")%string. now rewrite <- !str_assoc.
Qed.
Lemma name_kind ls ls' k k' el el' names names' n : added_names ls k el = inl names -> added_names ls' k' el' = inl names' -> In n names -> In n names' -> k = k'.
Proof.
  intros N N' I I'. destruct (added_suffix _ _ _ _ _ N I) as [p ->]. destruct (added_suffix _ _ _ _ _ N' I') as [q E]. exact (suffix_kind p q k k' E).
Qed.
Lemma nodup_fst {A B} (l : list (A * B)) a b b' : NoDup (map fst l) -> In (a, b) l -> In (a, b') l -> b = b'.
Proof.
  induction l as [|[x y] l IH]; intros N I I'; [destruct I|]. cbn in N. apply NoDup_cons_iff in N. destruct N as [N0 N].
  destruct I as [I|I], I' as [I'|I'].
  - congruence.
  - injection I as -> ->. destruct N0. exact (in_map fst _ _ I').
  - injection I' as -> ->. destruct N0. exact (in_map fst _ _ I).
  - exact (IH N I I').
Qed.
(** update_element_prop for one property of one element. *)
Lemma update_then_strategy st el k c st1 reg name s st2 n : update_element_prop cs st [el] [(k, c)] = (st1, None) ->
  (exists names, added_names (linenames st1) k el = inl names /\ In n names) ->
  aget reg name = Some s -> aget (table s) n = None -> n <> "non_fitting_values"%string -> set_strategy reg st1 name = inl st2 ->
  aget (params st1) n = Some (default_entry k) /\
  exists e, aget (params st2) n = Some e /\ bound e = c /\ value e = value (default_entry k).
Proof.
  unfold update_element_prop. cbn. destruct (Xrf_Model.add_param cs st k el (Some c)) as [st1' [e|]] eqn:E; [discriminate|]. intros [= ->] (names & N & I) R T NF S.
  destruct (add_param_ok _ _ _ _ _ E) as (names' & N' & P & Q & _ & _). assert (names' = names) as -> by congruence.
  assert (M : mem n names = true) by now apply mem_In.
  assert (G : aget (params st1) n = Some (default_entry k)) by now rewrite P, M. split; [exact G|].
  destruct (strategy_fixes reg st1 name s st2 n _ R S G NF T) as (e' & G' & V & _ & _ & B).
  exists e'. split; [exact G'|]. rewrite B, Q, M. auto.
Qed.

(** ** Names: the statements *)
Lemma comps_hints p sym first energy l ls k c e : Forall2 (comp_ok cs en p sym first energy) l ls -> In c l -> aget p (comp_name c k) = Some e ->
  hvalue (hint_for k c) = Some (value e) /\ hvary (hint_for k c) = Some (negb (String.eqb (bound e) "fixed")).
Proof.
  intros F I G. induction F as [|c0 ln l ls (N & _ & _ & V) F IH]; [destruct I|]. destruct I as [->|I]; [|auto].
  apply V. now rewrite <- N.
Qed.
Lemma names_L p energy sym area l k : mem (sym ++ "_L") L_LINE = true -> k <> Area -> setup_element_model cs en is_element p energy (sym ++ "_L") area = Comps l ->
  added_names (get_activated_lines cs energy [(sym ++ "_L")%string]) k (sym ++ "_L") = inl (map (fun c => comp_name c k) l) /\
  forall c e, In c l -> aget p (comp_name c k) = Some e ->
    hvalue (hint_for k c) = Some (value e) /\ hvary (hint_for k c) = Some (negb (String.eqb (bound e) "fixed")).
Proof.
  intros H Hk B. destruct (built_L cs en is_element p energy sym area l H B) as (X & F). split; [|intros; eapply comps_hints; eauto].
  unfold get_activated_lines. cbn [flat_map]. rewrite app_nil_r, (added_L cs) by assumption. f_equal. symmetry.
  apply (forall2_map _ _ _ _ _ F). intros a b (N & _). apply N.
Qed.
Lemma names_M p energy sym area l k : mem (sym ++ "_M") M_LINE = true -> k <> Area -> setup_element_model cs en is_element p energy (sym ++ "_M") area = Comps l ->
  added_names (get_activated_lines cs energy [(sym ++ "_M")%string]) k (sym ++ "_M") = inl (map (fun c => comp_name c k) l) /\
  forall c e, In c l -> aget p (comp_name c k) = Some e ->
    hvalue (hint_for k c) = Some (value e) /\ hvary (hint_for k c) = Some (negb (String.eqb (bound e) "fixed")).
Proof.
  intros H Hk B. destruct (built_M cs en is_element p energy sym area l H B) as (X & F). split; [|intros; eapply comps_hints; eauto].
  unfold get_activated_lines. cbn [flat_map]. rewrite app_nil_r, (added_M cs) by assumption. f_equal. symmetry.
  apply (forall2_map _ _ _ _ _ F). intros a b (N & _). apply N.
Qed.
Lemma names_K p energy sym area l k : mem (sym ++ "_K") K_LINE = true -> k <> Area -> setup_element_model cs en is_element p energy (sym ++ "_K") area = Comps l ->
  (exists names, added_names (get_activated_lines cs energy [(sym ++ "_K")%string]) k (sym ++ "_K") = inl names /\
     forall c, In c l -> (In (comp_name c k) names <-> In (pre c) (map (fun ln => sym ++ "_" ++ ln ++ "_") ["ka1"; "ka2"; "ka3"; "kb1"])%string) /\
     (forall n, In n names -> exists c, In c l /\ n = comp_name c k)) /\
  forall c e, In c l -> aget p (comp_name c k) = Some e ->
    hvalue (hint_for k c) = Some (value e) /\ hvary (hint_for k c) = Some (negb (String.eqb (bound e) "fixed")).
Proof.
  intros H Hk B. destruct (built_K cs en is_element p energy sym area l H B) as (X & F). split; [|intros; eapply comps_hints; eauto].
  unfold get_activated_lines. cbn [flat_map]. rewrite app_nil_r, (added_K cs) by assumption. eexists. split; [reflexivity|].
  assert (G : forall c, In c l -> exists ln, In ln (filter (excited cs sym energy) K_TRANSITIONS) /\ pre c = (sym ++ "_" ++ ln ++ "_")%string /\ comp_name c k = pname sym ln k).
  { intros c I. clear X B. induction F as [|c0 ln l ls (N & _) F IH]; [destruct I|]. destruct I as [->|I].
    - exists ln. split; [now left|]. split; [|apply N]. specialize (N k). unfold comp_name in N. rewrite <- pf_name in N. now apply sapp_inj_r in N.
    - destruct (IH I) as (ln' & J & E). exists ln'. split; [now right|exact E]. }
  assert (PI : forall a b, pname sym a k = pname sym b k -> a = b).
  { intros a b E. unfold pname in E. apply sapp_inj_r in E. now apply line_inj in E. }
  intros c I. destruct (G c I) as (ln & J & P & N). split.
  - rewrite N, P. split.
    + intros Q. apply in_map_iff in Q as (ln' & E & Q). apply PI in E as ->. apply filter_In in Q as [Q _]. apply in_map_iff. eauto.
    + intros Q. apply in_map_iff in Q as (ln' & E & Q). apply sapp_inj_l in E. apply (sapp_inj_l "_") in E. apply sapp_inj_r in E as ->.
      apply in_map_iff. exists ln. split; [reflexivity|]. apply filter_In. split; [exact Q|]. apply filter_In in J. tauto.
  - intros n Q. apply in_map_iff in Q as (ln' & <- & Q). apply filter_In in Q as [Q1 Q2].
    assert (Q3 : In ln' (filter (excited cs sym energy) K_TRANSITIONS)).
    { apply filter_In. split; [|exact Q2]. cbn in Q1 |- *. tauto. }
    clear - F Q3. induction F as [|c0 ln l ls (N & _) F IH]; [destruct Q3|]. destruct Q3 as [->|Q3].
    + exists c0. split; [now left|]. symmetry. apply N.
    + destruct (IH Q3) as (c & I & E). exists c. split; [now right|exact E].
Qed.
Lemma activated_in energy els n : In n (get_activated_lines cs energy els) <-> exists el, In el els /\ In n (activated_line cs energy el).
Proof. unfold get_activated_lines. apply in_flat_map. Qed.
Lemma lines_K energy sym n : mem (sym ++ "_K") K_LINE = true ->
  (In n (get_activated_lines cs energy [(sym ++ "_K")%string]) <->
   exists ln, n = (sym ++ "_" ++ ln)%string /\ In ln ["ka1"; "ka2"; "ka3"; "kb1"]%string /\ cs sym energy ln <> 0%Qc /\ cs sym energy "ka1" <> 0%Qc).
Proof.
  intros H. unfold get_activated_lines. cbn [flat_map]. rewrite app_nil_r, (activated_K cs) by exact H. unfold excited at 1.
  destruct (Qc_eqb_spec (cs sym energy "ka1") 0%Qc) as [Z|Z]; cbn [negb].
  - split; [intros []|]. intros (ln & _ & _ & _ & N). contradiction.
  - rewrite (in_lines cs en is_element). unfold excited, line_of. split; intros (ln & A & B & C); exists ln.
    + destruct (Qc_eqb_spec (cs sym energy ln) 0%Qc); [discriminate|]. tauto.
    + destruct (Qc_eqb_spec (cs sym energy ln) 0%Qc); tauto.
Qed.
Lemma lines_L energy sym n : mem (sym ++ "_L") L_LINE = true ->
  (In n (get_activated_lines cs energy [(sym ++ "_L")%string]) <->
   exists ln, n = (sym ++ "_" ++ ln)%string /\ In ln (["kb2"; "kb3"; "kb4"; "kb5"]%string ++ L_TRANSITIONS) /\ cs sym energy ln <> 0%Qc /\ cs sym energy "la1" <> 0%Qc).
Proof.
  intros H. unfold get_activated_lines. cbn [flat_map]. rewrite app_nil_r, (activated_L cs) by exact H. unfold excited at 1.
  destruct (Qc_eqb_spec (cs sym energy "la1") 0%Qc) as [Z|Z]; cbn [negb].
  - split; [intros []|]. intros (ln & _ & _ & _ & N). contradiction.
  - rewrite (in_lines cs en is_element). unfold excited, line_of. split; intros (ln & A & B & C); exists ln.
    + destruct (Qc_eqb_spec (cs sym energy ln) 0%Qc); [discriminate|]. tauto.
    + destruct (Qc_eqb_spec (cs sym energy ln) 0%Qc); tauto.
Qed.
Lemma lines_M energy sym n : mem (sym ++ "_M") M_LINE = true ->
  (In n (get_activated_lines cs energy [(sym ++ "_M")%string]) <->
   exists ln, n = (sym ++ "_" ++ ln)%string /\ In ln ["ma1"; "ma2"; "mb"; "mg"]%string /\ cs sym energy ln <> 0%Qc /\ cs sym energy "ma1" <> 0%Qc).
Proof.
  intros H. unfold get_activated_lines. cbn [flat_map]. rewrite app_nil_r, (activated_M cs) by exact H. unfold excited at 1.
  destruct (Qc_eqb_spec (cs sym energy "ma1") 0%Qc) as [Z|Z]; cbn [negb].
  - split; [intros []|]. intros (ln & _ & _ & _ & N). contradiction.
  - rewrite (in_lines cs en is_element). unfold excited, line_of. split; intros (ln & A & B & C); exists ln.
    + destruct (Qc_eqb_spec (cs sym energy ln) 0%Qc); [discriminate|]. tauto.
    + destruct (Qc_eqb_spec (cs sym energy ln) 0%Qc); tauto.
Qed.

(** ** Line energies *)
Definition no_us (s : string) : bool := negb (contains "_" s).
Lemma contains_cons (x : ascii) s : contains "_" (String x s) = Ascii.eqb x "_" || contains "_" s.
Proof.
  cbn [contains prefix]. destruct (ascii_dec "_" x) as [<-|N]; [destruct s; reflexivity|].
  destruct (Ascii.eqb x "_") eqn:E; [apply Ascii.eqb_eq in E; congruence|reflexivity].
Qed.
Lemma split_none s : no_us s = true -> split "_" s = [s].
Proof.
  unfold no_us. induction s as [|x s IH]; [reflexivity|]. rewrite contains_cons. cbn [split].
  destruct (Ascii.eqb x "_"); [discriminate|]. cbn. intros H. now rewrite IH.
Qed.
Lemma split_two a b : no_us a = true -> no_us b = true -> split "_" (a ++ "_" ++ b) = [a; b].
Proof.
  intros A B. induction a as [|x a IH].
  - cbn. now rewrite split_none.
  - unfold no_us in A. rewrite contains_cons in A.
    change (String x a ++ "_" ++ b)%string with (String x (a ++ "_" ++ b)). cbn [split]. destruct (Ascii.eqb x "_"); [discriminate|].
    cbn in A. rewrite IH by exact A. reflexivity.
Qed.
Lemma lower_us x : Ascii.eqb (lower_ascii x) "_" = Ascii.eqb x "_".
Proof. destruct x as [[|] [|] [|] [|] [|] [|] [|] [|]]; reflexivity. Qed.
Lemma no_us_lower s : no_us (lower s) = no_us s.
Proof. unfold no_us. induction s as [|x s IH]; [reflexivity|]. cbn [lower]. rewrite !contains_cons, lower_us. now destruct (Ascii.eqb x "_"). Qed.
Lemma lower_len s : String.length (lower s) = String.length s.
Proof. induction s; cbn; congruence. Qed.
Lemma line_energy sym line : no_us sym = true -> is_element sym = true -> no_us line = true ->
  get_line_energy en is_element (sym ++ "_" ++ line) =
  let l := match String.length line with 1 => (lower line ++ "a1")%string | 2 => (lower line ++ "1")%string | _ => lower line end in
  if mem l all_lines then inl (en sym l) else inr KeyErr.
Proof.
  intros A E B. unfold get_line_energy. rewrite (split_two sym line A B), E, lower_len. cbn zeta.
  assert (M : forall x, mem x (map lower line_name) = mem x all_lines) by reflexivity. rewrite M.
  destruct (String.length line) as [|[|[|n]]]; reflexivity.
Qed.
Lemma lines_no_us l : In l all_lines -> no_us l = true.
Proof. assert (X : forallb no_us all_lines = true) by reflexivity. rewrite forallb_forall in X. auto. Qed.
(** A line is found under its own name exactly when that name has three letters. *)
Lemma energy_of_line sym line : no_us sym = true -> is_element sym = true -> In (lower line) all_lines ->
  get_line_energy en is_element (sym ++ "_" ++ line) = if mem (lower line) ["ll"; "ln"; "mb"; "mg"]%string then inr KeyErr else inl (en sym (lower line)).
Proof.
  intros A E I. assert (B : no_us line = true) by (rewrite <- no_us_lower; now apply lines_no_us).
  rewrite (line_energy sym line A E B), <- (lower_len line).
  repeat (destruct I as [<-|I]; [reflexivity|]). destruct I.
Qed.
Lemma energy_of_family sym line : no_us sym = true -> is_element sym = true -> In (lower line) ["k"; "l"; "m"]%string ->
  get_line_energy en is_element (sym ++ "_" ++ line) = inl (en sym (lower line ++ "a1")).
Proof.
  intros A E I. assert (B : no_us line = true) by (rewrite <- no_us_lower; repeat (destruct I as [<-|I]; [reflexivity|]); destruct I).
  rewrite (line_energy sym line A E B), <- (lower_len line).
  repeat (destruct I as [<-|I]; [reflexivity|]). destruct I.
Qed.

(** ** Assembling *)
Definition fails (b : built) : bool := match b with Fails _ => true | _ => false end.
Definition active (b : built) : bool := match b with Comps _ => true | _ => false end.
Definition comps (b : built) : list comp := match b with Comps l => l | _ => [] end.
Notation setup := (setup_element_model cs en is_element).
Lemma linear_ok p energy area : forall els, (forall el, In el els -> fails (setup p energy el area) = false) ->
  linear_columns cs en is_element p energy area els =
  inl (map (fun el => (el, comps (setup p energy el area))) (filter (fun el => active (setup p energy el area)) els)).
Proof.
  induction els as [|el els IH]; intros H; [reflexivity|]. cbn [linear_columns filter].
  pose proof (H el (or_introl eq_refl)) as He. rewrite IH by (intros; apply H; now right).
  destruct (setup p energy el area) eqn:E; cbn in *; [reflexivity|discriminate|rewrite E; reflexivity].
Qed.
Lemma assemble_all p energy : forall els, (forall el, In el els -> active (setup p energy el (qz 100000)) = true) ->
  assemble cs en is_element p energy els = inl (flat_map (fun el => comps (setup p energy el (qz 100000))) els).
Proof.
  induction els as [|el els IH]; intros H; [reflexivity|]. cbn [assemble flat_map].
  pose proof (H el (or_introl eq_refl)) as He. rewrite IH by (intros; apply H; now right).
  destruct (setup p energy el (qz 100000)); cbn in *; [discriminate|discriminate|reflexivity].
Qed.
Lemma assemble_one p energy : forall els el, In el els -> active (setup p energy el (qz 100000)) = false ->
  exists e, assemble cs en is_element p energy els = inr e.
Proof.
  induction els as [|a els IH]; intros el I H; [destruct I|]. destruct I as [->|I]; cbn [assemble].
  - destruct (setup p energy el (qz 100000)); cbn in *; [eauto|eauto|discriminate].
  - destruct (setup p energy a (qz 100000)); [eauto|eauto|]. destruct (IH el I H) as [e ->]. eauto.
Qed.
Lemma family_total p sym first energy isK : forall lines area, (forall ln k e, In ln lines -> aget p (pname sym ln k) = Some e -> good_bound (bound e)) ->
  exists l, family cs en p sym first energy area isK lines = inl l.
Proof.
  induction lines as [|ln lines IH]; intros area H; cbn [family]; [eauto|].
  match goal with |- context[component p ?a ?b ?c ?d ?e ?f] => destruct (component p a b c d e f) as [c0|x] eqn:E end.
  - edestruct IH as [l ->]; [|eauto]. intros; eapply H; [right|]; eauto.
  - exfalso. clear IH. unfold component in E.
    assert (A : forall k h, exists h', adjust p ((sym ++ "_" ++ ln ++ "_") ++ suffix k) h = inl h').
    { intros k h. unfold adjust. rewrite pf_name. destruct (aget p (pname sym ln k)) as [e|] eqn:G; [|eauto].
      destruct (proj1 (hint_of_ok e) (H ln k e (or_introl eq_refl) G)) as [h' ->]. eauto. }
    match type of E with context[adjust p (_ ++ "area") ?h] => destruct (A Area h) as [? A1] end.
    match type of E with context[adjust p (_ ++ "delta_center") ?h] => destruct (A Pos h) as [? A2] end.
    match type of E with context[adjust p (_ ++ "delta_sigma") ?h] => destruct (A Width h) as [? A3] end.
    match type of E with context[adjust p (_ ++ "ratio_adjust") ?h] => destruct (A Ratio h) as [? A4] end.
    cbn [suffix] in *. rewrite A1, A2, A3, A4 in E. discriminate.
Qed.
Lemma setup_K_active p energy sym area : mem (sym ++ "_K") K_LINE = true -> (forall ln k e, aget p (pname sym ln k) = Some e -> good_bound (bound e)) ->
  active (setup p energy (sym ++ "_K") area) = excited cs sym energy "ka1" /\ fails (setup p energy (sym ++ "_K") area) = false.
Proof.
  intros H G. unfold setup_element_model, family_model. rewrite H, (sym_K _ H). unfold excited.
  destruct (Qc_eqb (cs sym energy "ka1") 0%Qc); [now split|].
  edestruct family_total as [l ->]; [|now split]. intros; eapply G; eauto.
Qed.

(** ** Cross section ratios *)
Definition fam_lines (f : string) : list string := match transitions f with Some l => l | None => [] end.
Lemma qsum_excited sym energy first ts : cs sym energy first <> 0%Qc ->
  (qsum (map (fun ln => cs sym energy ln / cs sym energy first) (filter (excited cs sym energy) ts)) = qsum (map (cs sym energy) ts) / cs sym energy first)%Qc.
Proof.
  intros N. induction ts as [|t ts IH]; cbn [map filter qsum]; [field; exact N|].
  unfold excited at 1. destruct (Qc_eqb_spec (cs sym energy t) 0%Qc) as [Z|Z]; cbn [negb map qsum].
  - rewrite IH, Z. field; exact N.
  - rewrite IH. field; exact N.
Qed.
Lemma ratio_family p energy sym fam first ts el l : split "_" el = [sym; fam] -> transitions (upper fam) = Some ts -> hd EmptyString ts = first -> is_element sym = true ->
  excited cs sym energy first = true -> Forall2 (comp_ok cs en p sym first energy) l (filter (excited cs sym energy) ts) ->
  relative_cs_ratio cs is_element el energy = inl None /\ qsum (map (cs sym energy) ts) = 0%Qc \/
  exists r, relative_cs_ratio cs is_element el energy = inl (Some r) /\ (r * qsum (map ratio l) = 1)%Qc.
Proof.
  intros S T Hd E X F. unfold relative_cs_ratio. rewrite S, E, T. cbn [negb]. rewrite Hd. set (s := qsum (map (cs sym energy) ts)).
  destruct (Qc_eqb_spec s 0%Qc) as [Z|Z]; [left; now split|right]. eexists. split; [reflexivity|].
  rewrite (forall2_map _ ratio (fun ln => cs sym energy ln / cs sym energy first)%Qc _ _ F) by (intros a b (_ & _ & Hr & _); exact Hr).
  assert (N : cs sym energy first <> 0%Qc) by (unfold excited in X; destruct (Qc_eqb_spec (cs sym energy first) 0%Qc); [discriminate|assumption]).
  rewrite qsum_excited by exact N. fold s. field. now split.
Qed.
Lemma ratio_inactive energy sym fam ts el : split "_" el = [sym; fam] -> transitions (upper fam) = Some ts -> is_element sym = true ->
  (forall ln, In ln ts -> cs sym energy ln = 0%Qc) -> relative_cs_ratio cs is_element el energy = inl None.
Proof.
  intros S T E H. unfold relative_cs_ratio. rewrite S, E, T. cbn [negb].
  assert (Z : qsum (map (cs sym energy) ts) = 0%Qc).
  { clear T. induction ts as [|t ts IH]; cbn; [reflexivity|]. rewrite H by now left. rewrite IH by (intros; apply H; now right). ring. }
  rewrite Z. reflexivity.
Qed.
(** The ratio of a family against the components built for it. *)
Lemma ratio_K p energy sym area l : is_element sym = true -> mem (sym ++ "_K") K_LINE = true -> setup_element_model cs en is_element p energy (sym ++ "_K") area = Comps l ->
  relative_cs_ratio cs is_element (sym ++ "_K") energy = inl None /\ qsum (map (cs sym energy) K_TRANSITIONS) = 0%Qc \/
  exists r, relative_cs_ratio cs is_element (sym ++ "_K") energy = inl (Some r) /\ (r * qsum (map ratio l) = 1)%Qc.
Proof. intros E H B. destruct (built_K cs en is_element p energy sym area l H B) as (X & F). exact (ratio_family p energy sym "K" "ka1" K_TRANSITIONS _ l (split_K _ H) eq_refl eq_refl E X F). Qed.
Lemma ratio_L p energy sym area l : is_element sym = true -> mem (sym ++ "_L") L_LINE = true -> setup_element_model cs en is_element p energy (sym ++ "_L") area = Comps l ->
  relative_cs_ratio cs is_element (sym ++ "_L") energy = inl None /\ qsum (map (cs sym energy) L_TRANSITIONS) = 0%Qc \/
  exists r, relative_cs_ratio cs is_element (sym ++ "_L") energy = inl (Some r) /\ (r * qsum (map ratio l) = 1)%Qc.
Proof. intros E H B. destruct (built_L cs en is_element p energy sym area l H B) as (X & F). exact (ratio_family p energy sym "L" "la1" L_TRANSITIONS _ l (split_L _ H) eq_refl eq_refl E X F). Qed.
Lemma ratio_M p energy sym area l : is_element sym = true -> mem (sym ++ "_M") M_LINE = true -> setup_element_model cs en is_element p energy (sym ++ "_M") area = Comps l ->
  relative_cs_ratio cs is_element (sym ++ "_M") energy = inl None /\ qsum (map (cs sym energy) M_TRANSITIONS) = 0%Qc \/
  exists r, relative_cs_ratio cs is_element (sym ++ "_M") energy = inl (Some r) /\ (r * qsum (map ratio l) = 1)%Qc.
Proof. intros E H B. destruct (built_M cs en is_element p energy sym area l H B) as (X & F). exact (ratio_family p energy sym "M" "ma1" M_TRANSITIONS _ l (split_M _ H) eq_refl eq_refl E X F). Qed.
Lemma qsum_pos l : (forall x, In x l -> 0 <= x)%Qc -> forall y, In y l -> (0 < y)%Qc -> (0 < qsum l)%Qc.
Proof.
  induction l as [|a l IH]; intros H y I P; [destruct I|]. cbn [qsum].
  assert (N : (0 <= qsum l)%Qc).
  { clear IH I P y. assert (H' : forall x, In x l -> (0 <= x)%Qc) by (intros; apply H; now right). clear H. induction l as [|b l IH]; cbn [qsum]; [apply Qcle_refl|].
    pose proof (H' b (or_introl eq_refl)). assert (0 <= qsum l)%Qc by (apply IH; intros; apply H'; now right). qclra. }
  pose proof (H a (or_introl eq_refl)). destruct I as [->|I]; [qclra|].
  assert (0 < qsum l)%Qc by (eapply IH; eauto; intros; apply H; now right). qclra.
Qed.
Lemma mem_app s l m : mem s (l ++ m) = mem s l || mem s m.
Proof. unfold mem. apply existsb_app. Qed.
(** a name ending in a family letter is in that family's table only *)
Lemma last_fam t (l : list string) : forallb (fun s => match rev (list_ascii_of_string s) with x :: _ => Ascii.eqb x t | [] => false end) l = true ->
  forall sym u, mem (sym ++ "_" ++ String u EmptyString) l = true -> u = t.
Proof.
  intros H sym u M. rewrite forallb_forall in H. apply mem_In in M. specialize (H _ M). cbn beta in H.
  assert (E : exists r, rev (list_ascii_of_string (sym ++ "_" ++ String u EmptyString)) = u :: r).
  { clear. induction sym as [|x sym [r E]]; [now exists ["_"%char]|].
    change (String x sym ++ "_" ++ String u EmptyString)%string with (String x (sym ++ "_" ++ String u EmptyString)).
    cbn [list_ascii_of_string]. cbn [rev]. rewrite E. now exists (r ++ [x]). }
  destruct E as [r E]. rewrite E in H. now apply Ascii.eqb_eq in H.
Qed.
Lemma fam_K sym u : mem (sym ++ "_" ++ String u EmptyString) K_LINE = true -> u = "K"%char.
Proof. exact (last_fam "K" K_LINE eq_refl sym u). Qed.
Lemma fam_L sym u : mem (sym ++ "_" ++ String u EmptyString) L_LINE = true -> u = "L"%char.
Proof. exact (last_fam "L" L_LINE eq_refl sym u). Qed.
Lemma fam_M sym u : mem (sym ++ "_" ++ String u EmptyString) M_LINE = true -> u = "M"%char.
Proof. exact (last_fam "M" M_LINE eq_refl sym u). Qed.
Lemma ratio_all p energy sym area l fam ts : is_element sym = true ->
  In (fam, ts) [("K", K_TRANSITIONS); ("L", L_TRANSITIONS); ("M", M_TRANSITIONS)]%string ->
  mem (sym ++ "_" ++ fam) (K_LINE ++ L_LINE ++ M_LINE) = true -> (forall ln, In ln ts -> 0 <= cs sym energy ln)%Qc ->
  setup_element_model cs en is_element p energy (sym ++ "_" ++ fam) area = Comps l ->
  exists r, relative_cs_ratio cs is_element (sym ++ "_" ++ fam) energy = inl (Some r) /\ (r * qsum (map ratio l) = 1)%Qc.
Proof.
  intros E I M P B. rewrite !mem_app in M.
  assert (Z : forall first, In first ts -> excited cs sym energy first = true -> qsum (map (cs sym energy) ts) <> 0%Qc).
  { intros first If X Z. assert (Q : (0 < qsum (map (cs sym energy) ts))%Qc); [|rewrite Z in Q; now apply Qlt_irrefl in Q].
    apply (qsum_pos (map (cs sym energy) ts)) with (y := cs sym energy first).
    - intros x Hx. apply in_map_iff in Hx as (ln & <- & Hl). auto.
    - now apply in_map.
    - pose proof (P first If) as Pf. unfold excited in X. destruct (Qc_eqb_spec (cs sym energy first) 0%Qc) as [|N]; [discriminate|].
      apply Qcle_lt_or_eq in Pf as [Pf|Pf]; [exact Pf|congruence]. }
  destruct I as [I|[I|[I|[]]]]; injection I as <- <-.
  - assert (H : mem (sym ++ "_K") K_LINE = true).
    { apply orb_prop in M as [M|M]; [exact M|]. apply orb_prop in M as [M|M]; [apply (fam_L sym) in M|apply (fam_M sym) in M]; discriminate. }
    destruct (ratio_K p energy sym area l E H B) as [[_ Q]|R]; [|exact R]. exfalso.
    destruct (built_K cs en is_element p energy sym area l H B) as (X & _). exact (Z "ka1"%string (or_introl eq_refl) X Q).
  - assert (H : mem (sym ++ "_L") L_LINE = true).
    { apply orb_prop in M as [M|M]; [apply (fam_K sym) in M; discriminate|]. apply orb_prop in M as [M|M]; [exact M|apply (fam_M sym) in M; discriminate]. }
    destruct (ratio_L p energy sym area l E H B) as [[_ Q]|R]; [|exact R]. exfalso.
    destruct (built_L cs en is_element p energy sym area l H B) as (X & _). exact (Z "la1"%string (or_introl eq_refl) X Q).
  - assert (H : mem (sym ++ "_M") M_LINE = true).
    { apply orb_prop in M as [M|M]; [apply (fam_K sym) in M; discriminate|]. apply orb_prop in M as [M|M]; [apply (fam_L sym) in M; discriminate|]. exact M. }
    destruct (ratio_M p energy sym area l E H B) as [[_ Q]|R]; [|exact R]. exfalso.
    destruct (built_M cs en is_element p energy sym area l H B) as (X & _). exact (Z "ma1"%string (or_introl eq_refl) X Q).
Qed.
(** The area of a family belongs to its first component. *)
Lemma area_first p energy sym fam first ts area l (X : excited cs sym energy first = true) (T : hd EmptyString ts = first) (NE : ts <> []) :
  Forall2 (comp_ok cs en p sym first energy) l (filter (excited cs sym energy) ts) -> area_name (sym ++ "_" ++ fam) = inl (pname sym first Area) ->
  setup_element_model cs en is_element p energy (sym ++ "_" ++ fam) area = Comps l ->
  exists c r, l = c :: r /\ area_name (sym ++ "_" ++ fam) = inl (comp_name c Area).
Proof.
  intros F A B. destruct ts as [|t ts]; [congruence|]. cbn in T. subst t. cbn [filter] in F. rewrite X in F.
  inversion F as [|c ln r rs (N & _) F' E1 E2]. subst. exists c, r. split; [reflexivity|]. now rewrite N.
Qed.
Lemma area_all p energy sym area l fam : In fam ["K"; "L"; "M"]%string -> mem (sym ++ "_" ++ fam) (K_LINE ++ L_LINE ++ M_LINE) = true ->
  setup_element_model cs en is_element p energy (sym ++ "_" ++ fam) area = Comps l ->
  exists c r, l = c :: r /\ area_name (sym ++ "_" ++ fam) = inl (comp_name c Area) /\
    forall e, aget p (comp_name c Area) = Some e -> hvalue (h_area c) = Some (value e) /\ hvary (h_area c) = Some (negb (String.eqb (bound e) "fixed")).
Proof.
  intros I M B. rewrite !mem_app in M.
  assert (G : forall first ls, Forall2 (comp_ok cs en p sym first energy) l ls -> forall c e, In c l -> aget p (comp_name c Area) = Some e ->
     hvalue (h_area c) = Some (value e) /\ hvary (h_area c) = Some (negb (String.eqb (bound e) "fixed"))).
  { intros first ls F c e. exact (comps_hints p sym first energy l ls Area c e F). }
  destruct I as [<-|[<-|[<-|[]]]].
  - assert (H : mem (sym ++ "_K") K_LINE = true).
    { apply orb_prop in M as [M|M]; [exact M|]. apply orb_prop in M as [M|M]; [apply (fam_L sym) in M|apply (fam_M sym) in M]; discriminate. }
    destruct (built_K cs en is_element p energy sym area l H B) as (X & F).
    edestruct (area_first p energy sym "K" "ka1" K_TRANSITIONS area l X) as (c & r & -> & A); eauto; [discriminate| |].
    + unfold area_name. change ("_" ++ "K")%string with "_K"%string. rewrite H, (sym_K _ H). unfold pname, line_of. now rewrite !sapp_assoc.
    + exists c, r. split; [reflexivity|]. split; [exact A|]. intros e. apply (G _ _ F). now left.
  - assert (H : mem (sym ++ "_L") L_LINE = true).
    { apply orb_prop in M as [M|M]; [apply (fam_K sym) in M; discriminate|]. apply orb_prop in M as [M|M]; [exact M|apply (fam_M sym) in M; discriminate]. }
    destruct (built_L cs en is_element p energy sym area l H B) as (X & F).
    edestruct (area_first p energy sym "L" "la1" L_TRANSITIONS area l X) as (c & r & -> & A); eauto; [discriminate| |].
    + unfold area_name. change ("_" ++ "L")%string with "_L"%string. rewrite H, (sym_L _ H).
      destruct (mem (sym ++ "_L") K_LINE) eqn:K; [apply (fam_K sym) in K; discriminate|]. unfold pname, line_of. now rewrite !sapp_assoc.
    + exists c, r. split; [reflexivity|]. split; [exact A|]. intros e. apply (G _ _ F). now left.
  - assert (H : mem (sym ++ "_M") M_LINE = true).
    { apply orb_prop in M as [M|M]; [apply (fam_K sym) in M; discriminate|]. apply orb_prop in M as [M|M]; [apply (fam_L sym) in M; discriminate|]. exact M. }
    destruct (built_M cs en is_element p energy sym area l H B) as (X & F).
    edestruct (area_first p energy sym "M" "ma1" M_TRANSITIONS area l X) as (c & r & -> & A); eauto; [discriminate| |].
    + unfold area_name. change ("_" ++ "M")%string with "_M"%string. rewrite H, (sym_M _ H).
      destruct (mem (sym ++ "_M") K_LINE) eqn:K; [apply (fam_K sym) in K; discriminate|].
      destruct (mem (sym ++ "_M") L_LINE) eqn:L; [apply (fam_L sym) in L; discriminate|]. unfold pname, line_of. now rewrite !sapp_assoc.
    + exists c, r. split; [reflexivity|]. split; [exact A|]. intros e. apply (G _ _ F). now left.
Qed.
End Tables.

(** ** Areas *)
Definition present (vals : list (string * Qc)) (el t : string) : bool := match aget vals ((el ++ "_" ++ t) ++ "_area") with Some _ => true | None => false end.
Definition val_of (vals : list (string * Qc)) (n : string) : Qc := match aget vals n with Some v => v | None => 0%Qc end.
Lemma sum_lines_ok vals el : forall ts acc,
  (forall t, In t ts -> present vals el t = true -> aget vals ((el ++ "_" ++ t) ++ "_ratio") <> None /\ aget vals ((el ++ "_" ++ t) ++ "_ratio_adjust") <> None) ->
  sum_lines vals el ts acc = inl (acc + qsum (map (fun t => val_of vals ((el ++ "_" ++ t) ++ "_area") * val_of vals ((el ++ "_" ++ t) ++ "_ratio") *
     val_of vals ((el ++ "_" ++ t) ++ "_ratio_adjust"))%Qc (filter (present vals el) ts)))%Qc.
Proof.
  induction ts as [|t ts IH]; intros acc H; cbn [sum_lines filter map qsum].
  - f_equal. ring.
  - unfold line_area. pose proof (H t (or_introl eq_refl)) as Ht. unfold present at 1 in Ht. unfold present at 1.
    destruct (aget vals ((el ++ "_" ++ t) ++ "_area")) as [a|] eqn:Ea.
    + destruct (Ht eq_refl) as (Hr & Hj). destruct (aget vals ((el ++ "_" ++ t) ++ "_ratio")) as [r|] eqn:Er; [|congruence].
      destruct (aget vals ((el ++ "_" ++ t) ++ "_ratio_adjust")) as [j|] eqn:Ej; [|congruence].
      rewrite IH by (intros; apply H; [now right|assumption]). cbn [map qsum]. f_equal. unfold val_of at 4 5 6. rewrite Ea, Er, Ej. ring.
    + apply IH. intros; apply H; [now right|assumption].
Qed.

(** ** Fitted values *)
Lemma update_get p vals k : aget (update_parameter_dict p vals) k =
  match aget p k with None => None | Some e => Some (match aget vals (fit_name k) with Some v => with_value v e | None => e end) end.
Proof.
  unfold update_parameter_dict.
  rewrite (map_ext _ (fun kv => let '(k, v) := kv in (k, match aget vals (fit_name k) with Some w => with_value w v | None => v end)))
    by (intros [k' e]; destruct (aget vals (fit_name k')); reflexivity).
  rewrite (aget_map (fun k v => match aget vals (fit_name k) with Some w => with_value w v | None => v end)). now destruct (aget p k).
Qed.
Lemma update_keys p vals : map fst (update_parameter_dict p vals) = map fst p.
Proof. unfold update_parameter_dict. rewrite map_map. apply map_ext. intros [k e]. now destruct (aget vals (fit_name k)). Qed.

(** ** Tables used in examples: every K and L line is excited, with cross section 1; M lines are not. *)
Definition cs_ex (_ : string) (_ : Qc) (ln : string) : Qc := if contains "m" ln then 0%Qc else 1%Qc.
Definition en_ex (_ : string) (ln : string) : Qc := if contains "k" ln then qz 6 else qz 1.
Definition el_ex (sym : string) : bool := mem sym ["Fe"; "Ga"; "Si"; "Pt"]%string.
Definition p_ex : params_t := [("coherent_sct_energy", {| value := qz 12; pmin := qz 9; pmax := qz 13; bound := "fixed" |})]%string.
(** Refutations *)
Lemma L_family_has_kb : exists cs energy n, In n (get_activated_lines cs energy ["Ga_L"]%string) /\ n = "Ga_kb2"%string.
Proof. exists cs_ex, (qz 12), "Ga_kb2"%string. split; [|reflexivity]. vm_compute. tauto. Qed.
Lemma K_family_omits : exists cs energy ln, In ln K_TRANSITIONS /\ cs "Ga"%string energy ln <> 0%Qc /\ cs "Ga"%string energy "ka1"%string <> 0%Qc /\
  ~ In ("Ga_" ++ ln)%string (get_activated_lines cs energy ["Ga_K"]%string).
Proof.
  exists cs_ex, (qz 12), "kb3"%string. split; [vm_compute; tauto|]. split; [discriminate|]. split; [discriminate|].
  vm_compute. intros H. repeat (destruct H as [H|H]; [discriminate H|]). exact H.
Qed.
Lemma kb_not_adjustable : exists cs en is_element p energy st l c, controller cs p ["Ga_K"]%string = inl (st, None) /\
  setup_element_model cs en is_element (params st) energy "Ga_K" 1%Qc = Comps l /\ In c l /\ pre c = "Ga_kb2_"%string /\
  forall k, k <> Area -> aget (params st) (comp_name c k) = None.
Proof.
  exists cs_ex, en_ex, el_ex, p_ex, (qz 12). eexists. eexists. eexists.
  split; [vm_compute; reflexivity|]. split; [vm_compute; reflexivity|]. split; [do 4 right; left; reflexivity|]. split; [reflexivity|].
  intros k Hk. destruct k; [reflexivity..|congruence].
Qed.
