(* C47, C48, C50, C79-C83: parameters, lines and strategies of the X-ray fluorescence model.
   The cross sections [cs], the line energies [en] and the elements known [is_element] are arbitrary. *)
From Verif Require Import Common Xrf_Model Xrf_Proofs Xrf_More Xrf_Comps.
Open Scope list_scope.

(** C47, L family: position, width and ratio parameters are added under exactly the names of the
    components that are built, and a component takes its value and vary flag from them. *)
Theorem C47_L cs en is_element p energy sym area l k :
  mem (sym ++ "_L") L_LINE = true -> k <> Area -> setup_element_model cs en is_element p energy (sym ++ "_L") area = Comps l ->
  added_names (get_activated_lines cs energy [(sym ++ "_L")%string]) k (sym ++ "_L") = inl (map (fun c => comp_name c k) l) /\
  forall c e, In c l -> aget p (comp_name c k) = Some e ->
    hvalue (hint_for k c) = Some (value e) /\ hvary (hint_for k c) = Some (negb (String.eqb (bound e) "fixed")).
Proof. exact (names_L cs en is_element p energy sym area l k). Qed.
Print Assumptions C47_L.
(** C47, M family. *)
Theorem C47_M cs en is_element p energy sym area l k :
  mem (sym ++ "_M") M_LINE = true -> k <> Area -> setup_element_model cs en is_element p energy (sym ++ "_M") area = Comps l ->
  added_names (get_activated_lines cs energy [(sym ++ "_M")%string]) k (sym ++ "_M") = inl (map (fun c => comp_name c k) l) /\
  forall c e, In c l -> aget p (comp_name c k) = Some e ->
    hvalue (hint_for k c) = Some (value e) /\ hvary (hint_for k c) = Some (negb (String.eqb (bound e) "fixed")).
Proof. exact (names_M cs en is_element p energy sym area l k). Qed.
Print Assumptions C47_M.
(** C47, K family: every name added belongs to a component, but only ka1, ka2, ka3, kb1 get one. *)
Theorem C47_K cs en is_element p energy sym area l k :
  mem (sym ++ "_K") K_LINE = true -> k <> Area -> setup_element_model cs en is_element p energy (sym ++ "_K") area = Comps l ->
  (exists names, added_names (get_activated_lines cs energy [(sym ++ "_K")%string]) k (sym ++ "_K") = inl names /\
     forall c, In c l -> (In (comp_name c k) names <-> In (pre c) (map (fun ln => sym ++ "_" ++ ln ++ "_") ["ka1"; "ka2"; "ka3"; "kb1"])%string) /\
     (forall n, In n names -> exists c, In c l /\ n = comp_name c k)) /\
  forall c e, In c l -> aget p (comp_name c k) = Some e ->
    hvalue (hint_for k c) = Some (value e) /\ hvary (hint_for k c) = Some (negb (String.eqb (bound e) "fixed")).
Proof. exact (names_K cs en is_element p energy sym area l k). Qed.
Print Assumptions C47_K.
(** ... so an excited kb2 is in the model with no parameter to adjust it. *)
Theorem C47_K_refuted : exists cs en is_element p energy st l c, controller cs p ["Ga_K"]%string = inl (st, None) /\
  setup_element_model cs en is_element (params st) energy "Ga_K" 1%Qc = Comps l /\ In c l /\ pre c = "Ga_kb2_"%string /\
  forall k, k <> Area -> aget (params st) (comp_name c k) = None.
Proof. exact kb_not_adjustable. Qed.
Print Assumptions C47_K_refuted.
(** C47: the area parameter of a family is that of its first component. *)
Theorem C47_area cs en is_element p energy sym area l fam : In fam ["K"; "L"; "M"]%string -> mem (sym ++ "_" ++ fam) (K_LINE ++ L_LINE ++ M_LINE) = true ->
  setup_element_model cs en is_element p energy (sym ++ "_" ++ fam) area = Comps l ->
  exists c r, l = c :: r /\ area_name (sym ++ "_" ++ fam) = inl (comp_name c Area) /\
    forall e, aget p (comp_name c Area) = Some e -> hvalue (h_area c) = Some (value e) /\ hvary (h_area c) = Some (negb (String.eqb (bound e) "fixed")).
Proof. exact (area_all cs en is_element p energy sym area l fam). Qed.
Print Assumptions C47_area.
(** C47, user peaks: one name per kind, and the builder finds it. *)
Theorem C47_user cs en is_element p energy el area l k e linenames :
  (4 < String.length el)%nat -> contains "user" (lower el) = true -> setup_element_model cs en is_element p energy el area = Comps l ->
  added_names linenames k el = inl [(el ++ "_" ++ suffix k)%string] /\
  (aget p (el ++ "_" ++ suffix k) = Some e ->
   exists c, l = [c] /\ hvalue (hint_for k c) = Some (value e) /\ hvary (hint_for k c) = Some (negb (String.eqb (bound e) "fixed"))).
Proof.
  intros L U B. split; [exact (added_user cs en is_element linenames k el L U)|].
  exact (built_user cs en is_element p energy el area l k e L U B).
Qed.
Print Assumptions C47_user.
(** C47: a user peak nothing is stored for: at 5 keV, of free area not below zero, all else fixed *)
Definition fresh_peak (prefix : string) (cen area : Qc) (c : comp) : Prop :=
  pre c = prefix /\ center c = cen /\ ratio c = 1%Qc /\
  hvalue (h_area c) = Some area /\ hvary (h_area c) = Some true /\ hmin (h_area c) = Some 0%Qc /\ hmax (h_area c) = None /\ hexpr (h_area c) = None /\
  (forall h, In h [h_pos c; h_width c] -> hvalue h = Some 0%Qc /\ hvary h = Some false /\ hmin h = None /\ hmax h = None /\ hexpr h = None) /\
  hvalue (h_ratio c) = Some 1%Qc /\ hvary (h_ratio c) = Some false /\ hmin (h_ratio c) = None /\ hmax (h_ratio c) = None /\ hexpr (h_ratio c) = None.
Lemma fresh_component p pf cen area : (forall k, aget p (pf ++ suffix k) = None) ->
  exists c, one (component p pf cen 1%Qc (kw (dflt p (pf ++ "area") area) true (Some 0%Qc) None None) still still) = Comps [c] /\ fresh_peak pf cen area c.
Proof.
  intros H. pose proof (H Area) as A. pose proof (H Pos) as P. pose proof (H Width) as W. pose proof (H Ratio) as R. cbn [suffix] in *.
  unfold component, adjust, dflt. rewrite A, P, W, R. eexists. split; [reflexivity|]. unfold fresh_peak. cbn. repeat (split; [reflexivity|]). split; [|repeat split].
  intros h [<-|[<-|[]]]; repeat split.
Qed.
Theorem C47_user_fresh cs en is_element p energy el area : (4 < String.length el)%nat -> contains "user" (lower el) = true ->
  (forall k, aget p ((el ++ "_") ++ suffix k) = None) ->
  exists c, setup_element_model cs en is_element p energy el area = Comps [c] /\ fresh_peak (el ++ "_") (qz 5) area c.
Proof.
  intros L U H. destruct (fresh_component p (el ++ "_") (qz 5) area H) as (c & E & F). exists c. split; [|exact F].
  destruct (long_not _ L) as (K1 & K2 & K3). unfold setup_element_model. rewrite K1, K2, K3, U. exact E.
Qed.
Print Assumptions C47_user_fresh.
(** ... and a pile-up peak nothing is stored for: the same at the sum of the two line energies *)
Theorem C47_pileup_fresh cs en is_element p energy el area l1 l2 e1 e2 : (4 < String.length el)%nat -> contains "user" (lower el) = false ->
  split "-" el = [l1; l2] -> get_line_energy en is_element l1 = inl e1 -> get_line_energy en is_element l2 = inl e2 ->
  (forall k, aget p (("pileup_" ++ replace "-" "_" el ++ "_") ++ suffix k) = None) ->
  exists c, setup_element_model cs en is_element p energy el area = Comps [c] /\ fresh_peak ("pileup_" ++ replace "-" "_" el ++ "_") (e1 + e2)%Qc area c.
Proof.
  intros L U S1 G1 G2 H. destruct (fresh_component p _ (e1 + e2)%Qc area H) as (c & E & F). exists c. split; [|exact F].
  rewrite (pileup_form cs en is_element p energy el area L U), S1, G1, G2. exact E.
Qed.
Print Assumptions C47_pileup_fresh.
(** C47, pile-up peaks: the area is found, *)
Theorem C47_pileup_area cs en is_element p energy el area l e linenames n :
  (4 < String.length el)%nat -> contains "user" (lower el) = false -> contains "-" el = true ->
  added_names linenames Area el = inl [n] -> setup_element_model cs en is_element p energy el area = Comps l -> aget p n = Some e ->
  exists c, l = [c] /\ hvalue (h_area c) = Some (value e) /\ hvary (h_area c) = Some (negb (String.eqb (bound e) "fixed")).
Proof. exact (pileup_area cs en is_element p energy el area l e linenames n). Qed.
Print Assumptions C47_pileup_area.
(** ... the other three are not: whatever is stored under the name added, the model is the same. *)
Theorem C47_pileup_ignored cs en is_element p energy el area k linenames :
  (4 < String.length el)%nat -> contains "user" (lower el) = false -> k <> Area ->
  exists n, added_names linenames k el = inl [n] /\
    forall e, setup_element_model cs en is_element (aset p n e) energy el area = setup_element_model cs en is_element p energy el area.
Proof.
  intros L U K. eexists. split; [exact (added_pileup cs en is_element linenames k el L U K)|].
  intros e. exact (pileup_ignored cs en is_element p energy el area k _ e linenames L U K (added_pileup cs en is_element linenames k el L U K)).
Qed.
Print Assumptions C47_pileup_ignored.
(** C47: the components of a family in full: one per excited line in the order of the table, with its
    energy, its ratio to the first line, its area tied to that of the first line, K-alpha-2 following
    K-alpha-1, and every hint overlaid by the parameter of its name. *)
Theorem C47_components cs en is_element p energy sym area l fam first ts :
  In (fam, first, ts) [("K", "ka1", K_TRANSITIONS); ("L", "la1", L_TRANSITIONS); ("M", "ma1", M_TRANSITIONS)]%string ->
  mem (sym ++ "_" ++ fam) (K_LINE ++ L_LINE ++ M_LINE) = true -> setup_element_model cs en is_element p energy (sym ++ "_" ++ fam) area = Comps l ->
  let lines := filter (fun ln => negb (Qc_eqb (cs sym energy ln) 0%Qc)) ts in
  length l = length lines /\ forall i ln c, nth_error lines i = Some ln -> nth_error l i = Some c ->
    family_component cs en p sym first (String.eqb fam "K") energy area lines i ln c.
Proof. exact (setup_hints cs en is_element p energy sym area l fam first ts). Qed.
Print Assumptions C47_components.
Example C47_components_ex :
  let p := p_ex ++ [("Fe_ka1_area", {| value := qz 7; pmin := qz 2; pmax := qz 9; bound := "hi" |}); ("Fe_kb1_area", {| value := qz 3; pmin := qz 2; pmax := qz 9; bound := "lo" |})]%string in
  match setup_element_model cs_ex en_ex el_ex p (qz 12) "Fe_K" 1%Qc with
  | Comps (a :: b :: _ :: d :: e :: _) =>
      h_area a = {| hvalue := Some (qz 7); hvary := Some true; hmin := Some 0%Qc; hmax := Some (qz 9); hexpr := None |} /\
      h_area b = {| hvalue := Some (qz 7); hvary := Some true; hmin := None; hmax := None; hexpr := Some "Fe_ka1_area"%string |} /\
      hexpr (h_pos b) = Some "Fe_ka1_delta_center"%string /\
      h_area d = {| hvalue := Some (qz 3); hvary := Some true; hmin := Some (qz 2); hmax := None; hexpr := Some "Fe_ka1_area"%string |} /\
      hvalue (h_area e) = Some (qz 3)
  | _ => False
  end.
Proof. vm_compute. repeat split. Qed.
Example C47_fresh_ex : (forall k, aget p_ex (("user_peak1" ++ "_") ++ suffix k) = None)%string /\ contains "user" (lower "user_peak1") = true /\
  (forall k, aget p_ex (("pileup_" ++ replace "-" "_" "Si_Ka1-Si_Ka1" ++ "_") ++ suffix k) = None)%string /\ split "-" "Si_Ka1-Si_Ka1" = ["Si_Ka1"; "Si_Ka1"]%string /\
  get_line_energy en_ex el_ex "Si_Ka1" = inl (qz 6).
Proof. split; [intros []; reflexivity|]. split; [reflexivity|]. split; [intros []; reflexivity|]. split; reflexivity. Qed.
Example C47_ex :
  added_names (get_activated_lines cs_ex (qz 12) ["Pt_L"]%string) Ratio "Pt_L" =
    inl (map (fun ln => "Pt_" ++ ln ++ "_ratio_adjust") L_TRANSITIONS)%string /\
  (exists l, setup_element_model cs_ex en_ex el_ex p_ex (qz 12) "Pt_L" 1%Qc = Comps l /\ length l = 13%nat) /\
  added_names [] Pos "user_peak1" = inl ["user_peak1_delta_center"]%string /\
  added_names [] Pos "Si_Ka1-Si_Ka1" = inl ["pileup_Si_Ka1_Si_Ka1delta_center"]%string /\
  (exists c, setup_element_model cs_ex en_ex el_ex p_ex (qz 12) "Si_Ka1-Si_Ka1" 1%Qc = Comps [c] /\ pre c = "pileup_Si_Ka1_Si_Ka1_"%string).
Proof.
  split; [reflexivity|]. split; [eexists; split; [vm_compute; reflexivity|reflexivity]|]. split; [reflexivity|]. split; [reflexivity|].
  eexists. split; vm_compute; reflexivity.
Qed.

(** C48: the lines of a K family: the excited ones among ka1, ka2, ka3, kb1, provided ka1 is excited. *)
Theorem C48_K cs energy sym n : mem (sym ++ "_K") K_LINE = true ->
  (In n (get_activated_lines cs energy [(sym ++ "_K")%string]) <->
   exists ln, n = (sym ++ "_" ++ ln)%string /\ In ln ["ka1"; "ka2"; "ka3"; "kb1"]%string /\ cs sym energy ln <> 0%Qc /\ cs sym energy "ka1"%string <> 0%Qc).
Proof. exact (lines_K cs (fun _ _ => 0%Qc) (fun _ => true) energy sym n). Qed.
Print Assumptions C48_K.
(** C48: of an L family: the excited L lines, and also kb2 to kb5. *)
Theorem C48_L cs energy sym n : mem (sym ++ "_L") L_LINE = true ->
  (In n (get_activated_lines cs energy [(sym ++ "_L")%string]) <->
   exists ln, n = (sym ++ "_" ++ ln)%string /\ In ln (["kb2"; "kb3"; "kb4"; "kb5"]%string ++ L_TRANSITIONS) /\ cs sym energy ln <> 0%Qc /\ cs sym energy "la1"%string <> 0%Qc).
Proof. exact (lines_L cs (fun _ _ => 0%Qc) (fun _ => true) energy sym n). Qed.
Print Assumptions C48_L.
(** C48: of an M family: the excited M lines. *)
Theorem C48_M cs energy sym n : mem (sym ++ "_M") M_LINE = true ->
  (In n (get_activated_lines cs energy [(sym ++ "_M")%string]) <->
   exists ln, n = (sym ++ "_" ++ ln)%string /\ In ln ["ma1"; "ma2"; "mb"; "mg"]%string /\ cs sym energy ln <> 0%Qc /\ cs sym energy "ma1"%string <> 0%Qc).
Proof. exact (lines_M cs (fun _ _ => 0%Qc) (fun _ => true) energy sym n). Qed.
Print Assumptions C48_M.
(** C48: the lines of several families are those of each. *)
Theorem C48_union cs energy els n :
  In n (get_activated_lines cs energy els) <-> exists el, In el els /\ In n (get_activated_lines cs energy [el]).
Proof.
  rewrite (activated_in cs energy els n). unfold get_activated_lines. cbn [flat_map].
  split; intros (el & I & H); exists el; (split; [exact I|]); [rewrite app_nil_r|rewrite app_nil_r in H]; exact H.
Qed.
Print Assumptions C48_union.
(** C48: user peaks, pile-up peaks and unknown names contribute no line. *)
Theorem C48_other cs energy el : mem el K_LINE = false -> mem el L_LINE = false -> mem el M_LINE = false -> get_activated_lines cs energy [el] = [].
Proof. intros K L M. unfold get_activated_lines. cbn. rewrite app_nil_r. unfold activated_line. now rewrite K, L, M. Qed.
Print Assumptions C48_other.
Theorem C48_L_refuted : exists cs energy n, In n (get_activated_lines cs energy ["Ga_L"]%string) /\ n = "Ga_kb2"%string.
Proof. exact L_family_has_kb. Qed.
Print Assumptions C48_L_refuted.
Theorem C48_K_refuted : exists cs energy ln, In ln K_TRANSITIONS /\ cs "Ga"%string energy ln <> 0%Qc /\ cs "Ga"%string energy "ka1"%string <> 0%Qc /\
  ~ In ("Ga_" ++ ln)%string (get_activated_lines cs energy ["Ga_K"]%string).
Proof. exact K_family_omits. Qed.
Print Assumptions C48_K_refuted.
Example C48_ex : get_activated_lines cs_ex (qz 12) ["Fe_K"; "Pt_M"; "user_peak1"]%string = ["Fe_ka1"; "Fe_ka2"; "Fe_ka3"; "Fe_kb1"]%string.
Proof. reflexivity. Qed.

(** C50: what set_parameter_bound leaves in an entry. *)
Theorem C50_bound reg p o extra s k e : aget reg o = Some s -> aget p k = Some e ->
  exists p' e', set_parameter_bound reg p o extra = inl p' /\ map fst p' = map fst p /\ aget p' k = Some e' /\
    value e' = value e /\ pmin e' = pmin e /\ pmax e' = pmax e /\
    bound e' = if String.eqb k "non_fitting_values" then bound e
               else match aget (table s) k with Some b => b | None => match aget extra k with Some b => b | None => "fixed"%string end end.
Proof. exact (set_bound_get reg p o extra s k e). Qed.
Print Assumptions C50_bound.
(** C50: an unknown strategy raises KeyError. *)
Theorem C50_unknown reg p o extra : aget reg o = None -> set_parameter_bound reg p o extra = inr KeyErr.
Proof. exact (set_bound_unknown reg p o extra). Qed.
Print Assumptions C50_unknown.
(** C50: one registration: it either registers the strategy and touches no other key, or, with
    overwrite off and another strategy there, raises and changes nothing. *)
Theorem C50_register reg key s o :
  match snd (register_strategy reg key s o) with
  | Some e => e = RuntimeErr /\ o = false /\ fst (register_strategy reg key s o) = reg /\ (exists s0, aget reg key = Some s0 /\ sid s0 <> sid s)
  | None => exists s1, aget (fst (register_strategy reg key s o)) key = Some s1 /\ sid s1 = sid s /\
      (forall k, k <> key -> aget (fst (register_strategy reg key s o)) k = aget reg k)
  end.
Proof. exact (register_cases reg key s o). Qed.
Print Assumptions C50_register.
(** C50: the built-in strategies are different objects: none can be registered under the name of another. *)
Theorem C50_distinct k1 k2 s1 s2 : aget builtin k1 = Some s1 -> aget builtin k2 = Some s2 -> k1 <> k2 ->
  register_strategy builtin k1 s2 false = (builtin, Some RuntimeErr).
Proof.
  intros H1 H2 N. assert (K : forall k s, aget builtin k = Some s -> In k ["linear"; "adjust_element"; "e_calibration"; "fit_with_tail"; "free_more"]%string).
  { intros k s. unfold builtin. cbn [aget]. repeat (match goal with |- context [String.eqb ?a ?b] => destruct (String.eqb_spec a b); [intros _; subst; cbn; tauto|] end). discriminate. }
  pose proof (K _ _ H1) as I1. pose proof (K _ _ H2) as I2. cbn in I1, I2.
  repeat (destruct I1 as [<-|I1]; [repeat (destruct I2 as [<-|I2]; [first [exfalso; apply N; reflexivity|injection H2 as <-; reflexivity]|]); destruct I2|]). destruct I1.
Qed.
Print Assumptions C50_distinct.
(** C50: along any history of registrations a strategy stays unless it is overwritten. *)
Theorem C50_history l reg k s0 : aget reg k = Some s0 -> (forall s, In (k, s, true) l -> sid s = sid s0) ->
  exists s1, aget (run_register reg l) k = Some s1 /\ sid s1 = sid s0.
Proof. exact (run_register_keeps l reg k s0). Qed.
Print Assumptions C50_history.
(** C50: what a bound means for the fit, and that any other word raises. *)
Theorem C50_hint e : (In (bound e) ["none"; "fixed"; "lohi"; "lo"; "hi"]%string <-> exists h, hint_of e = inl h) /\
  forall h, hint_of e = inl h -> hvalue h = Some (value e) /\ hvary h = Some (negb (String.eqb (bound e) "fixed")) /\
    hmin h = (if String.eqb (bound e) "lohi" || String.eqb (bound e) "lo" then Some (pmin e) else None) /\
    hmax h = (if String.eqb (bound e) "lohi" || String.eqb (bound e) "hi" then Some (pmax e) else None) /\ hexpr h = None.
Proof. split; [exact (hint_of_ok e)|exact (hint_of_spec e)]. Qed.
Print Assumptions C50_hint.
(** C50: the five built-in strategies: which parameters each frees; all others, areas included, are fixed. *)
Theorem C50_builtin p name p' k e : set_parameter_bound builtin p name [] = inl p' -> k <> "non_fitting_values"%string -> aget p k = Some e ->
  exists e', aget p' k = Some e' /\ value e' = value e /\
    bound e' = if mem k ["coherent_sct_amplitude"; "compton_amplitude"]%string then "none"%string else if mem k (freed name) then "lohi"%string else "fixed"%string.
Proof. exact (builtin_bounds p name p' k e). Qed.
Print Assumptions C50_builtin.
Example C50_builtin_ex : match set_parameter_bound builtin [("e_linear", default_entry Pos); ("compton_amplitude", default_entry Area); ("Fe_ka1_area", default_entry Area)]%string "e_calibration" [] with
  | inl p => map (fun kv => (fst kv, bound (snd kv))) p = [("e_linear", "lohi"); ("compton_amplitude", "none"); ("Fe_ka1_area", "fixed")]%string
  | inr _ => False
  end.
Proof. reflexivity. Qed.
Example C50_ex : let s := {| sid := 9; table := [("e_linear", "lohi")]%string |} in
  let reg := run_register builtin [("mine", s, false); ("linear", s, false); ("mine", {| sid := 10; table := [] |}, false)]%string in
  option_map sid (aget reg "linear") = Some 0%nat /\ option_map sid (aget reg "mine") = Some 9%nat /\
  match set_parameter_bound reg (p_ex ++ [("e_linear", default_entry Pos); ("Fe_ka1_area", default_entry Area)]%string) "mine" [("Fe_ka1_area", "lo")]%string with
  | inl p => map (fun kv => (fst kv, bound (snd kv))) p = [("coherent_sct_energy", "fixed"); ("e_linear", "lohi"); ("Fe_ka1_area", "lo")]%string
  | inr _ => False
  end.
Proof. repeat split. Qed.

(** C79: after any built-in strategy every area of a freshly built controller is fixed. *)
Theorem C79_areas_fixed cs p els st name st' el n : controller cs p els = inl (st, None) -> set_strategy builtin st name = inl st' ->
  In el els -> area_name el = inl n -> exists e, aget (params st') n = Some e /\ bound e = "fixed"%string.
Proof. exact (fresh_areas_fixed cs p els st name st' el n). Qed.
Print Assumptions C79_areas_fixed.
(** the documented starting values of a parameter *)
Definition documented (k : kind) : entry :=
  match k with
  | Pos => {| value := 0%Qc; pmin := Q2Qc (-5 # 1000); pmax := Q2Qc (5 # 1000); bound := "fixed" |}
  | Width => {| value := 0%Qc; pmin := Q2Qc (-2 # 100); pmax := Q2Qc (2 # 100); bound := "fixed" |}
  | Area => {| value := qz 1000; pmin := 0%Qc; pmax := qz 1000000000; bound := "none" |}
  | Ratio => {| value := 1%Qc; pmin := Q2Qc (1 # 10); pmax := qz 5; bound := "fixed" |}
  end.
Lemma documented_default k : default_entry k = documented k. Proof. destruct k; reflexivity. Qed.
(** C79: update_element_prop resets the parameter to its default; the constraint given takes
    effect with the next strategy that does not name the parameter. *)
Theorem C79_update cs st el k c st1 reg name s st2 n : update_element_prop cs st [el] [(k, c)] = (st1, None) ->
  (exists names, added_names (linenames st1) k el = inl names /\ In n names) ->
  aget reg name = Some s -> aget (table s) n = None -> n <> "non_fitting_values"%string -> set_strategy reg st1 name = inl st2 ->
  aget (params st1) n = Some (documented k) /\
  exists e, aget (params st2) n = Some e /\ bound e = c /\ value e = value (documented k).
Proof. rewrite <- documented_default. exact (update_then_strategy cs st el k c st1 reg name s st2 n). Qed.
Print Assumptions C79_update.
(** C79: update_element_prop on elements already present, with any number of elements and kinds (the keywords of a call are distinct):
    every parameter of every kind and element asked for is reset and gets the constraint of its kind, no other is touched. *)
Definition asked (ls els : list string) (kwargs : list (kind * string)) (n : string) (k : kind) (c : string) : Prop :=
  In (k, c) kwargs /\ exists el names, In el els /\ added_names ls k el = inl names /\ In n names.
Theorem C79_update_all cs st els kwargs st' : NoDup (map fst kwargs) -> (forall el, In el els -> In el (element_list st)) ->
  update_element_prop cs st els kwargs = (st', None) ->
  element_list st' = element_list st /\ linenames st' = linenames st /\
  (forall n k c, asked (linenames st) els kwargs n k c -> aget (params st') n = Some (documented k) /\ aget (estrategy st') n = Some c) /\
  (forall n, (forall k c, ~ asked (linenames st) els kwargs n k c) -> aget (params st') n = aget (params st) n /\ aget (estrategy st') n = aget (estrategy st) n).
Proof.
  intros ND HE H. assert (M : forall k el c, In (k, el, c) (flat_map (fun el => map (fun kc : kind * string => (fst kc, el, Some (snd kc))) kwargs) els) <->
    In el els /\ exists c', c = Some c' /\ In (k, c') kwargs).
  { intros k el c. rewrite in_flat_map. split.
    - intros (el' & I & J). apply in_map_iff in J. destruct J as ([k' c'] & [= -> -> <-] & J). split; [exact I|]. exists c'. auto.
    - intros (I & c' & -> & J). exists el. split; [exact I|]. apply in_map_iff. exists (k, c'). auto. }
  destruct (add_params_all cs _ st st' (fun k el c I => HE el (proj1 (proj1 (M k el c) I))) H) as (A & B & C). split; [exact A|]. split; [exact B|].
  split.
  - intros n k c (I & el & names & J & N & K). destruct (C n) as [(k' & el' & c' & names' & I' & N' & K' & P & S)|(Z & _)].
    + apply M in I'. destruct I' as (J' & b & -> & I'). assert (k' = k) as -> by exact (name_kind _ _ _ _ _ _ _ _ n N' N K' K).
      rewrite documented_default in P. split; [exact P|]. rewrite S. f_equal. exact (nodup_fst kwargs k b c ND I' I).
    + destruct (Z k el (Some c) names (proj2 (M k el (Some c)) (conj J (ex_intro _ c (conj eq_refl I)))) N K).
  - intros n Hn. destruct (C n) as [(k' & el' & c' & names' & I' & N' & K' & _)|(_ & P)]; [|exact P].
    apply M in I'. destruct I' as (J' & b & -> & I'). destruct (Hn k' b). split; [exact I'|]. exists el', names'. auto.
Qed.
Print Assumptions C79_update_all.
Example C79_update_all_ex : match controller cs_ex p_ex ["Fe_K"; "user_peak1"]%string with
  | inl (st, None) => match update_element_prop cs_ex st ["Fe_K"; "user_peak1"]%string [(Area, "none"); (Pos, "lohi")]%string with
      | (st1, None) => map (aget (estrategy st1)) ["Fe_ka1_area"; "user_peak1_area"; "Fe_kb1_delta_center"; "user_peak1_delta_center"; "Fe_ka1_delta_sigma"]%string
                       = [Some "none"; Some "none"; Some "lohi"; Some "lohi"; None]%string
      | _ => False
      end
  | _ => False
  end.
Proof. vm_compute. reflexivity. Qed.
(** C79: a call that fails on an unknown element has still added it to the element list. *)
Theorem C79_failed_call cs st el c : mem el (element_list st) = false -> aget (params st) "coherent_sct_energy" <> None -> area_name el = inr ValueErr ->
  snd (add_param cs st Area el c) = Some ValueErr /\ element_list (fst (add_param cs st Area el c)) = element_list st ++ [el].
Proof. exact (add_param_bad cs st el c). Qed.
Print Assumptions C79_failed_call.
(** C79: a call that succeeds sets exactly the parameters named, to their defaults. *)
Theorem C79_add cs st k el c st' : add_param cs st k el c = (st', None) ->
  exists names, added_names (linenames st') k el = inl names /\
    (forall n, aget (params st') n = if mem n names then Some (documented k) else aget (params st) n) /\
    (forall n, aget (estrategy st') n = match c with Some b => if mem n names then Some b else aget (estrategy st) n | None => aget (estrategy st) n end) /\
    element_list st' = (if mem el (element_list st) then element_list st else element_list st ++ [el]).
Proof. rewrite <- documented_default. intros H. destruct (add_param_ok cs st k el c st' H) as (names & A & B & C & _ & D). exists names. auto. Qed.
Print Assumptions C79_add.
(** C79: it keeps the lines already known and adds those of an elemental line that is new. *)
Theorem C79_lines cs st k el c st' e : add_param cs st k el c = (st', None) -> aget (params st) "coherent_sct_energy" = Some e ->
  forall n, In n (linenames st') <-> In n (linenames st) \/ (~ In el (element_list st) /\ In n (get_activated_lines cs (value e) [el])).
Proof. exact (add_param_lines cs (fun _ _ => 0%Qc) (fun _ => true) st k el c st' e). Qed.
Print Assumptions C79_lines.
Example C79_lines_ex : match controller cs_ex p_ex ["Fe_K"]%string with
  | inl (st, None) => linenames (fst (add_param cs_ex st Ratio "Ga_K" None)) =
      ["Fe_ka1"; "Fe_ka2"; "Fe_ka3"; "Fe_kb1"; "Ga_ka1"; "Ga_ka2"; "Ga_ka3"; "Ga_kb1"]%string
  | _ => False
  end.
Proof. vm_compute. reflexivity. Qed.
Example C79_ex : match controller cs_ex p_ex ["Fe_K"; "user_peak1"]%string with
  | inl (st, None) =>
      option_map bound (aget (params st) "Fe_ka1_area") = Some "none"%string /\
      match set_strategy builtin st "linear" with
      | inl st' => option_map bound (aget (params st') "Fe_ka1_area") = Some "fixed"%string
      | inr _ => False
      end /\
      match update_element_prop cs_ex st ["Fe_K"]%string [(Area, "none"%string)] with
      | (st1, None) => match set_strategy builtin st1 "linear" with
          | inl st2 => option_map bound (aget (params st2) "Fe_ka1_area") = Some "none"%string
          | inr _ => False
          end
      | _ => False
      end
  | _ => False
  end /\ area_name "Xx" = inr ValueErr.
Proof. vm_compute. repeat split. Qed.

(** C80: sum_area adds area * ratio * ratio_adjust over the lines of the family that were fitted. *)
Theorem C80_sum_area el fam ts elemental_line vals : split "_" elemental_line = [el; fam] -> transitions fam = Some ts ->
  (forall t, In t ts -> present vals el t = true -> aget vals ((el ++ "_" ++ t) ++ "_ratio") <> None /\ aget vals ((el ++ "_" ++ t) ++ "_ratio_adjust") <> None) ->
  sum_area elemental_line vals = inl (qsum (map (fun t => val_of vals ((el ++ "_" ++ t) ++ "_area") * val_of vals ((el ++ "_" ++ t) ++ "_ratio") *
     val_of vals ((el ++ "_" ++ t) ++ "_ratio_adjust"))%Qc (filter (present vals el) ts))).
Proof. intros S T H. unfold sum_area. rewrite S, T, (sum_lines_ok vals el ts 0%Qc H). f_equal. ring. Qed.
Print Assumptions C80_sum_area.
(** C80: update_parameter_dict takes over the fitted value of every parameter that was fitted, under
    the name the fit gives it (elastic_ before the two coherent names, _ for -), leaves the others, and
    changes no bound. *)
Theorem C80_update p vals k n : fitted_name k n -> map fst (update_parameter_dict p vals) = map fst p /\ aget (update_parameter_dict p vals) k =
  match aget p k with None => None | Some e => Some (match aget vals n with Some v => {| value := v; pmin := pmin e; pmax := pmax e; bound := bound e |} | None => e end) end.
Proof. intros F. apply fitted_name_is in F as ->. split; [exact (update_keys p vals)|exact (update_get p vals k)]. Qed.
Print Assumptions C80_update.
Example C80_ex :
  let vals := [("Fe_ka1_area", qz 10); ("Fe_ka1_ratio", 1%Qc); ("Fe_ka1_ratio_adjust", qz 2); ("Fe_kb1_area", qz 10); ("Fe_kb1_ratio", qz 3);
               ("Fe_kb1_ratio_adjust", 1%Qc); ("elastic_coherent_sct_energy", qz 13)]%string in
  sum_area "Fe_K" vals = inl (qz 50) /\ option_map value (aget (update_parameter_dict p_ex vals) "coherent_sct_energy") = Some (qz 13).
Proof. split; [cbv zeta; vm_compute; f_equal; apply Qc_is_canon; reflexivity|reflexivity]. Qed.

(** C81: the energy of a line, by its own name: ll, ln, mb and mg cannot be asked for. *)
Theorem C81_line en is_element sym line : no_us sym = true -> is_element sym = true -> In (lower line) all_lines ->
  get_line_energy en is_element (sym ++ "_" ++ line) = if mem (lower line) ["ll"; "ln"; "mb"; "mg"]%string then inr KeyErr else inl (en sym (lower line)).
Proof. exact (energy_of_line en is_element sym line). Qed.
Print Assumptions C81_line.
(** C81: the energy of a family is that of its first line. *)
Theorem C81_family en is_element sym line : no_us sym = true -> is_element sym = true -> In (lower line) ["k"; "l"; "m"]%string ->
  get_line_energy en is_element (sym ++ "_" ++ line) = inl (en sym (lower line ++ "a1")%string).
Proof. exact (energy_of_family en is_element sym line). Qed.
Print Assumptions C81_family.
Example C81_ex : get_line_energy en_ex el_ex "Si_Ka1" = inl (qz 6) /\ get_line_energy en_ex el_ex "Pt_L" = inl (qz 1) /\ get_line_energy en_ex el_ex "Pt_Ll" = inr KeyErr.
Proof. repeat split. Qed.

(** C82: the linear model has one column per active elemental line, in order; *)
Theorem C82_linear cs en is_element p energy area els :
  (forall el, In el els -> fails (setup_element_model cs en is_element p energy el area) = false) ->
  linear_columns cs en is_element p energy area els =
  inl (map (fun el => (el, comps (setup_element_model cs en is_element p energy el area)))
        (filter (fun el => active (setup_element_model cs en is_element p energy el area)) els)).
Proof. exact (linear_ok cs en is_element p energy area els). Qed.
Print Assumptions C82_linear.
(** ... assemble_models has all components when all lines are active, *)
Theorem C82_assemble cs en is_element p energy els :
  (forall el, In el els -> active (setup_element_model cs en is_element p energy el (qz 100000)) = true) ->
  assemble cs en is_element p energy els = inl (flat_map (fun el => comps (setup_element_model cs en is_element p energy el (qz 100000))) els).
Proof. exact (assemble_all cs en is_element p energy els). Qed.
Print Assumptions C82_assemble.
(** ... and raises as soon as one is not. *)
Theorem C82_assemble_inactive cs en is_element p energy els el :
  In el els -> active (setup_element_model cs en is_element p energy el (qz 100000)) = false -> exists e, assemble cs en is_element p energy els = inr e.
Proof. exact (assemble_one cs en is_element p energy els el). Qed.
Print Assumptions C82_assemble_inactive.
(** A K family is active exactly when its ka1 line is excited, and building it does not fail. *)
Theorem C82_active cs en is_element p energy sym area : mem (sym ++ "_K") K_LINE = true ->
  (forall n e, aget p n = Some e -> In (bound e) ["none"; "fixed"; "lohi"; "lo"; "hi"]%string) ->
  fails (setup_element_model cs en is_element p energy (sym ++ "_K") area) = false /\
  (active (setup_element_model cs en is_element p energy (sym ++ "_K") area) = true <-> cs sym energy "ka1"%string <> 0%Qc).
Proof.
  intros H G. destruct (setup_K_active cs en is_element p energy sym area H) as (A & B); [intros ln k e E; exact (G _ _ E)|].
  split; [exact B|]. rewrite A. unfold excited. destruct (Qc_eqb_spec (cs sym energy "ka1"%string) 0%Qc); cbn; split; congruence.
Qed.
Print Assumptions C82_active.
Example C82_ex : (exists l, linear_columns cs_ex en_ex el_ex p_ex (qz 12) 1%Qc ["Fe_K"; "Pt_M"; "Pt_L"]%string = inl l /\ map fst l = ["Fe_K"; "Pt_L"]%string) /\
  assemble cs_ex en_ex el_ex p_ex (qz 12) ["Fe_K"; "Pt_M"; "Pt_L"]%string = inr ValueErr.
Proof. split; [eexists; split; vm_compute; reflexivity|reflexivity]. Qed.

(** C83: the relative cross section of a family is one over the sum of the ratios of the
    components built, that is the share of the first line. *)
Theorem C83_ratio cs en is_element p energy sym area l fam ts : is_element sym = true ->
  In (fam, ts) [("K", K_TRANSITIONS); ("L", L_TRANSITIONS); ("M", M_TRANSITIONS)]%string ->
  mem (sym ++ "_" ++ fam) (K_LINE ++ L_LINE ++ M_LINE) = true -> (forall ln, In ln ts -> 0 <= cs sym energy ln)%Qc ->
  setup_element_model cs en is_element p energy (sym ++ "_" ++ fam) area = Comps l ->
  exists r, relative_cs_ratio cs is_element (sym ++ "_" ++ fam) energy = inl (Some r) /\ (r * qsum (map ratio l) = 1)%Qc.
Proof. exact (ratio_all cs en is_element p energy sym area l fam ts). Qed.
Print Assumptions C83_ratio.
(** C83: with no line excited it is a division by zero. *)
Theorem C83_inactive cs is_element energy sym fam ts el : split "_" el = [sym; fam] -> transitions (upper fam) = Some ts -> is_element sym = true ->
  (forall ln, In ln ts -> cs sym energy ln = 0%Qc) -> relative_cs_ratio cs is_element el energy = inl None.
Proof. exact (ratio_inactive cs is_element energy sym fam ts el). Qed.
Print Assumptions C83_inactive.
Example C83_ex : relative_cs_ratio cs_ex el_ex "Fe_K" (qz 12) = inl (Some (Q2Qc (1 # 8))) /\ relative_cs_ratio cs_ex el_ex "Pt_M" (qz 12) = inl None.
Proof. split; [vm_compute; do 2 f_equal; apply Qc_is_canon; reflexivity|reflexivity]. Qed.
