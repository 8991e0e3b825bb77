(* The components of a family in full: every hint of every line. *)
From Verif Require Import Common Xrf_Model Xrf_Proofs Xrf_More.
Open Scope list_scope.

(** What becomes of a default hint when the parameter dictionary may hold an entry of that name: the
    entry gives value and vary flag, and a bound where its bound type has one; all else is the default's. *)
Definition overlaid (p : params_t) (name : string) (d h : hint) : Prop :=
  match aget p name with
  | None => h = d
  | Some e => hvalue h = Some (value e) /\ hvary h = Some (negb (String.eqb (bound e) "fixed")) /\
      hmin h = (if String.eqb (bound e) "lohi" || String.eqb (bound e) "lo" then Some (pmin e) else hmin d) /\
      hmax h = (if String.eqb (bound e) "lohi" || String.eqb (bound e) "hi" then Some (pmax e) else hmax d) /\
      hexpr h = hexpr d
  end.
(** The starting area at the i-th line: the value of the last area parameter at or before it, else [area]. *)
Definition area_so_far (p : params_t) (names : list string) (i : nat) (area v : Qc) : Prop :=
  (exists j n e, (j <= i)%nat /\ nth_error names j = Some n /\ aget p n = Some e /\ v = value e /\
     forall k m, (j < k <= i)%nat -> nth_error names k = Some m -> aget p m = None) \/
  (v = area /\ forall k m, (k <= i)%nat -> nth_error names k = Some m -> aget p m = None).

Lemma adjust_overlaid p n d h : adjust p n d = inl h -> overlaid p n d h.
Proof.
  unfold adjust, overlaid. destruct (aget p n) as [e|]; [|now intros [= <-]].
  destruct (hint_of e) as [n0|] eqn:E; [|discriminate]. intros [= <-].
  destruct (hint_of_spec e n0 E) as (A & B & C & D & F). cbn. rewrite A, B, C, D, F. cbn.
  repeat split; match goal with |- context [if ?b then _ else _] => destruct b end; reflexivity.
Qed.
Lemma component_hints p pf cen rat a w s c : component p pf cen rat a w s = inl c ->
  overlaid p (pf ++ "area") a (h_area c) /\ overlaid p (pf ++ "delta_center") w (h_pos c) /\
  overlaid p (pf ++ "delta_sigma") s (h_width c) /\ overlaid p (pf ++ "ratio_adjust") (kw 1%Qc false None None None) (h_ratio c).
Proof.
  unfold component. destruct (adjust p (pf ++ "area") a) eqn:E1; [|discriminate]. destruct (adjust p (pf ++ "delta_center") w) eqn:E2; [|discriminate].
  destruct (adjust p (pf ++ "delta_sigma") s) eqn:E3; [|discriminate].
  destruct (adjust p (pf ++ "ratio_adjust") _) eqn:E4; [|discriminate]. intros [= <-].
  cbn [h_area h_pos h_width h_ratio]. repeat split; apply adjust_overlaid; assumption.
Qed.
Section Tables.
Context (cs : string -> Qc -> string -> Qc) (en : string -> string -> Qc) (is_element : string -> bool).

(** The i-th component of a family: line [ln], [first] the line the areas are tied to. *)
Definition family_component (p : params_t) (sym first : string) (isK : bool) (energy area : Qc) (lines : list string) (i : nat) (ln : string) (c : comp) : Prop :=
  pre c = (sym ++ "_" ++ ln ++ "_")%string /\ center c = en sym ln /\ ratio c = (cs sym energy ln / cs sym energy first)%Qc /\
  (exists v, area_so_far p (map (fun l => (sym ++ "_" ++ l ++ "_") ++ "area")%string lines) i area v /\
     overlaid p (pre c ++ "area")
       (if String.eqb ln first then kw v true (if isK then Some 0%Qc else None) None None
        else kw v true None None (Some (sym ++ "_" ++ first ++ "_area")%string)) (h_area c)) /\
  overlaid p (pre c ++ "delta_center")
    (kw 0%Qc false None None (if isK && String.eqb ln "ka2" then Some (sym ++ "_ka1_delta_center")%string else None)) (h_pos c) /\
  overlaid p (pre c ++ "delta_sigma")
    (kw 0%Qc false None None (if isK && String.eqb ln "ka2" then Some (sym ++ "_ka1_delta_sigma")%string else None)) (h_width c) /\
  overlaid p (pre c ++ "ratio_adjust") (kw 1%Qc false None None None) (h_ratio c).
Lemma family_hints p sym first energy isK : forall lines area l, family cs en p sym first energy area isK lines = inl l ->
  length l = length lines /\
  forall i ln c, nth_error lines i = Some ln -> nth_error l i = Some c -> family_component p sym first isK energy area lines i ln c.
Proof.
  induction lines as [|ln0 lines IH]; intros area l; cbn [family]; [intros [= <-]; split; [reflexivity|]; intros [|i] ? ?; discriminate|].
  destruct (component _ _ _ _ _ _ _) as [c0|] eqn:E; [|discriminate].
  destruct (family _ _ _ _ _ _ _ _ _) as [r|] eqn:F; [|discriminate]. intros [= <-].
  destruct (IH _ _ F) as [HL HI]. split; [cbn; now rewrite HL|].
  destruct (component_pre _ _ _ _ _ _ _ _ E) as (P & C & Rr).
  destruct (component_hints _ _ _ _ _ _ _ _ E) as (A1 & A2 & A3 & A4).
  intros [|i] ln c; cbn [nth_error].
  - intros [= <-] [= <-]. unfold family_component. rewrite P. repeat (split; [first [reflexivity | assumption]|]).
    split; [|auto]. eexists. split; [|exact A1]. unfold area_so_far, dflt.
    destruct (aget p ((sym ++ "_" ++ ln0 ++ "_") ++ "area")) as [e|] eqn:G; cbn [map].
    + left. exists 0%nat, ((sym ++ "_" ++ ln0 ++ "_") ++ "area")%string, e. split; [lia|]. split; [reflexivity|]. split; [exact G|]. split; [reflexivity|]. intros k m Hk. lia.
    + right. split; [reflexivity|]. intros k m Hk. assert (k = 0%nat) as -> by lia. cbn. now intros [= <-].
  - intros Hn Hc. destruct (HI i ln c Hn Hc) as (B1 & B2 & B3 & (v & V & B4) & B5 & B6 & B7).
    unfold family_component. repeat (split; [assumption|]). split; [|auto]. exists v. split; [|exact B4].
    cbn [map]. unfold dflt in V. destruct V as [(j & n & e & Hj & Hjn & He & -> & Hk)|(-> & Hk)].
    + left. exists (S j), n, e. split; [lia|]. split; [exact Hjn|]. split; [exact He|]. split; [reflexivity|].
      intros [|k] m Hkk; [lia|]. cbn [nth_error]. apply Hk. lia.
    + destruct (aget p ((sym ++ "_" ++ ln0 ++ "_") ++ "area")) as [e|] eqn:G.
      * left. exists 0%nat, ((sym ++ "_" ++ ln0 ++ "_") ++ "area")%string, e. split; [lia|]. split; [reflexivity|]. split; [exact G|]. split; [reflexivity|].
        intros [|k] m Hkk; [lia|]. cbn [nth_error]. apply Hk. lia.
      * right. split; [reflexivity|]. intros [|k] m Hkk; cbn [nth_error]; [now intros [= <-]|]. apply Hk. lia.
Qed.
Lemma setup_hints p energy sym area l fam first ts :
  In (fam, first, ts) [("K", "ka1", K_TRANSITIONS); ("L", "la1", L_TRANSITIONS); ("M", "ma1", M_TRANSITIONS)]%string ->
  mem (sym ++ "_" ++ fam) (K_LINE ++ L_LINE ++ M_LINE) = true -> setup_element_model cs en is_element p energy (sym ++ "_" ++ fam) area = Comps l ->
  let lines := filter (fun ln => negb (Qc_eqb (cs sym energy ln) 0%Qc)) ts in
  length l = length lines /\ forall i ln c, nth_error lines i = Some ln -> nth_error l i = Some c ->
    family_component p sym first (String.eqb fam "K") energy area lines i ln c.
Proof.
  intros I M B. rewrite !mem_app in M. destruct I as [I|[I|[I|[]]]]; injection I as <- <- <-.
  - assert (H : mem (sym ++ "_K") K_LINE = true).
    { apply orb_prop in M as [M|M]; [exact M|]. apply orb_prop in M as [M|M]; [apply (fam_L sym) in M|apply (fam_M sym) in M]; discriminate. }
    revert B. change ("_" ++ "K")%string with "_K"%string. unfold setup_element_model, family_model. rewrite H, (sym_K _ H).
    destruct (Qc_eqb (cs sym energy "ka1") 0%Qc); [discriminate|]. rewrite filter_and, (proj1 letters).
    destruct (family _ _ _ _ _ _ _ _ _) as [r|] eqn:F; [|discriminate]. intros [= <-]. exact (family_hints _ _ _ _ _ _ _ _ F).
  - assert (H : mem (sym ++ "_L") L_LINE = true).
    { apply orb_prop in M as [M|M]; [apply (fam_K sym) in M; discriminate|]. apply orb_prop in M as [M|M]; [exact M|apply (fam_M sym) in M; discriminate]. }
    revert B. change ("_" ++ "L")%string with "_L"%string. unfold setup_element_model, family_model. rewrite (KL _ H), H, (sym_L _ H).
    destruct (Qc_eqb (cs sym energy "la1") 0%Qc); [discriminate|]. rewrite filter_and, (proj1 (proj2 letters)).
    destruct (family _ _ _ _ _ _ _ _ _) as [r|] eqn:F; [|discriminate]. intros [= <-]. exact (family_hints _ _ _ _ _ _ _ _ F).
  - assert (H : mem (sym ++ "_M") M_LINE = true).
    { apply orb_prop in M as [M|M]; [apply (fam_K sym) in M; discriminate|]. apply orb_prop in M as [M|M]; [apply (fam_L sym) in M; discriminate|]. exact M. }
    revert B. change ("_" ++ "M")%string with "_M"%string. unfold setup_element_model, family_model. rewrite (KM _ H), (LM _ H), H, (sym_M _ H).
    destruct (Qc_eqb (cs sym energy "ma1") 0%Qc); [discriminate|]. rewrite filter_and, (proj2 (proj2 letters)).
    destruct (family _ _ _ _ _ _ _ _ _) as [r|] eqn:F; [|discriminate]. intros [= <-]. exact (family_hints _ _ _ _ _ _ _ _ F).
Qed.
Lemma put_lines k c : forall names st, linenames (fold_left (fun s n => put s k c n) names st) = linenames st.
Proof. induction names as [|n names IH]; intros st; cbn; [reflexivity|]. now rewrite IH. Qed.
(** The lines known after add_param: those before and, for a new elemental line, the excited ones of its own. *)
Lemma add_param_lines st k el c st' e : add_param cs st k el c = (st', None) -> aget (params st) "coherent_sct_energy" = Some e ->
  forall n, In n (linenames st') <-> In n (linenames st) \/ (~ In el (element_list st) /\ In n (get_activated_lines cs (value e) [el])).
Proof.
  intros H E n. unfold add_param in H. destruct (mem el (element_list st)) eqn:M.
  - destruct (added_names (linenames st) k el); [|discriminate]. injection H as <-. rewrite put_lines.
    apply mem_In in M. tauto.
  - rewrite E in H. cbn [linenames] in H. apply mem_false in M.
    destruct (added_names _ k el); [|discriminate]. injection H as <-. rewrite put_lines. cbn [linenames]. rewrite in_app_iff. tauto.
Qed.
End Tables.

(** ** The name under which the fit reports a parameter *)
Definition fitted_name (k n : string) : Prop :=
  (In k ["coherent_sct_amplitude"; "coherent_sct_energy"]%string /\ n = ("elastic_" ++ k)%string) \/
  (~ In k ["coherent_sct_amplitude"; "coherent_sct_energy"]%string /\ String.length n = String.length k /\
   forall i c, String.get i k = Some c -> String.get i n = Some (if Ascii.eqb c "-" then "_"%char else c)).
Lemma replace_get a b s : String.length (replace a b s) = String.length s /\
  forall i c, String.get i s = Some c -> String.get i (replace a b s) = Some (if Ascii.eqb c a then b else c).
Proof.
  induction s as [|x s [IH1 IH2]]; [split; [reflexivity|intros i c; discriminate]|]. cbn. split; [now rewrite IH1|].
  intros [|i] c; cbn; [now intros [= <-]|apply IH2].
Qed.
Lemma get_ext s : forall t, String.length s = String.length t -> (forall i c, String.get i t = Some c -> String.get i s = Some c) -> s = t.
Proof.
  induction s as [|x s IH]; intros [|y t]; cbn; try discriminate; [reflexivity|]. intros L H. f_equal.
  - specialize (H 0%nat y eq_refl). cbn in H. congruence.
  - apply IH; [congruence|]. intros i c E. exact (H (S i) c E).
Qed.
Lemma get_some s : forall i, (i < String.length s)%nat -> exists c, String.get i s = Some c.
Proof. induction s as [|x s IH]; intros [|i] H; cbn in *; try lia; [eauto|apply IH; lia]. Qed.
Lemma get_len s : forall i c, String.get i s = Some c -> (i < String.length s)%nat.
Proof. induction s as [|x s IH]; intros [|i] c; cbn; try discriminate; [lia|]. intros H. apply IH in H. lia. Qed.
Lemma fitted_name_is k n : fitted_name k n <-> n = fit_name k.
Proof.
  unfold fitted_name, fit_name. destruct (String.eqb_spec k "coherent_sct_amplitude") as [E1|E1]; cbn [orb].
  - split; [intros [[_ H]|[H _]]; [exact H|exfalso; apply H; subst; now left]|intros H; left; split; [subst; now left|exact H]].
  - destruct (String.eqb_spec k "coherent_sct_energy") as [E2|E2].
    + split; [intros [[_ H]|[H _]]; [exact H|exfalso; apply H; subst; right; now left]|intros H; left; split; [subst; right; now left|exact H]].
    + destruct (replace_get "-" "_" k) as [R1 R2]. split.
      * intros [[H _]|(_ & L & H)]; [exfalso; destruct H as [H|[H|[]]]; congruence|].
        apply get_ext; [congruence|]. intros i c G. assert (I : (i < String.length k)%nat) by (rewrite <- R1; eapply get_len; eauto).
        destruct (get_some k i I) as [c0 G0]. rewrite (H i c0 G0). rewrite (R2 i c0 G0) in G. exact G.
      * intros ->. right. split; [intros [H|[H|[]]]; congruence|]. split; assumption.
Qed.

(** ** The parameters each built-in strategy frees *)
Definition freed (strategy : string) : list string :=
  app ["coherent_sct_amplitude"; "compton_amplitude"]%string
  (if String.eqb strategy "linear" then []
   else if String.eqb strategy "adjust_element" then ["compton_fwhm_corr"]%string
   else if String.eqb strategy "e_calibration" then ["e_linear"; "e_offset"]%string
   else if String.eqb strategy "fit_with_tail" then
     ["coherent_sct_energy"; "compton_angle"; "compton_f_tail"; "compton_fwhm_corr"; "e_linear"; "e_offset"; "e_quadratic"; "fwhm_fanoprime"; "fwhm_offset"]%string
   else ["coherent_sct_energy"; "compton_angle"; "compton_f_step"; "compton_fwhm_corr"; "compton_gamma"; "e_linear"; "e_offset"; "e_quadratic"; "fwhm_fanoprime"; "fwhm_offset"]%string).
Definition bound_in (strategy k : string) : string :=
  if mem k ["coherent_sct_amplitude"; "compton_amplitude"]%string then "none"%string else if mem k (freed strategy) then "lohi"%string else "fixed"%string.
Lemma builtin_tables name s k : aget builtin name = Some s -> In name ["linear"; "adjust_element"; "e_calibration"; "fit_with_tail"; "free_more"]%string /\
  match aget (table s) k with Some b => b = bound_in name k | None => bound_in name k = "fixed"%string end.
Proof.
  unfold builtin. cbn [aget].
  repeat match goal with
  | |- context [if String.eqb ?a name then _ else _] => destruct (String.eqb_spec a name) as [<-|_]
  | |- context [if String.eqb name ?a then _ else _] => destruct (String.eqb_spec name a) as [->|_]
  end; try discriminate; intros [= <-]; (split; [cbn; tauto|]);
  cbn [table linear adjust_element e_calibration fit_with_tail free_more combine global_names aget];
  unfold linear, adjust_element, e_calibration, fit_with_tail, free_more, global_names; cbn [combine aget];
  repeat match goal with
  | |- context [if String.eqb ?a k then _ else _] => destruct (String.eqb_spec a k) as [<-|?]; [reflexivity|]
  | |- context [if String.eqb k ?a then _ else _] => destruct (String.eqb_spec k a) as [->|?]; [reflexivity|]
  end;
  unfold bound_in; 
  match goal with |- (if mem k ?a then _ else if mem k ?b then _ else _) = _ =>
    rewrite (proj2 (mem_false k a)), (proj2 (mem_false k b)); [reflexivity| |] end;
  cbn; intros H; repeat destruct H as [H|H]; congruence.
Qed.
Lemma builtin_bounds p name p' k e : set_parameter_bound builtin p name [] = inl p' -> k <> "non_fitting_values"%string -> aget p k = Some e ->
  exists e', aget p' k = Some e' /\ value e' = value e /\ bound e' = bound_in name k.
Proof.
  intros H K E. destruct (aget builtin name) as [s|] eqn:S; [|rewrite (set_bound_unknown _ _ _ _ S) in H; discriminate].
  destruct (set_bound_get builtin p name [] s k e S E) as (q & e' & A & _ & B & V & _ & _ & D). rewrite H in A. injection A as <-.
  exists e'. split; [exact B|]. split; [exact V|]. rewrite D. destruct (String.eqb_spec k "non_fitting_values") as [|_]; [contradiction|].
  destruct (builtin_tables name s k S) as [_ T]. destruct (aget (table s) k); [exact T|]. now rewrite T.
Qed.
