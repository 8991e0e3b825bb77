(* Lemmas about Xrf_Model. *)
From Verif Require Import Common Xrf_Model.
Open Scope list_scope.

(** ** Strings *)
Lemma sapp_assoc (a b c : string) : ((a ++ b) ++ c = a ++ b ++ c)%string.
Proof. induction a; cbn; congruence. Qed.
Lemma sapp_inj_l (a b c : string) : (a ++ b = a ++ c)%string -> b = c.
Proof. induction a; cbn; intros H; [exact H|injection H as H; auto]. Qed.
Lemma sapp_len (a b : string) : String.length (a ++ b) = String.length a + String.length b.
Proof. induction a; cbn; lia. Qed.
Lemma sapp_inj_r (a b c : string) : (a ++ c = b ++ c)%string -> a = b.
Proof.
  revert b; induction a as [|x a IH]; intros [|y b] H; [reflexivity| | |].
  - exfalso. apply (f_equal String.length) in H. cbn in H. rewrite sapp_len in H. lia.
  - exfalso. apply (f_equal String.length) in H. cbn in H. rewrite sapp_len in H. lia.
  - cbn in H. injection H as -> H. f_equal. auto.
Qed.
Lemma mem_In s l : mem s l = true <-> In s l.
Proof.
  unfold mem. rewrite existsb_exists. split.
  - intros (x & H & E). apply String.eqb_eq in E. now subst.
  - intros H. exists s. now rewrite String.eqb_refl.
Qed.
Lemma mem_false s l : mem s l = false <-> ~ In s l.
Proof. rewrite <- mem_In. now destruct (mem s l). Qed.

(** ** Dictionaries *)
Lemma aget_aset_eq {A} (d : list (string * A)) k v : aget (aset d k v) k = Some v.
Proof.
  induction d as [|[k' w] r IH]; cbn; [now rewrite String.eqb_refl|].
  destruct (String.eqb k k') eqn:E; cbn; rewrite E; auto.
Qed.
Lemma aget_aset_ne {A} (d : list (string * A)) k k' v : k <> k' -> aget (aset d k v) k' = aget d k'.
Proof.
  intros N. assert (E' : String.eqb k' k = false) by now apply String.eqb_neq; congruence.
  induction d as [|[k0 w] r IH]; cbn; [now rewrite E'|].
  destruct (String.eqb k k0) eqn:E; cbn.
  - apply String.eqb_eq in E as <-. now rewrite E'.
  - destruct (String.eqb k' k0); auto.
Qed.
Lemma aget_aset {A} (d : list (string * A)) k k' v :
  aget (aset d k v) k' = if String.eqb k' k then Some v else aget d k'.
Proof.
  destruct (String.eqb k' k) eqn:E.
  - apply String.eqb_eq in E as ->. apply aget_aset_eq.
  - apply aget_aset_ne. apply String.eqb_neq in E. congruence.
Qed.
Lemma aget_map {A B} (f : string -> A -> B) (d : list (string * A)) k :
  aget (map (fun kv => let '(k, v) := kv in (k, f k v)) d) k = option_map (f k) (aget d k).
Proof.
  induction d as [|[k' v] r IH]; cbn; [reflexivity|].
  destruct (String.eqb k k') eqn:E; [|exact IH]. apply String.eqb_eq in E as ->. reflexivity.
Qed.

(** ** Strategies *)
Lemma with_bound_fields b e : value (with_bound b e) = value e /\ pmin (with_bound b e) = pmin e /\ pmax (with_bound b e) = pmax e /\ bound (with_bound b e) = b.
Proof. now repeat split. Qed.
Definition new_entry (s : strategy) (extra : list (string * string)) (k : string) (e : entry) : entry :=
  if String.eqb k "non_fitting_values" then e
  else with_bound (match aget (table s) k with Some b => b | None => match aget extra k with Some b => b | None => "fixed"%string end end) e.
Lemma set_bound_map reg p o extra s : aget reg o = Some s ->
  set_parameter_bound reg p o extra = inl (map (fun kv => let '(k, v) := kv in (k, new_entry s extra k v)) p).
Proof.
  intros H. unfold set_parameter_bound. rewrite H. f_equal. apply map_ext. intros [k v]. unfold new_entry.
  now destruct (String.eqb k "non_fitting_values").
Qed.
Lemma set_bound_get reg p o extra s k e : aget reg o = Some s -> aget p k = Some e ->
  exists p' e', set_parameter_bound reg p o extra = inl p' /\ map fst p' = map fst p /\ aget p' k = Some e' /\
    value e' = value e /\ pmin e' = pmin e /\ pmax e' = pmax e /\
    bound e' = if String.eqb k "non_fitting_values" then bound e
               else match aget (table s) k with Some b => b | None => match aget extra k with Some b => b | None => "fixed"%string end end.
Proof.
  intros H He. rewrite (set_bound_map _ _ _ _ _ H). eexists. exists (new_entry s extra k e). split; [reflexivity|].
  split; [rewrite map_map; apply map_ext; now intros []|].
  split; [rewrite aget_map, He; reflexivity|].
  unfold new_entry. destruct (String.eqb k "non_fitting_values"); cbn; auto.
Qed.
Lemma set_bound_unknown reg p o extra : aget reg o = None -> set_parameter_bound reg p o extra = inr KeyErr.
Proof. intros H. unfold set_parameter_bound. now rewrite H. Qed.

(** Histories of registrations. *)
Definition run_register (reg : registry) (l : list (string * strategy * bool)) : registry :=
  fold_left (fun r c => let '(k, s, o) := c in fst (register_strategy r k s o)) l reg.
Lemma register_keeps reg key s o k s0 : aget reg k = Some s0 -> (key = k -> o = true -> sid s = sid s0) ->
  exists s1, aget (fst (register_strategy reg key s o)) k = Some s1 /\ sid s1 = sid s0.
Proof.
  intros H Ho. unfold register_strategy. destruct (aget reg key) as [s2|] eqn:E.
  - destruct o.
    + cbn. rewrite aget_aset. destruct (String.eqb k key) eqn:K.
      * apply String.eqb_eq in K as ->. exists s. split; [reflexivity|now apply Ho].
      * eauto.
    + destruct (_ =? _); cbn; eauto.
  - cbn. rewrite aget_aset. destruct (String.eqb k key) eqn:K; [|eauto].
    apply String.eqb_eq in K as ->. congruence.
Qed.
Lemma run_register_keeps l : forall reg k s0, aget reg k = Some s0 ->
  (forall s, In (k, s, true) l -> sid s = sid s0) ->
  exists s1, aget (run_register reg l) k = Some s1 /\ sid s1 = sid s0.
Proof.
  induction l as [|[[key s] o] l IH]; intros reg k s0 H Ho; [cbn; eauto|].
  cbn. destruct (register_keeps reg key s o k s0 H) as (s1 & H1 & E1).
  { intros -> ->. apply Ho. now left. }
  destruct (IH _ k s1 H1) as (s2 & H2 & E2).
  { intros s' Hs. rewrite E1. apply Ho. now right. }
  exists s2. split; [exact H2|congruence].
Qed.
Lemma register_cases reg key s o :
  match snd (register_strategy reg key s o) with
  | Some e => e = RuntimeErr /\ o = false /\ fst (register_strategy reg key s o) = reg /\ exists s0, aget reg key = Some s0 /\ sid s0 <> sid s
  | None => exists s1, aget (fst (register_strategy reg key s o)) key = Some s1 /\ sid s1 = sid s /\
      forall k, k <> key -> aget (fst (register_strategy reg key s o)) k = aget reg k
  end.
Proof.
  unfold register_strategy. destruct (aget reg key) as [s0|] eqn:E.
  - destruct o; cbn.
    + exists s. rewrite aget_aset_eq. split; [reflexivity|split; [reflexivity|]]. intros k N. now apply aget_aset_ne; congruence.
    + destruct (sid s0 =? sid s) eqn:S; cbn.
      * apply Nat.eqb_eq in S. exists s0. auto.
      * apply Nat.eqb_neq in S. eauto 6.
  - cbn. exists s. rewrite aget_aset_eq. split; [reflexivity|split; [reflexivity|]]. intros k N. now apply aget_aset_ne; congruence.
Qed.

(** ** Hints *)
Definition good_bound (b : string) : Prop := In b ["none"; "fixed"; "lohi"; "lo"; "hi"]%string.
Lemma hint_of_ok e : good_bound (bound e) <-> exists h, hint_of e = inl h.
Proof.
  unfold hint_of, good_bound. split.
  - cbn. intros H. repeat destruct H as [H|H]; try (rewrite <- H; cbn; eauto; fail). contradiction.
  - intros (h & H). cbn.
    repeat match type of H with context[if ?c then _ else _] => let E := fresh in destruct c eqn:E; [apply String.eqb_eq in E; rewrite E; tauto|] end.
    discriminate.
Qed.
Lemma hint_of_spec e h : hint_of e = inl h -> hvalue h = Some (value e) /\ hvary h = Some (negb (String.eqb (bound e) "fixed")) /\
  hmin h = (if String.eqb (bound e) "lohi" || String.eqb (bound e) "lo" then Some (pmin e) else None) /\
  hmax h = (if String.eqb (bound e) "lohi" || String.eqb (bound e) "hi" then Some (pmax e) else None) /\ hexpr h = None.
Proof.
  unfold hint_of.
  destruct (String.eqb (bound e) "none") eqn:E1; [apply String.eqb_eq in E1; rewrite E1; intros [= <-]; cbn; auto|].
  destruct (String.eqb (bound e) "fixed") eqn:E2; [apply String.eqb_eq in E2; rewrite E2; intros [= <-]; cbn; auto|].
  destruct (String.eqb (bound e) "lohi") eqn:E3; [apply String.eqb_eq in E3; rewrite ?E3; intros [= <-]; cbn; auto 6|].
  destruct (String.eqb (bound e) "lo") eqn:E4; [apply String.eqb_eq in E4; rewrite ?E4; intros [= <-]; cbn; auto 6|].
  destruct (String.eqb (bound e) "hi") eqn:E5; [apply String.eqb_eq in E5; rewrite ?E5; intros [= <-]; cbn; auto 6|].
  discriminate.
Qed.
Lemma adjust_none p n h : aget p n = None -> adjust p n h = inl h.
Proof. intros H. unfold adjust. now rewrite H. Qed.
Lemma adjust_some p n h e h' : aget p n = Some e -> adjust p n h = inl h' ->
  hvalue h' = Some (value e) /\ hvary h' = Some (negb (String.eqb (bound e) "fixed")).
Proof.
  intros H. unfold adjust. rewrite H. destruct (hint_of e) as [n0|] eqn:E; [|discriminate]. intros [= <-].
  destruct (hint_of_spec e n0 E) as (A & B & _). cbn. rewrite A, B. now split.
Qed.
Definition hint_for (k : kind) (c : comp) : hint := match k with Area => h_area c | Pos => h_pos c | Width => h_width c | Ratio => h_ratio c end.
Lemma component_ok p pf cen rat a w s c k e : component p pf cen rat a w s = inl c -> aget p (pf ++ suffix k) = Some e ->
  hvalue (hint_for k c) = Some (value e) /\ hvary (hint_for k c) = Some (negb (String.eqb (bound e) "fixed")).
Proof.
  unfold component. destruct (adjust p (pf ++ "area") a) eqn:E1; [|discriminate]. destruct (adjust p (pf ++ "delta_center") w) eqn:E2; [|discriminate].
  destruct (adjust p (pf ++ "delta_sigma") s) eqn:E3; [|discriminate].
  destruct (adjust p (pf ++ "ratio_adjust") _) eqn:E4; [|discriminate]. intros [= <-] H.
  destruct k; cbn in H |- *; eapply adjust_some; eauto.
Qed.
Lemma component_pre p pf cen rat a w s c : component p pf cen rat a w s = inl c -> pre c = pf /\ center c = cen /\ ratio c = rat.
Proof.
  unfold component. destruct (adjust p (pf ++ "area") a) eqn:E1; [|discriminate]. destruct (adjust p (pf ++ "delta_center") w) eqn:E2; [|discriminate].
  destruct (adjust p (pf ++ "delta_sigma") s) eqn:E3; [|discriminate].
  destruct (adjust p (pf ++ "ratio_adjust") _) eqn:E4; [|discriminate]. now intros [= <-].
Qed.
(** Only the four names under the prefix are ever read. *)
Lemma component_ext p p' pf cen rat a w s : (forall k, aget p (pf ++ suffix k) = aget p' (pf ++ suffix k)) ->
  component p pf cen rat a w s = component p' pf cen rat a w s.
Proof.
  intros H. unfold component, adjust. pose proof (H Area) as H1. pose proof (H Pos) as H2. pose proof (H Width) as H3. pose proof (H Ratio) as H4.
  cbn [suffix] in *. rewrite H1, H2, H3, H4. reflexivity.
Qed.

(** ** Tables *)
Lemma all_lines_val : all_lines = K_TRANSITIONS ++ L_TRANSITIONS ++ M_TRANSITIONS.
Proof. reflexivity. Qed.
Lemma slice_K : pyslice all_lines 0 4 = ["ka1"; "ka2"; "ka3"; "kb1"]%string. Proof. reflexivity. Qed.
Lemma slice_L : pyslice all_lines 4 (-4) = ["kb2"; "kb3"; "kb4"; "kb5"]%string ++ L_TRANSITIONS. Proof. reflexivity. Qed.
Lemma slice_M : pyslice all_lines (-4) (Z.of_nat (length all_lines)) = M_TRANSITIONS. Proof. reflexivity. Qed.
Lemma filter_and {A} (f g : A -> bool) l : filter (fun x => f x && g x) l = filter g (filter f l).
Proof. induction l as [|a l IH]; cbn; [reflexivity|]. destruct (f a); cbn; [destruct (g a)|]; congruence. Qed.
Lemma letters : filter (contains "k") all_lines = K_TRANSITIONS /\ filter (contains "l") all_lines = L_TRANSITIONS /\ filter (contains "m") all_lines = M_TRANSITIONS.
Proof. repeat split; reflexivity. Qed.

Lemma table_sym (L : list string) (fam : string) :
  forallb (fun x => String.eqb x (hd EmptyString (split "_" x) ++ fam)) L = true ->
  forall sym, mem (sym ++ fam) L = true -> hd EmptyString (split "_" (sym ++ fam)) = sym.
Proof.
  intros H sym M. apply mem_In in M. rewrite forallb_forall in H. specialize (H _ M). apply String.eqb_eq in H.
  apply sapp_inj_r in H. now symmetry.
Qed.
Lemma sym_K sym : mem (sym ++ "_K") K_LINE = true -> hd EmptyString (split "_" (sym ++ "_K")) = sym.
Proof. apply table_sym. reflexivity. Qed.
Lemma sym_L sym : mem (sym ++ "_L") L_LINE = true -> hd EmptyString (split "_" (sym ++ "_L")) = sym.
Proof. apply table_sym. reflexivity. Qed.
Lemma sym_M sym : mem (sym ++ "_M") M_LINE = true -> hd EmptyString (split "_" (sym ++ "_M")) = sym.
Proof. apply table_sym. reflexivity. Qed.
Lemma disjoint (L1 L2 : list string) : forallb (fun x => negb (mem x L2)) L1 = true -> forall x, mem x L1 = true -> mem x L2 = false.
Proof. intros H x M. apply mem_In in M. rewrite forallb_forall in H. specialize (H x M). now destruct (mem x L2). Qed.
Lemma KL x : mem x L_LINE = true -> mem x K_LINE = false. Proof. apply disjoint. reflexivity. Qed.
Lemma KM x : mem x M_LINE = true -> mem x K_LINE = false. Proof. apply disjoint. reflexivity. Qed.
Lemma LM x : mem x M_LINE = true -> mem x L_LINE = false. Proof. apply disjoint. reflexivity. Qed.
Lemma table_all {P : string -> bool} (L : list string) : forallb P L = true -> forall x, mem x L = true -> P x = true.
Proof. intros H x M. apply mem_In in M. rewrite forallb_forall in H. auto. Qed.
Lemma len_K x : mem x K_LINE = true -> (String.length x <=? 4)%nat = true. Proof. apply (@table_all (fun x => (String.length x <=? 4)%nat)). reflexivity. Qed.
Lemma len_L x : mem x L_LINE = true -> (String.length x <=? 4)%nat = true. Proof. apply (@table_all (fun x => (String.length x <=? 4)%nat)). reflexivity. Qed.
Lemma len_M x : mem x M_LINE = true -> (String.length x <=? 4)%nat = true. Proof. apply (@table_all (fun x => (String.length x <=? 4)%nat)). reflexivity. Qed.
Lemma long_not x : 4 < String.length x -> mem x K_LINE = false /\ mem x L_LINE = false /\ mem x M_LINE = false.
Proof.
  intros H. split; [|split]; match goal with |- ?m = false => destruct m eqn:E end; auto.
  - apply len_K in E. lia.
  - apply len_L in E. lia.
  - apply len_M in E. lia.
Qed.
Lemma split_fam (L : list string) (fam : string) :
  forallb (fun x => match split "_" x with [a; b] => String.eqb a (hd EmptyString (split "_" x)) && String.eqb b fam | _ => false end) L = true ->
  forall x, mem x L = true -> split "_" x = [hd EmptyString (split "_" x); fam].
Proof.
  intros H x M. apply mem_In in M. rewrite forallb_forall in H. specialize (H x M).
  destruct (split "_" x) as [|a [|b [|]]]; try discriminate. apply andb_prop in H as [A B].
  apply String.eqb_eq in B as ->. reflexivity.
Qed.
Lemma split_K sym : mem (sym ++ "_K") K_LINE = true -> split "_" (sym ++ "_K") = [sym; "K"%string].
Proof. intros H. rewrite (split_fam K_LINE "K" eq_refl _ H). now rewrite (sym_K _ H). Qed.
Lemma split_L sym : mem (sym ++ "_L") L_LINE = true -> split "_" (sym ++ "_L") = [sym; "L"%string].
Proof. intros H. rewrite (split_fam L_LINE "L" eq_refl _ H). now rewrite (sym_L _ H). Qed.
Lemma split_M sym : mem (sym ++ "_M") M_LINE = true -> split "_" (sym ++ "_M") = [sym; "M"%string].
Proof. intros H. rewrite (split_fam M_LINE "M" eq_refl _ H). now rewrite (sym_M _ H). Qed.

Section Tables.
Context (cs : string -> Qc -> string -> Qc) (en : string -> string -> Qc) (is_element : string -> bool).
Definition excited (sym : string) (energy : Qc) (ln : string) : bool := negb (Qc_eqb (cs sym energy ln) 0%Qc).
Definition line_of (sym ln : string) : string := (sym ++ "_" ++ ln)%string.

(** ** Activated lines *)
Lemma activated_K energy sym : mem (sym ++ "_K") K_LINE = true ->
  activated_line cs energy (sym ++ "_K") =
  if excited sym energy "ka1" then map (line_of sym) (filter (excited sym energy) ["ka1"; "ka2"; "ka3"; "kb1"]%string) else [].
Proof.
  intros H. unfold activated_line, picked_lines. rewrite H, (sym_K _ H), slice_K. unfold excited at 1.
  destruct (Qc_eqb (cs sym energy "ka1") 0%Qc); reflexivity.
Qed.
Lemma activated_L energy sym : mem (sym ++ "_L") L_LINE = true ->
  activated_line cs energy (sym ++ "_L") =
  if excited sym energy "la1" then map (line_of sym) (filter (excited sym energy) (["kb2"; "kb3"; "kb4"; "kb5"]%string ++ L_TRANSITIONS)) else [].
Proof.
  intros H. unfold activated_line, picked_lines. rewrite (KL _ H), H, (sym_L _ H), slice_L. unfold excited at 1.
  destruct (Qc_eqb (cs sym energy "la1") 0%Qc); reflexivity.
Qed.
Lemma activated_M energy sym : mem (sym ++ "_M") M_LINE = true ->
  activated_line cs energy (sym ++ "_M") =
  if excited sym energy "ma1" then map (line_of sym) (filter (excited sym energy) M_TRANSITIONS) else [].
Proof.
  intros H. unfold activated_line. rewrite (KM _ H), (LM _ H), H. unfold picked_lines. rewrite (sym_M _ H), slice_M. unfold excited at 1.
  destruct (Qc_eqb (cs sym energy "ma1") 0%Qc); reflexivity.
Qed.
Lemma activated_other energy el : mem el K_LINE = false -> mem el L_LINE = false -> mem el M_LINE = false -> activated_line cs energy el = [].
Proof. intros A B C. unfold activated_line. now rewrite A, B, C. Qed.
Lemma in_lines sym f l n : In n (map (line_of sym) (filter f l)) <-> exists ln, n = line_of sym ln /\ f ln = true /\ In ln l.
Proof.
  rewrite in_map_iff. split.
  - intros (ln & <- & H). apply filter_In in H. exists ln. tauto.
  - intros (ln & -> & H1 & H2). exists ln. split; [reflexivity|]. apply filter_In. tauto.
Qed.

(** ** Names *)
Lemma line_inj sym a b : line_of sym a = line_of sym b -> a = b.
Proof. unfold line_of. intros H. apply sapp_inj_l in H. now apply (sapp_inj_l "_") in H. Qed.
Lemma mem_lines sym f l ln : mem (line_of sym ln) (map (line_of sym) (filter f l)) = mem ln l && f ln.
Proof.
  destruct (mem ln l && f ln) eqn:E.
  - apply andb_prop in E as [M F]. apply mem_In in M. apply mem_In, in_lines. eauto.
  - apply mem_false. rewrite in_lines. intros (x & X & F & M). apply line_inj in X as <-. apply mem_In in M. rewrite M, F in E. discriminate.
Qed.
Lemma filter_map {A B} (f : A -> B) (p : B -> bool) l : filter p (map f l) = map f (filter (fun x => p (f x)) l).
Proof. induction l as [|a l IH]; cbn; [reflexivity|]. destruct (p (f a)); cbn; congruence. Qed.
Definition pname (sym ln : string) (k : kind) : string := (line_of sym ln ++ "_" ++ suffix k)%string.
Lemma added_family linenames k sym fam ts el : k <> Area -> split "_" el = [sym; fam] -> (String.length el <=? 4)%nat = true -> transitions fam = Some ts ->
  added_names linenames k el = inl (map (fun ln => pname sym ln k) (filter (fun ln => mem (line_of sym ln) linenames) ts)).
Proof.
  intros Hk S L T. unfold added_names. destruct k; try congruence; rewrite L, S, T, filter_map, map_map; reflexivity.
Qed.
Lemma added_K k energy sym : k <> Area -> mem (sym ++ "_K") K_LINE = true -> excited sym energy "ka1" = true ->
  added_names (activated_line cs energy (sym ++ "_K")) k (sym ++ "_K") =
  inl (map (fun ln => pname sym ln k) (filter (excited sym energy) ["ka1"; "ka2"; "ka3"; "kb1"]%string)).
Proof.
  intros Hk H X. rewrite (added_family _ k sym "K" K_TRANSITIONS _ Hk (split_K _ H) (len_K _ H) eq_refl).
  rewrite (activated_K energy sym H), X. do 2 f_equal.
  erewrite filter_ext; [|intros ln; apply mem_lines]. cbn -[excited]. reflexivity.
Qed.
Lemma added_L k energy sym : k <> Area -> mem (sym ++ "_L") L_LINE = true -> excited sym energy "la1" = true ->
  added_names (activated_line cs energy (sym ++ "_L")) k (sym ++ "_L") =
  inl (map (fun ln => pname sym ln k) (filter (excited sym energy) L_TRANSITIONS)).
Proof.
  intros Hk H X. rewrite (added_family _ k sym "L" L_TRANSITIONS _ Hk (split_L _ H) (len_L _ H) eq_refl).
  rewrite (activated_L energy sym H), X. do 2 f_equal.
  erewrite filter_ext; [|intros ln; apply mem_lines]. cbn -[excited]. reflexivity.
Qed.
Lemma added_M k energy sym : k <> Area -> mem (sym ++ "_M") M_LINE = true -> excited sym energy "ma1" = true ->
  added_names (activated_line cs energy (sym ++ "_M")) k (sym ++ "_M") =
  inl (map (fun ln => pname sym ln k) (filter (excited sym energy) M_TRANSITIONS)).
Proof.
  intros Hk H X. rewrite (added_family _ k sym "M" M_TRANSITIONS _ Hk (split_M _ H) (len_M _ H) eq_refl).
  rewrite (activated_M energy sym H), X. do 2 f_equal.
  erewrite filter_ext; [|intros ln; apply mem_lines]. cbn -[excited]. reflexivity.
Qed.

(** ** The builder *)
Definition comp_name (c : comp) (k : kind) : string := (pre c ++ suffix k)%string.
Definition comp_ok (p : params_t) (sym first : string) (energy : Qc) (c : comp) (ln : string) : Prop :=
  (forall k, comp_name c k = pname sym ln k) /\ center c = en sym ln /\ (ratio c = cs sym energy ln / cs sym energy first)%Qc /\
  forall k e, aget p (pname sym ln k) = Some e -> hvalue (hint_for k c) = Some (value e) /\ hvary (hint_for k c) = Some (negb (String.eqb (bound e) "fixed")).
Lemma pf_name sym ln k : (((sym ++ "_" ++ ln ++ "_") ++ suffix k) = pname sym ln k)%string.
Proof. unfold pname, line_of. now rewrite !sapp_assoc. Qed.
Lemma family_ok p sym first energy isK : forall lines area l, family cs en p sym first energy area isK lines = inl l ->
  Forall2 (comp_ok p sym first energy) l lines.
Proof.
  induction lines as [|ln lines IH]; intros area l; cbn [family]; [intros [= <-]; constructor|].
  destruct (component _ _ _ _ _ _ _) as [c|] eqn:E; [|discriminate].
  destruct (family _ _ _ _ _ _ _ _ _) as [r|] eqn:F; [|discriminate]. intros [= <-]. constructor; [|eapply IH; eauto].
  destruct (component_pre _ _ _ _ _ _ _ _ E) as (P & C & Rr). split; [|split; [exact C|split; [exact Rr|]]].
  - intros k. unfold comp_name. rewrite P. apply pf_name.
  - intros k e He. rewrite <- pf_name in He. exact (component_ok _ _ _ _ _ _ _ _ k e E He).
Qed.
Lemma built_K p energy sym area l : mem (sym ++ "_K") K_LINE = true -> setup_element_model cs en is_element p energy (sym ++ "_K") area = Comps l ->
  excited sym energy "ka1" = true /\ Forall2 (comp_ok p sym "ka1" energy) l (filter (excited sym energy) K_TRANSITIONS).
Proof.
  intros H. unfold setup_element_model, family_model. rewrite H, (sym_K _ H).
  unfold excited at 1. destruct (Qc_eqb (cs sym energy "ka1") 0%Qc); [discriminate|]. rewrite filter_and, (proj1 letters).
  destruct (family _ _ _ _ _ _ _ _ _) as [r|] eqn:F; [|discriminate]. intros [= <-]. split; [reflexivity|]. eapply family_ok; eauto.
Qed.
Lemma built_L p energy sym area l : mem (sym ++ "_L") L_LINE = true -> setup_element_model cs en is_element p energy (sym ++ "_L") area = Comps l ->
  excited sym energy "la1" = true /\ Forall2 (comp_ok p sym "la1" energy) l (filter (excited sym energy) L_TRANSITIONS).
Proof.
  intros H. unfold setup_element_model, family_model. rewrite (KL _ H), H, (sym_L _ H).
  unfold excited at 1. destruct (Qc_eqb (cs sym energy "la1") 0%Qc); [discriminate|]. rewrite filter_and, (proj1 (proj2 letters)).
  destruct (family _ _ _ _ _ _ _ _ _) as [r|] eqn:F; [|discriminate]. intros [= <-]. split; [reflexivity|]. eapply family_ok; eauto.
Qed.
Lemma built_M p energy sym area l : mem (sym ++ "_M") M_LINE = true -> setup_element_model cs en is_element p energy (sym ++ "_M") area = Comps l ->
  excited sym energy "ma1" = true /\ Forall2 (comp_ok p sym "ma1" energy) l (filter (excited sym energy) M_TRANSITIONS).
Proof.
  intros H. unfold setup_element_model, family_model. rewrite (KM _ H), (LM _ H), H, (sym_M _ H).
  unfold excited at 1. destruct (Qc_eqb (cs sym energy "ma1") 0%Qc); [discriminate|]. rewrite filter_and, (proj2 (proj2 letters)).
  destruct (family _ _ _ _ _ _ _ _ _) as [r|] eqn:F; [|discriminate]. intros [= <-]. split; [reflexivity|]. eapply family_ok; eauto.
Qed.
Lemma forall2_map {A B C} (P : A -> B -> Prop) (f : A -> C) (g : B -> C) l l' : Forall2 P l l' -> (forall a b, P a b -> f a = g b) -> map f l = map g l'.
Proof. intros H E. induction H as [|a b l l' H0 H1 IH]; cbn; [reflexivity|]. now rewrite (E a b H0), IH. Qed.

(** User and pile-up peaks. *)
Lemma added_user linenames k el : 4 < String.length el -> contains "user" (lower el) = true -> added_names linenames k el = inl [(el ++ "_" ++ suffix k)%string].
Proof.
  intros L U. destruct (long_not _ L) as (A & B & C). unfold added_names, area_name.
  replace (String.length el <=? 4)%nat with false by (symmetry; apply Nat.leb_gt; lia). rewrite A, B, C, U. destruct k; reflexivity.
Qed.
Lemma built_user p energy el area l k e : 4 < String.length el -> contains "user" (lower el) = true ->
  setup_element_model cs en is_element p energy el area = Comps l -> aget p (el ++ "_" ++ suffix k) = Some e ->
  exists c, l = [c] /\ hvalue (hint_for k c) = Some (value e) /\ hvary (hint_for k c) = Some (negb (String.eqb (bound e) "fixed")).
Proof.
  intros L U. destruct (long_not _ L) as (A & B & C). unfold setup_element_model. rewrite A, B, C, U. unfold one.
  destruct (component _ _ _ _ _ _ _) as [c|] eqn:E; [|discriminate]. intros [= <-] He. exists c. split; [reflexivity|].
  eapply component_ok; [exact E|]. rewrite sapp_assoc. exact He.
Qed.
Lemma added_pileup linenames k el : 4 < String.length el -> contains "user" (lower el) = false -> k <> Area ->
  added_names linenames k el = inl [(("pileup_" ++ replace "-" "_" el) ++ suffix k)%string].
Proof.
  intros L U Hk. unfold added_names. replace (String.length el <=? 4)%nat with false by (symmetry; apply Nat.leb_gt; lia). rewrite U.
  destruct k; [reflexivity..|congruence].
Qed.
Lemma added_pileup_area linenames el : 4 < String.length el -> contains "user" (lower el) = false -> contains "-" el = true ->
  added_names linenames Area el = inl [("pileup_" ++ replace "-" "_" el ++ "_area")%string].
Proof. intros L U D. destruct (long_not _ L) as (A & B & C). unfold added_names, area_name. now rewrite A, B, C, U, D. Qed.
Lemma pileup_form p energy el area : 4 < String.length el -> contains "user" (lower el) = false ->
  setup_element_model cs en is_element p energy el area =
  match split "-" el with
  | [l1; l2] => match get_line_energy en is_element l1, get_line_energy en is_element l2 with
      | inl e1, inl e2 =>
          let pf := ("pileup_" ++ replace "-" "_" el ++ "_")%string in
          one (component p pf (e1 + e2)%Qc 1%Qc (kw (dflt p (pf ++ "area") area) true (Some 0%Qc) None None) still still)
      | inr e, _ => Fails e
      | _, inr e => Fails e
      end
  | _ => Fails ValueErr
  end.
Proof. intros L U. destruct (long_not _ L) as (A & B & C). unfold setup_element_model. now rewrite A, B, C, U. Qed.
(** The names added for the position, width and ratio of a pile-up peak are not read. *)
Lemma pileup_ignored p energy el area k n e linenames : 4 < String.length el -> contains "user" (lower el) = false -> k <> Area ->
  added_names linenames k el = inl [n] ->
  setup_element_model cs en is_element (aset p n e) energy el area = setup_element_model cs en is_element p energy el area.
Proof.
  intros L U Hk. rewrite (added_pileup linenames k el L U Hk). intros X.
  assert (X' : n = (("pileup_" ++ replace "-" "_" el) ++ suffix k)%string) by congruence. clear X. subst n. rewrite !(pileup_form _ energy el area L U).
  destruct (split "-" el) as [|l1 [|l2 [|]]]; try reflexivity.
  destruct (get_line_energy en is_element l1); [|reflexivity]. destruct (get_line_energy en is_element l2); [|reflexivity]. cbn zeta. f_equal.
  set (pf := ("pileup_" ++ replace "-" "_" el ++ "_")%string).
  assert (N : forall k', (("pileup_" ++ replace "-" "_" el) ++ suffix k <> pf ++ suffix k')%string).
  { intros k' X. unfold pf in X. rewrite !sapp_assoc in X. apply sapp_inj_l in X. apply sapp_inj_l in X. destruct k; [discriminate X..|congruence]. }
  assert (D : dflt (aset p (("pileup_" ++ replace "-" "_" el) ++ suffix k)%string e) (pf ++ "area") area = dflt p (pf ++ "area") area).
  { unfold dflt. now rewrite aget_aset_ne by exact (N Area). }
  rewrite D. apply component_ext. intros k'. now apply aget_aset_ne.
Qed.
Lemma pileup_area p energy el area l e linenames n : 4 < String.length el -> contains "user" (lower el) = false -> contains "-" el = true ->
  added_names linenames Area el = inl [n] -> setup_element_model cs en is_element p energy el area = Comps l -> aget p n = Some e ->
  exists c, l = [c] /\ hvalue (h_area c) = Some (value e) /\ hvary (h_area c) = Some (negb (String.eqb (bound e) "fixed")).
Proof.
  intros L U D. rewrite (added_pileup_area linenames el L U D). intros X.
  assert (X' : n = ("pileup_" ++ replace "-" "_" el ++ "_area")%string) by congruence. clear X. subst n. rewrite (pileup_form p energy el area L U).
  destruct (split "-" el) as [|l1 [|l2 [|]]]; try discriminate.
  destruct (get_line_energy en is_element l1); [|discriminate]. destruct (get_line_energy en is_element l2); [|discriminate]. cbn zeta. unfold one.
  destruct (component _ _ _ _ _ _ _) as [c|] eqn:E; [|discriminate]. intros [= <-] He. exists c. split; [reflexivity|].
  apply (component_ok _ _ _ _ _ _ _ _ Area e E). cbn [suffix]. rewrite !sapp_assoc. exact He.
Qed.
End Tables.
