(* Proofs for the ties between parameters. *)
From Coq Require Import Reals QArith.Qreals.
From Coq Require Import Strings.String.
From Verif Require Import Common Xrf_Model Line_Model XrfTie_Model XrfTie_Spec.
From Coq Require Import Lra.
Local Open Scope list_scope.

Lemma inj_some {A} (a b : A) : Some a = Some b -> a = b. Proof. congruence. Qed.
(** ** Strings *)
Lemma ends_with_app p s : ends_with s (p ++ s)%string = true.
Proof. induction p as [|a p IH]; cbn [append ends_with]; [destruct s; cbn; rewrite ?Ascii.eqb_refl, ?String.eqb_refl; reflexivity|]. rewrite IH. apply orb_true_r. Qed.
Lemma ends_with_suffix l : forall p s, ends_with l (p ++ s)%string = true -> ends_with l s = true \/ ends_with s l = true.
Proof.
  induction p as [|a p IH]; intros s H; [left; exact H|]. cbn [append ends_with] in H. apply orb_true_iff in H. destruct H as [H|H]; [|apply IH; exact H].
  right. apply String.eqb_eq in H. subst l. exact (ends_with_app (String a p) s).
Qed.
Lemma prefix_sep w : forall a r, String.prefix w (a ++ String "_" r)%string = true -> ends_with "_" w = false -> contains "_" w = false -> String.prefix w a = true.
Proof.
  induction w as [|b w IH]; intros a r H E C; [destruct a; reflexivity|]. destruct a as [|c a]; cbn [append] in H; cbn [String.prefix] in H |- *.
  - destruct (ascii_dec b "_") as [->|N]; [|discriminate]. destruct w; cbn in C; discriminate.
  - destruct (ascii_dec b c); [|discriminate]. apply IH with r; [exact H| |].
    + cbn [ends_with] in E. apply orb_false_iff in E. tauto.
    + cbn [contains] in C. apply orb_false_iff in C. tauto.
Qed.
Lemma app_nil_str (a : string) : (a ++ "")%string = a. Proof. induction a; cbn; [reflexivity|now rewrite IHa]. Qed.
Lemma app_assoc_str (a b c : string) : ((a ++ b) ++ c)%string = (a ++ (b ++ c))%string. Proof. induction a; cbn; [reflexivity|now rewrite IHa]. Qed.
Lemma append_inj_l p s : (p ++ s)%string = s -> p = EmptyString.
Proof.
  intros H. assert (L : String.length (p ++ s) = String.length p + String.length s). { clear. induction p; cbn; [reflexivity|now rewrite IHp]. }
  rewrite H in L. destruct p; [reflexivity|]. cbn in L. lia.
Qed.

(** ** Ties *)
Lemma fold_tie source name labels h h' : foldM (tie_one source name) labels h = Some h' ->
  (forall l, In l labels -> ends_with l name && negb (String.eqb l name) && negb (String.prefix "compton" name) = false) -> h' = h.
Proof.
  revert h. induction labels as [|l r IH]; intros h H N; cbn [foldM] in H; [congruence|]. unfold tie_one in H at 1.
  destruct (aget source l); [cbn [bind] in H|discriminate]. rewrite (N l (or_introl eq_refl)) in H. apply IH; [exact H|]. intros k Hk. apply N. right. exact Hk.
Qed.
Lemma fold_tie_last source name labels lbl h h' : foldM (tie_one source name) labels h = Some h' -> In lbl labels ->
  (forall l, In l labels -> ends_with l name && negb (String.eqb l name) && negb (String.prefix "compton" name) = true <-> l = lbl) ->
  h' = with_expr lbl h.
Proof.
  intros H I T.
  assert (G : forall labels h, foldM (tie_one source name) labels h = Some h' ->
     (forall l, In l labels -> ends_with l name && negb (String.eqb l name) && negb (String.prefix "compton" name) = true <-> l = lbl) ->
     (h' = h \/ h' = with_expr lbl h) /\ (In lbl labels -> h' = with_expr lbl h)).
  { clear. induction labels as [|l r IH]; intros h H T; cbn [foldM] in H; [split; [left; congruence|intros []]|].
    unfold tie_one in H at 1. destruct (aget source l); [cbn [bind] in H|discriminate].
    assert (T' : forall k, In k r -> ends_with k name && negb (String.eqb k name) && negb (String.prefix "compton" name) = true <-> k = lbl) by (intros k Hk; apply T; right; exact Hk).
    destruct (_ && _) eqn:E.
    - apply (T l (or_introl eq_refl)) in E. subst l. destruct (IH _ H T') as [[->| ->] _]; [split; auto|]. split; [right|intros _]; destruct h; reflexivity.
    - destruct (IH _ H T') as [A B]. split; [exact A|]. intros [->|Hi]; [|exact (B Hi)]. exfalso. assert (X := proj2 (T lbl (or_introl eq_refl)) eq_refl). congruence. }
  exact (proj2 (G labels h H T) I).
Qed.
Lemma tie_all_in source le ls t t' : tie_all source le ls t = Some t' ->
  (forall x, In x t' -> exists y, In y t /\ tie_hint source le ls y = Some x) /\ (forall y, In y t -> exists x, In x t' /\ tie_hint source le ls y = Some x).
Proof.
  revert t'. induction t as [|y t IH]; cbn [tie_all]; intros t' H; [injection H as <-; split; intros ? []|].
  destruct (tie_hint source le ls y) as [x|] eqn:E; [cbn [bind] in H|discriminate]. destruct (tie_all source le ls t) as [l|]; [cbn [bind] in H|discriminate].
  injection H as <-. destruct (IH l eq_refl) as [A B]. split.
  - intros z [<-|Hz]; [exists y; split; [left; reflexivity|exact E]|]. destruct (A z Hz) as [w [Hw Ew]]. exists w. split; [right; exact Hw|exact Ew].
  - intros z [<-|Hz]; [exists x; split; [left; reflexivity|exact E]|]. destruct (B z Hz) as [w [Hw Ew]]. exists w. split; [right; exact Hw|exact Ew].
Qed.
(** names without a label at their end *)
Definition plain_names : list string := ["area"; "delta_center"; "delta_sigma"; "center"; "ratio"; "ratio_adjust"; "epsilon"; "coherent_sct_amplitude"]%string.
Lemma plain_not_label p s l : In s plain_names -> In l elastic_labels -> ends_with l (p ++ s) = false.
Proof.
  intros Hs Hl. destruct (ends_with l (p ++ s)) eqn:E; [exfalso|reflexivity]. apply ends_with_suffix in E.
  assert (C : forallb (fun s => forallb (fun l => negb (ends_with l s) && negb (ends_with s l)) elastic_labels) plain_names = true) by reflexivity.
  rewrite forallb_forall in C. specialize (C s Hs). rewrite forallb_forall in C. specialize (C l Hl). apply andb_true_iff in C. destruct C as [C1 C2].
  apply negb_true_iff in C1, C2. destruct E; congruence.
Qed.
Lemma label_unique p l k : In l elastic_labels -> In k elastic_labels -> ends_with k (p ++ l) = true -> k = l.
Proof.
  intros Hl Hk E. apply ends_with_suffix in E.
  assert (C : forallb (fun l => forallb (fun k => String.eqb k l || negb (ends_with k l) && negb (ends_with l k)) elastic_labels) elastic_labels = true) by reflexivity.
  rewrite forallb_forall in C. specialize (C l Hl). rewrite forallb_forall in C. specialize (C k Hk). apply orb_true_iff in C. destruct C as [C|C]; [apply String.eqb_eq; exact C|].
  apply andb_true_iff in C. destruct C as [C1 C2]. apply negb_true_iff in C1, C2. destruct E; congruence.
Qed.
Lemma five_six l : In l elements_labels -> In l elastic_labels.
Proof. cbn. tauto. Qed.
Lemma tie_plain source kh x p s : fst kh = (p ++ s)%string -> In s plain_names -> tie_hint source elements_labels elastic_labels kh = Some x -> x = kh.
Proof.
  destruct kh as [n h]. cbn [fst]. intros -> Hs H. unfold tie_hint in H. cbn [fst snd] in H. destruct (String.prefix "compton" (p ++ s)); [congruence|].
  destruct (foldM _ _ h) as [h'|] eqn:E; [cbn [bind] in H|discriminate]. injection H as <-. f_equal. eapply fold_tie; [exact E|].
  intros l Hl. rewrite (plain_not_label p s l Hs); [reflexivity|]. destruct (String.prefix "elastic" _); [exact Hl|apply five_six; exact Hl].
Qed.
Lemma tie_label source p l h x : p <> EmptyString -> String.prefix "compton" (p ++ l) = false -> In l elements_labels \/ String.prefix "elastic" (p ++ l) = true /\ In l elastic_labels ->
  tie_hint source elements_labels elastic_labels ((p ++ l)%string, h) = Some x -> x = ((p ++ l)%string, with_expr l h).
Proof.
  intros Hp Hc Hl H. unfold tie_hint in H. cbn [fst snd] in H. rewrite Hc in H. destruct (foldM _ _ h) as [h'|] eqn:E; [cbn [bind] in H|discriminate]. injection H as <-. f_equal.
  assert (L6 : In l elastic_labels) by (destruct Hl as [Hl|[_ Hl]]; [apply five_six|]; exact Hl).
  eapply fold_tie_last; [exact E| |].
  - destruct (String.prefix "elastic" (p ++ l)); [exact L6|]. destruct Hl as [Hl|[F _]]; [exact Hl|discriminate].
  - intros k Hk. assert (K6 : In k elastic_labels) by (destruct (String.prefix "elastic" (p ++ l)); [|apply five_six]; exact Hk). rewrite Hc, andb_true_r. split.
    + intros T. apply andb_true_iff in T. destruct T as [T _]. exact (label_unique p l k L6 K6 T).
    + intros ->. rewrite ends_with_app. cbn [andb]. apply negb_true_iff. apply String.eqb_neq. intros F. apply Hp. apply (append_inj_l p l). congruence.
Qed.

(** ** The hints before tying *)
Lemma aget_aset_eq {A} (d : list (string * A)) k v : aget (aset d k v) k = Some v.
Proof. induction d as [|[k' w] d IH]; cbn; [rewrite String.eqb_refl; reflexivity|]. destruct (String.eqb_spec k k') as [->|N]; cbn; [rewrite String.eqb_refl; reflexivity|]. destruct (String.eqb_spec k k'); [contradiction|exact IH]. Qed.
Lemma aget_aset_ne {A} (d : list (string * A)) k v k2 : k2 <> k -> aget (aset d k v) k2 = aget d k2.
Proof.
  intros N. induction d as [|[k' w] d IH]; cbn; [destruct (String.eqb_spec k2 k); [contradiction|reflexivity]|].
  destruct (String.eqb_spec k k') as [->|N']; cbn; [destruct (String.eqb_spec k2 k'); [contradiction|reflexivity]|]. destruct (String.eqb k2 k'); [reflexivity|exact IH].
Qed.
Lemma aget_in {A} (d : list (string * A)) k v : aget d k = Some v -> In (k, v) d.
Proof. induction d as [|[k' w] d IH]; cbn; [discriminate|]. destruct (String.eqb_spec k k') as [->|N]; [intros H; injection H as ->; left; reflexivity|intros H; right; exact (IH H)]. Qed.
Lemma set_hint_has t n h k : aget t k <> None \/ n = k -> aget (set_hint t n h) k <> None.
Proof.
  intros H. unfold set_hint. destruct (String.eqb_spec k n) as [->|N]; [rewrite aget_aset_eq; discriminate|]. rewrite aget_aset_ne by exact N. destruct H as [H|H]; [exact H|congruence].
Qed.
Lemma copy_has source : forall labels t t', copy_hints source labels t = Some t' -> forall k, aget t k <> None \/ In k labels -> aget t' k <> None.
Proof.
  unfold copy_hints. induction labels as [|l r IH]; intros t t' H k Hk; cbn [foldM] in H; [injection H as <-; destruct Hk as [Hk|[]]; exact Hk|].
  destruct (aget source l); [cbn [bind] in H|discriminate]. apply (IH _ _ H). destruct Hk as [Hk|[->|Hk]]; [left; apply set_hint_has; auto|left; apply set_hint_has; auto|right; exact Hk].
Qed.
Lemma from_has param : forall names t t', from_params param names t = Some t' -> forall k, aget t k <> None -> aget t' k <> None.
Proof.
  unfold from_params. induction names as [|l r IH]; intros t t' H k Hk; cbn [foldM] in H; [injection H as <-; exact Hk|].
  destruct (aget param l) as [e|]; [|cbn [bind] in H; exact (IH _ _ H k Hk)]. destruct (hint_of e) as [h|]; [cbn [bind] in H|discriminate]. apply (IH _ _ H). apply set_hint_has. left. exact Hk.
Qed.
(** epsilon is fixed at the value given *)
Lemma eps_set t eps : (forall h, aget t "epsilon"%string = Some h -> hexpr h = None) -> exists h, aget (set_hint t "epsilon" (eps_hint eps)) "epsilon"%string = Some h /\ hexpr h = None /\ hvary h = Some false /\ hvalue h = Some eps.
Proof.
  intros H. unfold set_hint. rewrite aget_aset_eq. eexists. split; [reflexivity|]. destruct (aget t "epsilon") as [old|]; [|auto]. cbn. rewrite (H old eq_refl). auto.
Qed.
Lemma copy_keeps source : forall labels t t' k, ~ In k labels -> copy_hints source labels t = Some t' -> aget t' k = aget t k.
Proof.
  unfold copy_hints. induction labels as [|l r IH]; intros t t' k N H; cbn [foldM] in H; [congruence|]. destruct (aget source l); [cbn [bind] in H|discriminate].
  rewrite (IH _ _ k (fun F => N (or_intror F)) H). unfold set_hint. apply aget_aset_ne. intros ->. apply N. left. reflexivity.
Qed.
Lemma from_keeps param : forall names t t' k, ~ In k names -> from_params param names t = Some t' -> aget t' k = aget t k.
Proof.
  unfold from_params. induction names as [|l r IH]; intros t t' k N H; cbn [foldM] in H; [congruence|]. 
  assert (N' : ~ In k r) by (intros F; apply N; right; exact F).
  destruct (aget param l) as [e|]; [|cbn [bind] in H; exact (IH _ _ k N' H)]. destruct (hint_of e) as [h|]; [cbn [bind] in H|discriminate].
  rewrite (IH _ _ k N' H). unfold set_hint. apply aget_aset_ne. intros ->. apply N. left. reflexivity.
Qed.
Definition fixed_at (h : hint) (q : Qc) : Prop := hexpr h = None /\ hvary h = Some false /\ hvalue h = Some q.
Ltac notin := cbn; intros F; repeat (destruct F as [F|F]; [discriminate|]); exact F.
Lemma compton_eps param eps t : setup_compton param eps = Some t -> exists h, In ("epsilon"%string, h) t /\ fixed_at h eps.
Proof.
  unfold setup_compton. intros H. destruct (from_params _ _ _) as [t0|] eqn:E; [cbn [bind] in H|discriminate]. apply inj_some in H; subst t.
  destruct (eps_set t0 eps) as [h [A B]]; [|exists h; split; [apply aget_in; exact A|exact B]].
  intros h Hh. rewrite (fun N => from_keeps _ _ _ _ "epsilon"%string N E) in Hh by notin. cbn in Hh. injection Hh as <-. reflexivity.
Qed.
Lemma elastic_has param source eps t : setup_elastic param source eps = Some t ->
  (exists h, In ("epsilon"%string, h) t /\ fixed_at h eps) /\ (forall l, In l elastic_labels -> exists h, In (l, h) t).
Proof.
  unfold setup_elastic. intros H. destruct (copy_hints _ _ _) as [t0|] eqn:E0; [cbn [bind] in H|discriminate]. destruct (from_params _ _ _) as [t1|] eqn:E1; [cbn [bind] in H|discriminate].
  apply inj_some in H; subst t. split.
  - destruct (eps_set t1 eps) as [h [A B]]; [|exists h; split; [apply aget_in; exact A|exact B]].
    intros h Hh. rewrite (fun N => from_keeps _ _ _ _ "epsilon"%string N E1), (fun N => copy_keeps _ _ _ _ "epsilon"%string N E0) in Hh by notin. cbn in Hh. injection Hh as <-. reflexivity.
  - intros l Hl. assert (N : aget (set_hint t1 "epsilon" (eps_hint eps)) l <> None).
    { apply set_hint_has. left. apply (from_has _ _ _ _ E1). apply (copy_has _ _ _ _ E0). right. exact Hl. }
    destruct (aget _ l) as [h|] eqn:E; [|contradiction]. exists h. apply aget_in. exact E.
Qed.
Lemma line_has source eps c t : setup_line source eps c = Some t ->
  (exists h, In ("epsilon"%string, h) t /\ fixed_at h eps) /\ (forall l, In l elements_labels -> exists h, In (l, h) t) /\
  (exists h, In ("center"%string, h) t /\ fixed_at h (center c)) /\ (exists h, In ("ratio"%string, h) t /\ fixed_at h (ratio c)).
Proof.
  unfold setup_line. intros H. destruct (copy_hints _ _ _) as [t0|] eqn:E0; [cbn [bind] in H|discriminate]. apply inj_some in H; subst t. split; [|split; [|split]].
  - destruct (eps_set t0 eps) as [h [A B]]; [|exists h; split; [apply in_or_app; left; apply aget_in; exact A|exact B]].
    intros h Hh. rewrite (fun N => copy_keeps _ _ _ _ "epsilon"%string N E0) in Hh by notin. cbn in Hh. injection Hh as <-. reflexivity.
  - intros l Hl. assert (N : aget (set_hint t0 "epsilon" (eps_hint eps)) l <> None). { apply set_hint_has. left. apply (copy_has _ _ _ _ E0). right. exact Hl. }
    destruct (aget _ l) as [h|] eqn:E; [|contradiction]. exists h. apply in_or_app. left. apply aget_in. exact E.
  - eexists. split; [apply in_or_app; right; do 3 right; left; reflexivity|repeat split].
  - eexists. split; [apply in_or_app; right; do 4 right; left; reflexivity|repeat split].
Qed.
Lemma lines_in source eps : forall cs t, setup_lines source eps cs = Some t -> forall c, In c cs -> exists tc, setup_line source eps c = Some tc /\ incl (prefixed (pre c) tc) t.
Proof.
  induction cs as [|a cs IH]; intros t H c Hc; [destruct Hc|]. cbn [setup_lines] in H. destruct (setup_line source eps a) as [ta|] eqn:Ea; [cbn [bind] in H|discriminate].
  destruct (setup_lines source eps cs) as [l|]; [cbn [bind] in H|discriminate]. apply inj_some in H; subst t. destruct Hc as [<-|Hc].
  - exists ta. split; [exact Ea|]. intros x Hx. apply in_or_app. left. exact Hx.
  - destruct (IH l eq_refl c Hc) as [tc [E I]]. exists tc. split; [exact E|]. intros x Hx. apply in_or_app. right. exact (I x Hx).
Qed.

(** ** Prefixes of the components *)
Section T.
Context (cs : string -> Qc -> string -> Qc) (en : string -> string -> Qc) (is_element : string -> bool).
Lemma component_pre p pf ce ra a b d c : component p pf ce ra a b d = inl c -> pre c = pf.
Proof.
  unfold component. destruct (adjust p (pf ++ "area") a); [|discriminate]. destruct (adjust p (pf ++ "delta_center") b); [|discriminate].
  destruct (adjust p (pf ++ "delta_sigma") d); [|discriminate]. destruct (adjust p (pf ++ "ratio_adjust") _); [|discriminate]. intros E. injection E as <-. reflexivity.
Qed.
Lemma family_pre p el first energy isK : forall lines area l, family cs en p el first energy area isK lines = inl l -> forall c, In c l -> exists ln, pre c = (el ++ "_" ++ ln ++ "_")%string.
Proof.
  induction lines as [|ln lines IH]; intros area l H c Hc; cbn [family] in H; [injection H as <-; destruct Hc|].
  destruct (component _ _ _ _ _ _ _) as [a|] eqn:E; [|discriminate]. destruct (family _ _ _ _ _ _ _ _ lines) as [r|] eqn:E'; [|discriminate]. injection H as <-.
  destruct Hc as [<-|Hc]; [exists ln; exact (component_pre _ _ _ _ _ _ _ _ E)|]. exact (IH _ _ E' c Hc).
Qed.
Lemma family_not_compton p line letter first isK energy area l c r : forallb (fun x => negb (String.prefix "compton" (hd EmptyString (split "_" x)))) (K_LINE ++ L_LINE ++ M_LINE) = true ->
  In line (K_LINE ++ L_LINE ++ M_LINE) -> family_model cs en p line letter first isK energy area = Comps l -> In c l -> String.prefix "compton" (pre c ++ r) = false /\ pre c <> EmptyString.
Proof.
  intros HT HL H Hc. unfold family_model in H. destruct (Qc_eqb _ _); [discriminate|]. destruct (family _ _ _ _ _ _ _ _ _) as [l'|] eqn:E; [|discriminate]. injection H as ->.
  destruct (family_pre _ _ _ _ _ _ _ _ E c Hc) as [ln ->]. split.
  - destruct (String.prefix _ _) eqn:P; [exfalso|reflexivity]. rewrite !app_assoc_str in P. cbn [append] in P. apply prefix_sep in P; [|reflexivity|reflexivity].
    rewrite forallb_forall in HT. specialize (HT line HL). rewrite P in HT. discriminate.
  - destruct (hd EmptyString (split "_" line)); discriminate.
Qed.
Lemma mem_in s l : mem s l = true -> In s l.
Proof. unfold mem. intros H. apply existsb_exists in H. destruct H as [x [Hx E]]. apply String.eqb_eq in E. subst. exact Hx. Qed.
Lemma setup_not_compton p energy line area l c r : String.prefix "compton" line = false ->
  setup_element_model cs en is_element p energy line area = Comps l -> In c l -> String.prefix "compton" (pre c ++ r) = false /\ pre c <> EmptyString.
Proof.
  intros HL H Hc. assert (HT : forallb (fun x => negb (String.prefix "compton" (hd EmptyString (split "_" x)))) (K_LINE ++ L_LINE ++ M_LINE) = true) by (vm_compute; reflexivity).
  unfold setup_element_model in H.
  destruct (mem line K_LINE) eqn:EK; [refine (family_not_compton _ _ _ _ _ _ _ _ _ r HT _ H Hc); apply in_or_app; left; apply mem_in; exact EK|].
  destruct (mem line L_LINE) eqn:EL; [refine (family_not_compton _ _ _ _ _ _ _ _ _ r HT _ H Hc); apply in_or_app; right; apply in_or_app; left; apply mem_in; exact EL|].
  destruct (mem line M_LINE) eqn:EM; [refine (family_not_compton _ _ _ _ _ _ _ _ _ r HT _ H Hc); apply in_or_app; right; apply in_or_app; right; apply mem_in; exact EM|].
  destruct (contains "user" (lower line)).
  - unfold one in H. destruct (component _ _ _ _ _ _ _) as [a|] eqn:E; [|discriminate]. injection H as <-. destruct Hc as [<-|[]]. rewrite (component_pre _ _ _ _ _ _ _ _ E). split.
    + destruct (String.prefix "compton" ((line ++ "_") ++ r)) eqn:P; [exfalso|reflexivity]. rewrite app_assoc_str in P. cbn [append] in P. apply prefix_sep in P; [congruence|reflexivity|reflexivity].
    + destruct line; discriminate.
  - destruct (split "-" line) as [|l1 [|l2 [|]]]; try discriminate. destruct (get_line_energy _ _ l1); [|discriminate]. destruct (get_line_energy _ _ l2); [|discriminate].
    unfold one in H. destruct (component _ _ _ _ _ _ _) as [a|] eqn:E; [|discriminate]. injection H as <-. destruct Hc as [<-|[]]. rewrite (component_pre _ _ _ _ _ _ _ _ E). split; [reflexivity|discriminate].
Qed.
Lemma assemble_not_compton p energy r : forall els l c, Forall (fun e => String.prefix "compton" e = false) els -> assemble cs en is_element p energy els = inl l -> In c l ->
  String.prefix "compton" (pre c ++ r) = false /\ pre c <> EmptyString.
Proof.
  induction els as [|e els IH]; intros l c HF H Hc; cbn [assemble] in H; [injection H as <-; destruct Hc|]. inversion HF as [|? ? H1 H2]; subst.
  destruct (setup_element_model _ _ _ _ _ e _) as [| |l1] eqn:E; [discriminate|discriminate|]. destruct (assemble _ _ _ _ _ els) as [l2|] eqn:E2; [|discriminate]. injection H as <-.
  apply in_app_or in Hc. destruct Hc as [Hc|Hc]; [exact (setup_not_compton _ _ _ _ _ _ r H1 E Hc)|exact (IH _ _ H2 eq_refl Hc)].
Qed.

(** ** The assembled spectrum *)
Local Open Scope R_scope.
Lemma fold_left_total l : forall a, fold_left Rplus l a = a + total l.
Proof. induction l as [|b l IH]; intros a; cbn [fold_left total]; [ring|]. rewrite IH. ring. Qed.
Lemma in_prefixed p (t : hints) n h : In (n, h) t -> In ((p ++ n)%string, h) (prefixed p t).
Proof. intros H. unfold prefixed. apply in_map_iff. exists (n, h). split; [reflexivity|exact H]. Qed.
Theorem spectrum_ok p energy eps source els comps h v : Forall (fun e => String.prefix "compton" e = false) els ->
  assembled cs en is_element p energy eps source els = Some (comps, h) -> respects v h ->
  forall x, spectrum_value v comps x = shared_spectrum v (real eps) comps x.
Proof.
  intros HF H R x. unfold assembled in H. destruct (setup_compton p eps) as [ct|] eqn:EC; [cbn [bind] in H|discriminate].
  destruct (setup_elastic p source eps) as [et|] eqn:EE; [cbn [bind] in H|discriminate]. destruct (assemble _ _ _ _ _ _) as [comps'|] eqn:EA; [|discriminate].
  destruct (setup_lines source eps comps') as [lt|] eqn:EL; [cbn [bind] in H|discriminate]. destruct (tie_all _ _ _ _) as [h'|] eqn:ET; [cbn [bind] in H|discriminate].
  apply inj_some in H. injection H as -> ->. destruct (tie_all_in _ _ _ _ _ ET) as [_ TI].
  assert (FX : forall pf n hi q, In ((pf ++ n)%string, hi) (ct ++ prefixed "elastic_" et ++ lt) -> In n plain_names -> fixed_at hi q -> v (pf ++ n)%string = real q).
  { intros pf n hi q Hi Hn [F1 [F2 F3]]. destruct (TI _ Hi) as [x' [Hx' E']]. apply (tie_plain _ ((pf ++ n)%string, hi) _ pf n eq_refl Hn) in E'. subst x'. specialize (R _ _ Hx'). rewrite F1, F2, F3 in R. exact R. }
  assert (TD : forall pf l hi, In ((pf ++ l)%string, hi) (ct ++ prefixed "elastic_" et ++ lt) -> pf <> EmptyString -> String.prefix "compton" (pf ++ l) = false ->
     In l elements_labels \/ String.prefix "elastic" (pf ++ l) = true /\ In l elastic_labels -> v (pf ++ l)%string = v l).
  { intros pf l hi Hi Hp Hc Hl. destruct (TI _ Hi) as [x' [Hx' E']]. apply tie_label in E'; [|exact Hp|exact Hc|exact Hl]. subst x'. exact (R _ _ Hx'). }
  unfold spectrum_value, shared_spectrum. rewrite fold_left_total. f_equal; [f_equal|].
  - unfold compton_value. destruct (compton_eps _ _ _ EC) as [hi [I F]]. assert (Q : v "epsilon"%string = real eps). { apply (FX ""%string "epsilon"%string hi eps); [apply in_or_app; left; exact I|cbn; tauto|exact F]. } rewrite Q. reflexivity.
  - unfold elastic_value. destruct (elastic_has _ _ _ _ EE) as [[hi [I F]] L].
    rewrite (FX "elastic_"%string "epsilon"%string hi eps); [|apply in_or_app; right; apply in_or_app; left; apply in_prefixed; exact I|cbn; tauto|exact F].
    assert (G : forall l, In l elastic_labels -> v ("elastic_" ++ l)%string = v l).
    { intros l Hl. destruct (L l Hl) as [hl Il]. apply (TD "elastic_"%string l hl); [apply in_or_app; right; apply in_or_app; left; apply in_prefixed; exact Il|discriminate|reflexivity|right; split; [destruct l; reflexivity|exact Hl]]. }
    rewrite (G "e_offset"%string) by (cbn; tauto). rewrite (G "e_linear"%string) by (cbn; tauto). rewrite (G "e_quadratic"%string) by (cbn; tauto). rewrite (G "fwhm_offset"%string) by (cbn; tauto). rewrite (G "fwhm_fanoprime"%string) by (cbn; tauto). rewrite (G "coherent_sct_energy"%string) by (cbn; tauto). reflexivity.
  - f_equal. apply map_ext_in. intros c Hc. destruct (lines_in _ _ _ _ EL c Hc) as [tc [Etc Inc]]. destruct (line_has _ _ _ _ Etc) as [[he [Ie Fe]] [Lb [[hc [Ic Fc]] [hr [Ir Fr]]]]].
    assert (Up : forall n hi, In (n, hi) tc -> In ((pre c ++ n)%string, hi) (ct ++ prefixed "elastic_" et ++ lt)).
    { intros n hi Hn. apply in_or_app. right. apply in_or_app. right. apply Inc. apply in_prefixed. exact Hn. }
    unfold line_value, shared_peak. rewrite (FX _ _ _ _ (Up _ _ Ie) ltac:(cbn; tauto) Fe), (FX _ _ _ _ (Up _ _ Ic) ltac:(cbn; tauto) Fc), (FX _ _ _ _ (Up _ _ Ir) ltac:(cbn; tauto) Fr).
    assert (G : forall l, In l elements_labels -> v (pre c ++ l)%string = v l).
    { intros l Hl. destruct (Lb l Hl) as [hl Il]. destruct (assemble_not_compton _ _ l _ _ c HF EA Hc) as [P1 P2]. apply (TD _ _ _ (Up _ _ Il) P2 P1). left. exact Hl. }
    rewrite (G "e_offset"%string) by (cbn; tauto). rewrite (G "e_linear"%string) by (cbn; tauto). rewrite (G "e_quadratic"%string) by (cbn; tauto). rewrite (G "fwhm_offset"%string) by (cbn; tauto). rewrite (G "fwhm_fanoprime"%string) by (cbn; tauto). reflexivity.
Qed.
End T.
