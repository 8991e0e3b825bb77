(* C101: one calibration and one width law for all peaks of a spectrum; strategies and escape peaks. *)
From Coq Require Import Reals QArith.Qreals.
From Coquelicot Require Import Coquelicot.
From Coq Require Import Strings.String.
From Verif Require Import Common Xrf_Model Gauss Line_Model Line_Proofs Line_Tail Line_Compton Line_Props XrfTie_Model XrfTie_Spec XrfTie_Proofs.
From Coq Require Import Lra.
Local Open Scope R_scope.
Local Open Scope list_scope.
Notation length := List.length.

(** C101: whatever values a fit of the assembled model may give, every element peak, the elastic and the Compton peak use the same energy calibration
    and the same width parameters, and each line keeps the energy and ratio of its table entry. *)
Theorem C101_shared_parameters cs en is_element p energy eps source els comps h v :
  Forall (fun e => String.prefix "compton" e = false) els ->
  assembled cs en is_element p energy eps source els = Some (comps, h) -> respects v h ->
  forall x, spectrum_value v comps x = shared_spectrum v (real eps) comps x.
Proof. exact (spectrum_ok cs en is_element p energy eps source els comps h v). Qed.
Print Assumptions C101_shared_parameters.
(** C101: a user peak whose name starts with "compton" is left out: its calibration and width are free parameters of their own. *)
Lemma copy_free source : forall labels t t', copy_hints source labels t = Some t' ->
  (forall k hi, k <> "epsilon"%string -> aget t k = Some hi -> free_hint hi) -> forall k hi, k <> "epsilon"%string -> aget t' k = Some hi -> free_hint hi.
Proof.
  unfold copy_hints. induction labels as [|l r IH]; intros t t' H F k hi Hk Ha; cbn [foldM] in H; [injection H as <-; exact (F k hi Hk Ha)|].
  destruct (aget source l) as [q|]; [cbn [bind] in H|discriminate]. refine (IH _ _ H _ k hi Hk Ha). clear k hi Hk Ha. intros k hi Hk Ha. unfold set_hint in Ha.
  destruct (String.eqb_spec k l) as [->|N]; [|rewrite aget_aset_ne in Ha by exact N; exact (F k hi Hk Ha)]. rewrite aget_aset_eq in Ha. injection Ha as <-.
  destruct (aget t l) as [old|] eqn:E; [|split; [reflexivity|discriminate]]. destruct (F l old Hk E) as [F1 F2]. split; [exact F1|exact F2].
Qed.
Lemma prefix_app w a b : String.prefix w a = true -> String.prefix w (a ++ b)%string = true.
Proof. revert a. induction w as [|c w IH]; intros a; [destruct a, b; reflexivity|]. destruct a as [|d a]; [discriminate|]. cbn. destruct (ascii_dec c d); [apply IH|discriminate]. Qed.
Theorem C101_compton_user_refuted cs en is_element p energy eps source els comps h el :
  In el els -> String.prefix "compton" el = true -> contains "user" (lower el) = true ->
  assembled cs en is_element p energy eps source els = Some (comps, h) ->
  forall l, In l ["e_offset"; "e_linear"; "e_quadratic"; "fwhm_offset"; "fwhm_fanoprime"]%string ->
  exists hi, In ((el ++ "_" ++ l)%string, hi) h /\ free_hint hi.
Proof.
  intros Hel Hp Hu H l Hl. unfold assembled in H. destruct (setup_compton p eps) as [ct|] eqn:EC; [cbn [bind] in H|discriminate].
  destruct (setup_elastic p source eps) as [et|] eqn:EE; [cbn [bind] in H|discriminate]. destruct (assemble _ _ _ _ _ _) as [comps'|] eqn:EA; [|discriminate].
  destruct (setup_lines source eps comps') as [lt|] eqn:EL; [cbn [bind] in H|discriminate]. destruct (tie_all _ _ _ _) as [h'|] eqn:ET; [cbn [bind] in H|discriminate].
  apply inj_some in H. injection H as -> ->. destruct (tie_all_in _ _ _ _ _ ET) as [_ TI].
  assert (C : exists c, In c comps /\ pre c = (el ++ "_")%string).
  { assert (NM : forall L, (forall x, In x L -> String.prefix "compton" x = false) -> mem el L = false).
    { intros L HL. destruct (mem el L) eqn:E; [|reflexivity]. apply mem_in in E. rewrite (HL el E) in Hp. discriminate. }
    assert (HT : forall L, forallb (fun x => negb (String.prefix "compton" x)) L = true -> forall x, In x L -> String.prefix "compton" x = false).
    { intros L HL x Hx. rewrite forallb_forall in HL. apply negb_true_iff. exact (HL x Hx). }
    assert (S1 : forall a l1, setup_element_model cs en is_element p energy el a = Comps l1 -> exists c, In c l1 /\ pre c = (el ++ "_")%string).
    { intros a l1. unfold setup_element_model. rewrite (NM K_LINE), (NM L_LINE), (NM M_LINE), Hu by (apply HT; vm_compute; reflexivity). unfold one.
      destruct (component _ _ _ _ _ _ _) as [c|] eqn:E; [|discriminate]. intros X. injection X as <-. exists c. split; [left; reflexivity|exact (component_pre _ _ _ _ _ _ _ _ E)]. }
    clear - Hel EA S1. revert comps EA. induction els as [|a r IH]; intros comps EA; [destruct Hel|]. cbn [assemble] in EA.
    destruct (setup_element_model _ _ _ _ _ a _) as [| |l1] eqn:E; [discriminate|discriminate|]. destruct (assemble _ _ _ _ _ r) as [l2|] eqn:E2; [|discriminate]. injection EA as <-.
    destruct Hel as [->|Hr].
    - destruct (S1 _ _ E) as [c [I P]]. exists c. split; [apply in_or_app; left; exact I|exact P].
    - destruct (IH Hr l2 eq_refl) as [c [I P]]. exists c. split; [apply in_or_app; right; exact I|exact P]. }
  destruct C as [c [Hc Pc]]. destruct (lines_in _ _ _ _ EL c Hc) as [tc [Etc Inc]].
  unfold setup_line in Etc. destruct (copy_hints source elements_labels _) as [t0|] eqn:E0; [cbn [bind] in Etc|discriminate]. apply inj_some in Etc.
  assert (N : aget t0 l <> None) by (apply (copy_has _ _ _ _ E0); right; exact Hl).
  destruct (aget t0 l) as [hi|] eqn:Ea; [clear N|contradiction].
  assert (NE : l <> "epsilon"%string) by (intros ->; cbn in Hl; repeat (destruct Hl as [Hl|Hl]; [discriminate|]); exact Hl).
  assert (FR : free_hint hi). { refine (copy_free _ _ _ _ E0 _ l hi NE Ea). intros k hk Hk Hg. cbn in Hg. destruct (String.eqb_spec k "epsilon"); [contradiction|discriminate]. }
  assert (I : In ((pre c ++ l)%string, hi) (ct ++ prefixed "elastic_" et ++ lt)).
  { apply in_or_app. right. apply in_or_app. right. apply Inc. apply in_prefixed. rewrite <- Etc. apply in_or_app. left. apply aget_in. unfold set_hint. rewrite aget_aset_ne by exact NE. exact Ea. }
  rewrite Pc, app_assoc_str in I. destruct (TI _ I) as [x [Hx Ex]]. unfold tie_hint in Ex. cbn [fst] in Ex. rewrite (prefix_app "compton" el _ Hp) in Ex. injection Ex as <-.
  exists hi. split; [exact Hx|exact FR].
Qed.
Print Assumptions C101_compton_user_refuted.
(** C101: the Compton component takes the value, the limits and the bound of each of its parameters from the dictionary; one the dictionary does not have gets none. *)
Lemma from_sets param : forall names t t' n, NoDup names -> from_params param names t = Some t' -> In n names -> aget t n = None ->
  match aget param n with Some e => exists hi, hint_of e = inl hi /\ aget t' n = Some hi | None => aget t' n = None end.
Proof.
  induction names as [|l r IH]; intros t t' n ND H I T; [destruct I|]. apply NoDup_cons_iff in ND. destruct ND as [N0 ND]. unfold from_params in H. cbn [foldM] in H.
  destruct (string_dec n l) as [->|N].
  - destruct (aget param l) as [e|] eqn:P.
    + destruct (hint_of e) as [hi|] eqn:Q; [cbn [bind] in H|discriminate]. exists hi. split; [reflexivity|]. rewrite (from_keeps _ _ _ _ l N0 H). unfold set_hint. rewrite aget_aset_eq, T. reflexivity.
    + cbn [bind] in H. rewrite (from_keeps _ _ _ _ l N0 H). exact T.
  - destruct I as [I|I]; [congruence|]. destruct (aget param l) as [e|].
    + destruct (hint_of e) as [hi|]; [cbn [bind] in H|discriminate]. apply (IH _ _ n ND H I). unfold set_hint. rewrite aget_aset_ne by exact N. exact T.
    + cbn [bind] in H. exact (IH _ _ n ND H I T).
Qed.
Theorem C101_compton_parameters p eps t : setup_compton p eps = Some t ->
  forall n, In n ["coherent_sct_energy"; "fwhm_offset"; "fwhm_fanoprime"; "e_offset"; "e_linear"; "e_quadratic"; "compton_amplitude"; "compton_angle"; "compton_fwhm_corr";
                  "compton_f_step"; "compton_f_tail"; "compton_gamma"; "compton_hi_f_tail"; "compton_hi_gamma"]%string ->
  match aget p n with Some e => exists hi, hint_of e = inl hi /\ aget t n = Some hi | None => aget t n = None end.
Proof.
  unfold setup_compton. intros H n I. destruct (from_params _ _ _) as [t0|] eqn:E; [cbn [bind] in H|discriminate]. apply inj_some in H; subst t.
  assert (ND : NoDup compton_list) by (repeat constructor; cbn; intros F; repeat (destruct F as [F|F]; [discriminate|]); exact F).
  assert (J : In n compton_list) by (cbn in I |- *; tauto).
  assert (N : n <> "epsilon"%string) by (intros ->; revert I; cbn; intros F; repeat (destruct F as [F|F]; [discriminate|]); exact F).
  assert (T : aget [("epsilon"%string, eps_hint (Q2Qc (296 # 100)))] n = None) by (cbn; destruct (String.eqb_spec n "epsilon"); [contradiction|reflexivity]).
  pose proof (from_sets p compton_list _ t0 n ND E J T) as G. unfold set_hint at 1 2. rewrite aget_aset_ne by exact N. exact G.
Qed.
Print Assumptions C101_compton_parameters.
(** a spectrum of iron K lines and a user peak *)
Definition ex_cs (el : string) (e : Qc) (ln : string) : Qc := if String.eqb ln "ka1" then qz 2 else if String.eqb ln "kb1" then 1%Qc else 0%Qc.
Definition ex_entry (q : Qc) : entry := {| value := q; pmin := 0%Qc; pmax := qz 100; bound := "lohi"%string |}.
Definition ex_params : params_t := map (fun k => (k, ex_entry 1%Qc)) (compton_list ++ ["coherent_sct_amplitude"%string]).
Definition ex_source : list (string * Qc) := map (fun k => (k, 1%Qc)) compton_list.
Example C101_ex1 : exists comps h, assembled ex_cs (fun _ _ => qz 6) (fun _ => true) ex_params (qz 12) (qz 3) ex_source ["Fe_K"; "user_peak1"]%string = Some (comps, h) /\
  map pre comps = ["Fe_ka1_"; "Fe_kb1_"; "user_peak1_"]%string /\
  option_map hexpr (aget h "Fe_kb1_fwhm_offset") = Some (Some "fwhm_offset"%string) /\ option_map hexpr (aget h "fwhm_offset") = Some None /\
  option_map hexpr (aget h "elastic_coherent_sct_energy") = Some (Some "coherent_sct_energy"%string) /\ option_map hexpr (aget h "user_peak1_e_linear") = Some (Some "e_linear"%string).
Proof. eexists _, _. split; [vm_compute; reflexivity|]. repeat split; reflexivity. Qed.
Example C101_compton_ex : exists t, setup_compton ex_params (qz 3) = Some t /\ option_map hmax (aget t "compton_hi_gamma") = Some (Some (qz 100)) /\ aget t "coherent_sct_amplitude" = None.
Proof. eexists. split; [vm_compute; reflexivity|]. split; reflexivity. Qed.
Example C101_ex2 : exists comps h, assembled ex_cs (fun _ _ => qz 6) (fun _ => true) ex_params (qz 12) (qz 3) ex_source ["compton_user"]%string = Some (comps, h) /\
  option_map hexpr (aget h "compton_user_e_offset") = Some None.
Proof. eexists _, _. split; [vm_compute; reflexivity|reflexivity]. Qed.
(** ... and values the theorem speaks about exist: those of the hints themselves *)
Definition start (h : hints) (name : string) : R :=
  let val hi := match hvalue hi with Some q => real q | None => 0 end in
  match aget h name with
  | None => 0
  | Some hi => match hexpr hi with None => val hi | Some o => match aget h o with Some ho => val ho | None => 0 end end
  end.
Fixpoint distinct (l : list string) : bool := match l with [] => true | a :: r => negb (mem a r) && distinct r end.
Lemma start_respects h : distinct (map fst h) = true ->
  forallb (fun kh => match hexpr (snd kh) with None => true | Some o => match aget h o with Some ho => match hexpr ho with None => true | Some _ => false end | None => true end end) h = true -> respects (start h) h.
Proof.
  intros D F name hi I. rewrite forallb_forall in F. specialize (F _ I). cbn [snd] in F.
  assert (A : aget h name = Some hi).
  { clear F. induction h as [|[k w] h IH]; [destruct I|]. cbn [map distinct fst] in D. apply andb_true_iff in D. destruct D as [D1 D2]. cbn [aget]. destruct (String.eqb_spec name k) as [->|N].
    - destruct I as [I|I]; [congruence|]. exfalso. apply negb_true_iff in D1. assert (X : mem k (map fst h) = true); [|congruence].
      apply existsb_exists. exists k. split; [apply in_map_iff; exists (k, hi); split; [reflexivity|exact I]|apply String.eqb_refl].
    - destruct I as [I|I]; [congruence|exact (IH D2 I)]. }
  destruct (hexpr hi) as [o|] eqn:X.
  - unfold start. rewrite A, X. destruct (aget h o) as [ho|]; [|reflexivity]. destruct (hexpr ho); [discriminate|reflexivity].
  - destruct (hvary hi) as [[]|]; [exact Logic.I|destruct (hvalue hi) eqn:Y; [unfold start; rewrite A, X, Y; reflexivity|exact Logic.I]|exact Logic.I].
Qed.
Example C101_ex6 : exists comps h, assembled ex_cs (fun _ _ => qz 6) (fun _ => true) ex_params (qz 12) (qz 3) ex_source ["Fe_K"; "user_peak1"]%string = Some (comps, h) /\ respects (start h) h.
Proof. eexists _, _. split; [vm_compute; reflexivity|]. apply start_respects; vm_compute; reflexivity. Qed.

(** C101: on the energy axis an element peak is a normal curve around the adjusted line energy; its full width at half maximum f satisfies
    f^2 = fwhm_offset^2 + 8 ln2 * energy * epsilon * fwhm_fanoprime, with delta_sigma added to the standard deviation; it integrates to area * ratio * ratio_adjust. *)
Theorem C101_peak area c dc ds ra adj fo ff eps s : 0 < s -> 0 < ds + s -> 8 * ln 2 * (s * s) = fo * fo + 8 * ln 2 * ((c + dc) * eps * ff) ->
  (forall e0 e1 e2 x, element_peak_xrf x area c dc ds ra adj fo ff e0 e1 e2 eps = ra * adj * normal area (c + dc) (ds + s) (e0 + e1 * x + e2 * (x * x))) /\
  whole_integral (fun x => element_peak_xrf x area c dc ds ra adj fo ff 0 1 0 eps) (area * ra * adj).
Proof.
  intros Hs Hd E. assert (V : forall e0 e1 e2 x, element_peak_xrf x area c dc ds ra adj fo ff e0 e1 e2 eps = ra * adj * gaussian (e0 + e1 * x + e2 * (x * x)) area (c + dc) (ds + s)).
  { intros. unfold element_peak_xrf. rewrite (sigma_is fo ff eps (c + dc) s Hs E). unfold calibrated. replace (e0 + x * e1 + x ^ 2 * e2) with (e0 + e1 * x + e2 * (x * x)) by ring. ring. }
  split; [intros; rewrite V, gaussian_normal by exact Hd; reflexivity|].
  replace (area * ra * adj) with (ra * adj * area) by ring. apply (whole_ext (fun x => ra * adj * gaussian x area (c + dc) (ds + s))).
  - intros x. rewrite V. do 2 f_equal. ring.
  - apply whole_scal. apply gaussian_area. exact Hd.
Qed.
Print Assumptions C101_peak.
Example C101_ex3 : whole_integral (fun x => element_peak_xrf x 10 6 0 0 (1 / 2) 1 0 1 0 1 0 (1 / 6)) 5.
Proof.
  replace 5 with (10 * (1 / 2) * 1) by lra. apply (proj2 (C101_peak 10 6 0 0 (1 / 2) 1 0 1 (1 / 6) 1 ltac:(lra) ltac:(lra) ltac:(lra))).
Qed.
(** C101: the escape peak of a line keeps its height and width times [ratio] and lies escape_e below it. *)
Theorem C101_escape spectrum ra e0 e1 e2 esc area c s : (forall i, (i < length spectrum)%nat -> nth i spectrum 0 = normal area c s (e0 + e1 * INR i + e2 * (INR i * INR i))) ->
  exists xs ys, compute_escape_peak spectrum ra e0 e1 e2 esc = (xs, ys) /\ length xs = length spectrum /\ length ys = length spectrum /\
    forall i, (i < length spectrum)%nat -> nth i xs 0 = e0 + e1 * INR i + e2 * (INR i * INR i) - esc /\ nth i ys 0 = normal (area * ra) (c - esc) s (nth i xs 0).
Proof.
  intros H. eexists _, _. split; [reflexivity|]. rewrite !map_length, seq_length. split; [reflexivity|]. split; [reflexivity|]. intros i Hi.
  set (f := fun i => e0 + e1 * INR i + e2 * INR i ^ 2 - esc).
  assert (X : nth i (map f (seq 0 (length spectrum))) 0 = f i). { rewrite nth_indep with (d' := f 0%nat) by (rewrite map_length, seq_length; exact Hi). rewrite map_nth, seq_nth by exact Hi. reflexivity. }
  rewrite X. split; [unfold f; ring|]. rewrite nth_indep with (d' := 0 * ra) by (rewrite map_length; exact Hi). rewrite (map_nth (fun y => y * ra)), (H i Hi). unfold normal, f.
  replace (e0 + e1 * INR i + e2 * INR i ^ 2 - esc - (c - esc)) with (e0 + e1 * INR i + e2 * (INR i * INR i) - c) by ring. unfold Rdiv. ring.
Qed.
Print Assumptions C101_escape.
Example C101_ex4 : compute_escape_peak [1; 2; 4] (1 / 2) 1 2 0 1 = ([1 + 2 * 0 + 0 * 0 ^ 2 - 1; 1 + 2 * 1 + 0 * 1 ^ 2 - 1; 1 + 2 * (1 + 1) + 0 * (1 + 1) ^ 2 - 1], [1 * (1 / 2); 2 * (1 / 2); 4 * (1 / 2)]).
Proof. reflexivity. Qed.

(** C101: registering an extracted strategy and applying it gives every parameter exactly the bound stored under that name. *)
Theorem C101_strategy reg key name sid0 (full : list (string * list (string * string))) strat (param : params_t) :
  NoDup (map fst full) -> extract_strategy full name = Some strat ->
  exists param', set_parameter_bound (fst (register_strategy reg key {| sid := sid0; table := strat |} true)) param key [] = inl param' /\
    Forall2 (fun a b => fst a = fst b /\ value (snd a) = value (snd b) /\ pmin (snd a) = pmin (snd b) /\ pmax (snd a) = pmax (snd b) /\
      (fst a <> "non_fitting_values"%string -> forall d, In (fst a, d) full -> exists bt, aget d name = Some bt /\ bound (snd b) = bt)) param param'.
Proof.
  intros ND HX.
  assert (L : forall (full : list (string * list (string * string))) strat, NoDup (map fst full) -> extract_strategy full name = Some strat -> forall k d, In (k, d) full -> k <> "non_fitting_values"%string -> exists bt, aget d name = Some bt /\ aget strat k = Some bt).
  { clear. induction full as [|[k0 d0] full IH]; intros strat ND H k d Hi Hk; [destruct Hi|]. cbn [extract_strategy] in H. inversion ND as [|? ? N1 N2]; subst.
    destruct (String.eqb_spec k0 "non_fitting_values") as [->|N].
    - destruct Hi as [Hi|Hi]; [injection Hi as <- <-; contradiction|]. exact (IH strat N2 H k d Hi Hk).
    - destruct (aget d0 name) as [v|] eqn:Ev; [cbn [bind] in H|discriminate]. destruct (extract_strategy full name) as [l|]; [cbn [bind] in H|discriminate]. apply inj_some in H. subst strat.
      destruct Hi as [Hi|Hi].
      + injection Hi as <- <-. exists v. split; [exact Ev|]. cbn. rewrite String.eqb_refl. reflexivity.
      + destruct (IH l N2 eq_refl k d Hi Hk) as [bt [A B]]. exists bt. split; [exact A|]. cbn. destruct (String.eqb_spec k k0) as [->|_]; [|exact B].
        exfalso. apply N1. apply in_map_iff. exists (k0, d). split; [reflexivity|exact Hi]. }
  assert (G : aget (fst (register_strategy reg key {| sid := sid0; table := strat |} true)) key = Some {| sid := sid0; table := strat |}).
  { unfold register_strategy. cbn [negb andb]. destruct (aget reg key); apply aget_aset_eq. }
  unfold set_parameter_bound. rewrite G. eexists. split; [reflexivity|]. cbn [table]. clear G.
  induction param as [|[k e] param IHp]; cbn [map]; constructor; [|exact IHp]. destruct (String.eqb_spec k "non_fitting_values") as [->|N]; cbn [fst snd].
  - do 4 (split; [reflexivity|]). intros F. contradiction.
  - split; [reflexivity|]. split; [reflexivity|]. split; [reflexivity|]. split; [reflexivity|]. intros _ d Hd. destruct (L _ _ ND HX k d Hd N) as [bt [A B]]. exists bt. split; [exact A|]. cbn. rewrite B. reflexivity.
Qed.
Print Assumptions C101_strategy.
Example C101_ex5 : extract_strategy [("a", [("value", "1"); ("linear", "fixed")]); ("non_fitting_values", []); ("b", [("linear", "lohi")])]%string "linear" = Some [("a", "fixed"); ("b", "lohi")]%string.
Proof. reflexivity. Qed.
