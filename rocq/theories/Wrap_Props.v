(* C108: the mappings of X-ray data. *)
From Coq Require Import Permutation Sorted.
From Verif Require Import Common QcArith Text_Model Elem_Data Elem_Model XrfLine_Model Wrap_Model Wrap_Spec Wrap_Proofs.
Open Scope list_scope.

Lemma lines_doc : map lower lines_written = line_list. Proof. vm_compute. reflexivity. Qed.
Lemma shells_doc : map lower shells = shell_list. Proof. vm_compute. reflexivity. Qed.
Lemma plain_names info q doc : In (info, q, doc) plain -> map lower (names q) = doc /\ quantity_of (txt info) = Some q /\ needs_energy q = false.
Proof. cbn. intros H. repeat (destruct H as [H|H]; [injection H as <- <- <-; repeat split; (apply lines_doc || apply shells_doc || reflexivity)|]). destruct H. Qed.
Lemma excited_names info q : In (info, q) excited -> map lower (names q) = line_list /\ quantity_of (txt info) = Some q /\ needs_energy q = true.
Proof. cbn. intros H. repeat (destruct H as [H|H]; [injection H as <- <-; repeat split; (apply lines_doc || reflexivity)|]). destruct H. Qed.
Lemma doc_nth q doc c n : map lower (names q) = doc -> nth_error doc c = Some n -> exists m, nth_error (names q) c = Some m /\ n = lower m.
Proof. intros <- H. rewrite nth_error_map in H. destruct (nth_error (names q) c) as [m|]; [|discriminate H]. cbn in H. injection H as <-. eauto. Qed.

(** C108: XrayLibWrap gives for a line or shell, in any case of letters, the tabulated value, or 0 if there is none; other names raise KeyError. *)
Theorem C108_lookup f2 f3 z info q doc : In (info, q, doc) plain -> exists w, xraylib_wrap z (txt info) = Some w /\
  (forall key c, nth_error doc c = Some (lower key) -> getitem f2 f3 w key = Value (entry (f2 q z c))) /\
  (forall key, ~ In (lower key) doc -> getitem f2 f3 w key = KeyError).
Proof.
  intros I. destruct (plain_names _ _ _ I) as (D & Q & E). unfold xraylib_wrap. rewrite Q. eexists. split; [reflexivity|]. split.
  - intros key c N. destruct (doc_nth _ _ _ _ D N) as (m & M & L). rewrite (getitem_value f2 f3 _ key m c); cbn; auto.
  - intros key N. apply getitem_error. cbn. intros m M L. apply N. rewrite <- D, L. apply in_map, M.
Qed.
Print Assumptions C108_lookup.
(** ... XrayLibWrap_Energy likewise at its energy, also after the energy has been set anew. *)
Theorem C108_lookup_energy f2 f3 z info q e e' : In (info, q) excited -> exists w, xraylib_wrap_energy z (txt info) e = Some w /\
  (forall key c, nth_error line_list c = Some (lower key) ->
     getitem f2 f3 w key = Value (entry (f3 q z c e)) /\ getitem f2 f3 (set_energy w e') key = Value (entry (f3 q z c e'))) /\
  (forall key, ~ In (lower key) line_list -> getitem f2 f3 w key = KeyError).
Proof.
  intros I. destruct (excited_names _ _ I) as (D & Q & E). unfold xraylib_wrap_energy. rewrite Q. eexists. split; [reflexivity|]. split.
  - intros key c N. destruct (doc_nth _ _ _ _ D N) as (m & M & L). rewrite (getitem_value f2 f3 _ key m c), (getitem_value f2 f3 _ key m c); cbn; auto.
  - intros key N. apply getitem_error. cbn. intros m M L. apply N. rewrite <- D, L. apply in_map, M.
Qed.
Print Assumptions C108_lookup_energy.
(** C108: iteration runs over the lower-case names, each once, in alphabetical order; [all] pairs them with their values. *)
Theorem C108_iteration f2 f3 z info q doc : In (info, q, doc) plain -> exists w l, xraylib_wrap z (txt info) = Some w /\
  Permutation doc (iter w) /\ NoDup (iter w) /\ StronglySorted (fun a b => text_leb a b = true) (iter w) /\ len w = length doc /\
  all f2 f3 w = Some l /\ map fst l = iter w /\ forall k v, In (k, v) l -> getitem f2 f3 w k = Value v.
Proof.
  intros I. destruct (plain_names _ _ _ I) as (D & Q & E). unfold xraylib_wrap. rewrite Q. set (w := {| element_no := z; what := q; energy := None |}).
  assert (M : matching w) by (unfold matching; cbn; auto). destruct (all_some f2 f3 w M) as [l L]. exists w, l. split; [reflexivity|].
  assert (P : Permutation doc (iter w)) by (rewrite <- D; exact (iter_perm w)). split; [exact P|]. split; [apply iter_nodup|].
  split; [apply sorted_sorted|]. split; [unfold len; symmetry; apply Permutation_length, P|]. split; [exact L|].
  apply items_spec in L as [L1 L2]. split; [exact L1|]. intros k v K. exact (L2 (k, v) K).
Qed.
Print Assumptions C108_iteration.
(** C108: a line is "in" the mapping even if the element does not have it, and in spellings that iteration does not give. *)
Theorem C108_membership_refuted f2 f3 z : exists w, xraylib_wrap z (txt "lines") = Some w /\
  (forall key, contains f2 f3 w key = Some true <-> In (lower key) line_list) /\
  contains f2 f3 w (txt "Ka1") = Some true /\ ~ In (txt "Ka1") (iter w) /\
  (f2 Lines z 0 = None -> contains f2 f3 w (txt "Ka1") = Some true /\ get f2 f3 w (txt "Ka1") (qz 7) = Some 0%Qc).
Proof.
  destruct (C108_lookup f2 f3 z "lines" Lines line_list) as (w & W & V & K); [cbn; auto|]. exists w. split; [exact W|].
  assert (N0 : nth_error line_list 0 = Some (lower (txt "Ka1"))) by (vm_compute; reflexivity).
  assert (C : forall key, contains f2 f3 w key = Some true <-> In (lower key) line_list).
  { intros key. unfold contains. destruct (in_dec (list_eq_dec ascii_dec) (lower key) line_list) as [I|I].
    - destruct (In_nth_error _ _ I) as [c N]. rewrite (V key c N). tauto.
    - rewrite (K key I). split; [discriminate|tauto]. }
  split; [exact C|]. split; [apply C; vm_compute; tauto|]. split.
  - injection W as <-. intros I. apply iter_in in I as (n & I & E). cbn [what names] in I.
    assert (X : forallb (fun n => negb (text_eqb (txt "Ka1") (lower n))) lines_written = true) by (vm_compute; reflexivity).
    rewrite forallb_forall in X. specialize (X n I). rewrite <- E, (proj2 (text_eqb_true _ _) eq_refl) in X. discriminate X.
  - intros F. split; [apply C; vm_compute; tauto|]. unfold get. rewrite (V _ 0%nat N0), F. reflexivity.
Qed.
Print Assumptions C108_membership_refuted.
(** C108: mappings of the same quantity are equal exactly if all their values are; elements of which nothing is tabulated are equal. *)
Theorem C108_equality f2 f3 a b info q doc : In (info, q, doc) plain -> exists wa wb, xraylib_wrap a (txt info) = Some wa /\ xraylib_wrap b (txt info) = Some wb /\
  (equal f2 f3 wa wb = Some true <-> forall c, (c < length doc)%nat -> entry (f2 q a c) = entry (f2 q b c)).
Proof.
  intros I. destruct (plain_names _ _ _ I) as (D & Q & E). unfold xraylib_wrap. rewrite Q. do 2 eexists. split; [reflexivity|]. split; [reflexivity|].
  rewrite (equal_iff f2 f3 _ _) by (unfold matching; cbn; auto). cbn. rewrite <- D, map_length. reflexivity.
Qed.
Print Assumptions C108_equality.
(** C108: cross sections asked for without an energy (and other quantities with one) give an object that has names but
    no values: every lookup of a name is a TypeError. *)
Theorem C108_wrong_class f2 f3 z e key : In (lower key) line_list ->
  exists w v, xraylib_wrap z (txt "cs") = Some w /\ xraylib_wrap_energy z (txt "lines") e = Some v /\ len w = 25%nat /\ len v = 25%nat /\
  getitem f2 f3 w key = TypeError /\ getitem f2 f3 v key = TypeError /\ all f2 f3 w = None /\ all f2 f3 v = None.
Proof.
  intros I. rewrite <- lines_doc in I. apply in_map_iff in I as (n & L & I). do 2 eexists. split; [reflexivity|]. split; [reflexivity|].
  split; [reflexivity|]. split; [reflexivity|].
  split; [apply (getitem_mismatch f2 f3 _ key n); [discriminate|exact I|auto]|]. split; [apply (getitem_mismatch f2 f3 _ key n); [discriminate|exact I|auto]|].
  split; apply all_none; discriminate.
Qed.
Print Assumptions C108_wrong_class.
(** C108: get gives the value of a name the mapping has, the default for any other name; it does not catch the TypeError of the wrong class. *)
Theorem C108_get f2 f3 z info q doc d e : In (info, q, doc) plain -> exists w v, xraylib_wrap z (txt info) = Some w /\ xraylib_wrap_energy z (txt "lines") e = Some v /\
  (forall key c, nth_error doc c = Some (lower key) -> get f2 f3 w key d = Some (entry (f2 q z c))) /\
  (forall key, ~ In (lower key) doc -> get f2 f3 w key d = Some d) /\
  (forall key, In (lower key) line_list -> get f2 f3 v key d = None) /\
  (forall key, In (lower key) line_list -> contains f2 f3 v key = None).
Proof.
  intros I. destruct (C108_lookup f2 f3 z info q doc I) as (w & W & V & K).
  destruct (xraylib_wrap_energy z (txt "lines") e) as [v|] eqn:E; [|discriminate E]. exists w, v. split; [exact W|]. split; [reflexivity|].
  assert (T : forall key, In (lower key) line_list -> getitem f2 f3 v key = TypeError).
  { intros key J. destruct (C108_wrong_class f2 f3 z e key J) as (w' & v' & _ & V' & _ & _ & _ & G & _). congruence. }
  split; [intros key c N; unfold get; now rewrite (V key c N)|]. split; [intros key N; unfold get; now rewrite (K key N)|].
  split; intros key J; [unfold get|unfold contains]; now rewrite (T key J).
Qed.
Print Assumptions C108_get.
Example C108_get_ex : match xraylib_wrap 26 (txt "lines") with
  | Some w => get (fun _ _ c => if c =? 0 then Some (qz 6) else None)%nat (fun _ _ _ _ => None) w (txt "KA1") (qz 7) = Some (qz 6) /\
              get (fun _ _ c => if c =? 0 then Some (qz 6) else None)%nat (fun _ _ _ _ => None) w (txt "Kz") (qz 7) = Some (qz 7)
  | None => False
  end.
Proof. vm_compute. split; reflexivity. Qed.
(** ... and no other name of a quantity is accepted. *)
Theorem C108_quantities z e s : (forall info, In info ["lines"; "cs"; "csb"; "binding_e"; "jump"; "yield"]%string -> s <> txt info) ->
  xraylib_wrap z s = None /\ xraylib_wrap_energy z s e = None.
Proof.
  intros H. unfold xraylib_wrap, xraylib_wrap_energy, quantity_of.
  assert (N : forall info, In info ["lines"; "cs"; "csb"; "binding_e"; "jump"; "yield"]%string -> text_eqb s (txt info) = false).
  { intros info I. destruct (text_eqb s (txt info)) eqn:E; [|reflexivity]. apply text_eqb_true in E. exfalso. exact (H info I E). }
  rewrite !N by (cbn; tauto). split; reflexivity.
Qed.
Print Assumptions C108_quantities.
(** A table with one line for element 29 only. *)
Definition f2_ex (q : quantity) (z : Z) (c : nat) : option Qc := match q, z, c with Lines, 29%Z, 0%nat => Some (qz 8) | _, _, _ => None end.
Definition f3_ex (q : quantity) (z : Z) (c : nat) (e : Qc) : option Qc := None.
Example C108_ex : option_map (fun w => (getitem f2_ex f3_ex w (txt "KA1"), getitem f2_ex f3_ex w (txt "kb5"), getitem f2_ex f3_ex w (txt "kb6"), firstn 2 (iter w)))
  (xraylib_wrap 29 (txt "lines")) = Some (Value (qz 8), Value 0%Qc, KeyError, [txt "ka1"; txt "ka2"]).
Proof. vm_compute. reflexivity. Qed.
