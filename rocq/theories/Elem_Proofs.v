From Verif Require Import Common QcArith Text_Model Elem_Data Elem_Model.

Lemma text_eqb_eq a b : text_eqb a b = true <-> a = b.
Proof. unfold text_eqb. destruct (list_eq_dec ascii_dec a b); split; congruence. Qed.
Lemma key_eqb_eq a b : key_eqb a b = true <-> a = b.
Proof.
  destruct a as [m|s], b as [n|t]; cbn; try (split; [discriminate|congruence]).
  - rewrite Z.eqb_eq. split; congruence.
  - rewrite text_eqb_eq. split; congruence.
Qed.
Lemma key_eqb_refl k : key_eqb k k = true. Proof. now apply key_eqb_eq. Qed.
Lemma key_eqb_neq a b : a <> b -> key_eqb a b = false.
Proof. intros H. destruct (key_eqb a b) eqn:E; [|reflexivity]. now apply key_eqb_eq in E. Qed.
Lemma dget_dset_eq d k e : dget (dset d k e) k = Some e.
Proof.
  induction d as [|[k' e'] d IH]; cbn; [now rewrite key_eqb_refl|]. destruct (key_eqb k k') eqn:E; cbn; rewrite E; [reflexivity|exact IH].
Qed.
Lemma dget_dset_ne d k k' e : k <> k' -> dget (dset d k e) k' = dget d k'.
Proof.
  intros H. induction d as [|[k1 e1] d IH]; cbn; [now rewrite key_eqb_neq by congruence|]. destruct (key_eqb k k1) eqn:E; cbn.
  - apply key_eqb_eq in E. subst k1. now rewrite key_eqb_neq by congruence.
  - destruct (key_eqb k' k1); [reflexivity|exact IH].
Qed.
(** ** what the shipped table holds, row by row *)
Definition Qc_eq_list (a b : list Qc) : bool := if list_eq_dec Qc_eq_dec a b then true else false.
Definition elem_eqb (a b : element) : bool := (Z_ a =? Z_ b)%Z && text_eqb (sym a) (sym b) && text_eqb (name a) (name b) && Qc_eq_list (vals a) (vals b).
Lemma elem_eqb_eq a b : elem_eqb a b = true -> a = b.
Proof.
  unfold elem_eqb. rewrite !Bool.andb_true_iff, Z.eqb_eq, !text_eqb_eq. intros (((H1 & H2) & H3) & H4). unfold Qc_eq_list in H4. destruct (list_eq_dec _ _ _) as [H5|]; [|discriminate]. destruct a, b; cbn in *. congruence.
Qed.
Definition is (o : option element) (e : element) : bool := match o with Some e' => elem_eqb e' e | None => false end.
(** the keys a row is found under *)
Definition keys_of (e : element) : list key := [KInt (Z_ e); KStr (lower (sym e)); KStr (lower (name e))].
Definition consistent (rows : list element) (t : dict) : bool :=
  forallb (fun e => forallb (fun k => is (dget t k) e) (keys_of e)) rows &&
  forallb (fun p => existsb (key_eqb (fst p)) (keys_of (snd p)) && existsb (elem_eqb (snd p)) rows) t.
Lemma consistent_ok rows t : consistent rows t = true ->
  (forall e k, In e rows -> In k (keys_of e) -> dget t k = Some e) /\ (forall e k, dget t k = Some e -> In e rows /\ In k (keys_of e)).
Proof.
  unfold consistent. rewrite Bool.andb_true_iff, !forallb_forall. intros [A B]. split.
  - intros e k Ie Ik. specialize (A e Ie). rewrite forallb_forall in A. specialize (A k Ik). unfold is in A. destruct (dget t k) as [e'|]; [|discriminate]. apply elem_eqb_eq in A. now subst.
  - intros e k H. assert (I : In (k, e) t).
    { clear - H. induction t as [|[k' e'] t IH]; [discriminate|]. cbn in H. destruct (key_eqb k k') eqn:E; [apply key_eqb_eq in E; injection H as ->; subst; now left|right; auto]. }
    specialize (B _ I). cbn [fst snd] in B. apply Bool.andb_true_iff in B as [B1 B2]. apply existsb_exists in B1 as (k' & I1 & E1). apply existsb_exists in B2 as (e' & I2 & E2).
    apply key_eqb_eq in E1. apply elem_eqb_eq in E2. subst. auto.
Qed.
(** ** an independent reading of the file: every "#S z sym" / "#UNAME name" / numbers block *)
Fixpoint blocks (lines : list text) : list element :=
  match lines with
  | l1 :: rest =>
      match rest with
      | l2 :: _ :: _ :: l5 :: _ =>
          match words l1, words l2 with
          | [s; z; a], [u; n] =>
              if text_eqb s (txt "#S") && text_eqb u (txt "#UNAME") then
                match parse_int z, floats (words l5) with Some z, Some v => {| Z_ := z; sym := a; name := n; vals := v |} :: blocks rest | _, _ => blocks rest end
              else blocks rest
          | _, _ => blocks rest
          end
      | _ => blocks rest
      end
  | [] => []
  end.
Definition rows : list element := Eval vm_compute in blocks file_lines.
Lemma rows_eq : rows = blocks file_lines. Proof. vm_compute. reflexivity. Qed.
Definition tab : dict := match basic with Some d => d | None => [] end.
Lemma basic_tab : basic = Some tab. Proof. unfold tab. assert (H : match basic with Some _ => true | None => false end = true) by (vm_compute; reflexivity). now destruct basic. Qed.
Lemma tab_consistent : consistent rows tab = true. Proof. vm_compute. reflexivity. Qed.
Lemma rows_Z : map Z_ rows = map Z.of_nat (seq 1 103). Proof. vm_compute. reflexivity. Qed.
Lemma table_facts : exists t, basic = Some t /\ (forall e k, In e (blocks file_lines) -> In k (keys_of e) -> dget t k = Some e) /\ (forall e k, dget t k = Some e -> In e (blocks file_lines) /\ In k (keys_of e)).
Proof. exists tab. split; [exact basic_tab|]. rewrite <- rows_eq. exact (consistent_ok _ _ tab_consistent). Qed.
Lemma rows_Z' : map Z_ (blocks file_lines) = map Z.of_nat (seq 1 103).
Proof. rewrite <- rows_eq. exact rows_Z. Qed.
