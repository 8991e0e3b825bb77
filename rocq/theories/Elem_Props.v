From Verif Require Import Common Text_Model Elem_Data Elem_Model Elem_Proofs.

(** the module loads, with the 103 elements of the file *)
Theorem C61_loads : exists t, basic = Some t /\ map Z_ (blocks file_lines) = map Z.of_nat (seq 1 103).
Proof. destruct table_facts as (t & T & _). exists t. split; [exact T|exact rows_Z']. Qed.
Print Assumptions C61_loads.
(** every element is found by its number, and by its symbol and its name in any case *)
Theorem C61_lookup t e s : basic = Some t -> In e (blocks file_lines) ->
  basic_element t (KInt (Z_ e)) = Some e /\ (lower s = lower (sym e) \/ lower s = lower (name e) -> basic_element t (KStr s) = Some e).
Proof.
  intros E I. destruct table_facts as (t' & T & A & _). assert (t' = t) by congruence. subst t'. split.
  - apply (A e _ I). left. reflexivity.
  - unfold basic_element. intros [-> | ->]; apply (A e _ I); [right; left; reflexivity|right; right; left; reflexivity].
Qed.
Print Assumptions C61_lookup.
Example C61_lookup_ex : match basic with Some t => map (fun k => option_map Z_ (basic_element t k)) [KStr (txt "ZN"); KStr (txt "zInC"); KInt 30; KStr (txt "Tin")] | None => [] end = [Some 30; Some 30; Some 30; Some 50]%Z.
Proof. vm_compute. reflexivity. Qed.
(** nothing else is found, and nothing is found under a wrong key *)
Theorem C61_only t e k : basic = Some t -> basic_element t k = Some e ->
  In e (blocks file_lines) /\ match k with KInt n => n = Z_ e | KStr s => lower s = lower (sym e) \/ lower s = lower (name e) end.
Proof.
  intros E H. destruct table_facts as (t' & T & _ & B). assert (t' = t) by congruence. subst t'. unfold basic_element in H. apply B in H as [I K]. split; [exact I|]. destruct k as [n|s]; cbn in K.
  - destruct K as [[= K]|[K|[K|[]]]]; [symmetry; exact K|discriminate K|discriminate K].
  - destruct K as [K|[[= K]|[[= K]|[]]]]; [discriminate K|left; symmetry; exact K|right; symmetry; exact K].
Qed.
Print Assumptions C61_only.
Example C61_only_ex : match basic with Some t => map (fun k => option_map Z_ (basic_element t k)) [KStr (txt "Sulfur"); KInt 104; KStr (txt "Sulphur")] | None => [] end = [None; None; Some 16]%Z.
Proof. vm_compute. reflexivity. Qed.
(** all six comparisons are those of the atomic numbers *)
Theorem C61_comparisons a b : (e_eq a b = true <-> (Z_ a = Z_ b)%Z) /\ (e_ne a b = true <-> (Z_ a <> Z_ b)%Z) /\ (e_lt a b = true <-> (Z_ a < Z_ b)%Z) /\
  (e_le a b = true <-> (Z_ a <= Z_ b)%Z) /\ (e_gt a b = true <-> (Z_ a > Z_ b)%Z) /\ (e_ge a b = true <-> (Z_ a >= Z_ b)%Z).
Proof. unfold e_le, e_gt, e_ge, e_ne, e_lt, e_eq. set (m := Z_ a). set (n := Z_ b). clearbody m n. lia. Qed.
Print Assumptions C61_comparisons.
(** equal elements of the table are the same element *)
Theorem C61_equal_same t k k' a b : basic = Some t -> basic_element t k = Some a -> basic_element t k' = Some b -> (e_eq a b = true <-> a = b).
Proof.
  intros E A B. split; [|intros ->; unfold e_eq; apply Z.eqb_refl]. intros H. apply Z.eqb_eq in H. apply (C61_only t) in A as [IA _]; [|exact E]. apply (C61_only t) in B as [IB _]; [|exact E].
  destruct (C61_lookup t a [] E IA) as [LA _]. destruct (C61_lookup t b [] E IB) as [LB _]. rewrite H in LA. congruence.
Qed.
Print Assumptions C61_equal_same.
Example C61_equal_ex : match basic with Some t => match basic_element t (KStr (txt "fe")), basic_element t (KInt 26), basic_element t (KStr (txt "COBALT")) with Some a, Some b, Some c => [e_eq a b; e_lt a c; e_ge a c] | _, _, _ => [] end | None => [] end = [true; true; false].
Proof. vm_compute. reflexivity. Qed.
