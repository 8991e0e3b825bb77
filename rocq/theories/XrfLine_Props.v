From Verif Require Import Common QcArith Text_Model Elem_Data Elem_Model Elem_Proofs Elem_Props XrfLine_Model XrfLine_Proofs.

(** the lines reported for one element *)
Theorem C63_line_near LineEnergy CS z energy delta inc k v : In (k, v) (line_near LineEnergy CS z energy delta inc) <->
  In k line_names /\ v = or0 (LineEnergy z k) /\ or0 (CS z k inc) <> 0%Qc /\ (energy - delta < v /\ v < energy + delta)%Qc.
Proof. exact (near_ok LineEnergy CS z energy delta inc k v). Qed.
Print Assumptions C63_line_near.
Theorem C63_line_once LineEnergy CS z energy delta inc : NoDup (map fst (line_near LineEnergy CS z energy delta inc)).
Proof. exact (near_nodup LineEnergy CS z energy delta inc). Qed.
Print Assumptions C63_line_once.
(** the search *)
Theorem C63_search LineEnergy CS t line_e delta inc l : basic = Some t ->
  (emission_line_search LineEnergy CS t line_e delta inc (Some l) = None <-> exists k, In k l /\ basic_element t k = None) /\
  forall d, emission_line_search LineEnergy CS t line_e delta inc (Some l) = Some d ->
  forall s lines, sget d s = Some lines <-> exists k e, In k l /\ basic_element t k = Some e /\ sym e = s /\ lines = line_near LineEnergy CS (Z_ e) line_e delta inc /\ lines <> [].
Proof. exact (search_ok LineEnergy CS t line_e delta inc l). Qed.
Print Assumptions C63_search.
(** a toy data base: line ka1 of element z at z keV, seen below the incident energy *)
Definition toyE (z : Z) (k : text) : option Qc := if text_eqb k (txt "ka1") then Some (qz z) else None.
Definition toyC (z : Z) (k : text) (inc : Qc) : option Qc := if text_eqb k (txt "ka1") && Qc_ltb (qz z) inc then Some (qz 1) else None.
Example C63_search_ex : match basic with Some t => option_map (map (fun p => (fst p, map (fun q => (fst q, this (snd q))) (snd p)))) (emission_line_search toyE toyC t (qz 27) (qz 2) (qz 28) (Some [KStr (txt "FE"); KInt 26; KInt 27; KInt 28; KInt 29])) | None => None end =
  Some [(txt "Fe", [(txt "ka1", 26%Q)]); (txt "Co", [(txt "ka1", 27%Q)])].
Proof. vm_compute. reflexivity. Qed.
(** without a list only the first hundred of the 103 elements are searched *)
Theorem C63_default LineEnergy CS t line_e delta inc : emission_line_search LineEnergy CS t line_e delta inc None = emission_line_search LineEnergy CS t line_e delta inc (Some (map (fun n => KInt (Z.of_nat n)) (seq 1 100))).
Proof. reflexivity. Qed.
Print Assumptions C63_default.
Theorem C63_all_elements_refuted t : basic = Some t -> exists e d, basic_element t (KInt 101) = Some e /\ line_near toyE toyC (Z_ e) (qz 101) (qz 1) (qz 200) <> [] /\
  emission_line_search toyE toyC t (qz 101) (qz 1) (qz 200) None = Some d /\ sget d (sym e) = None.
Proof.
  intros T. assert (X : match basic with Some t => match basic_element t (KInt 101), emission_line_search toyE toyC t (qz 101) (qz 1) (qz 200) None with
     | Some e, Some d => match line_near toyE toyC (Z_ e) (qz 101) (qz 1) (qz 200), sget d (sym e) with _ :: _, None => true | _, _ => false end | _, _ => false end | None => false end = true) by (vm_compute; reflexivity).
  rewrite T in X. destruct (basic_element t (KInt 101)) as [e|]; [|discriminate]. destruct (emission_line_search _ _ _ _ _ _ None) as [d|]; [|discriminate]. exists e, d.
  destruct (line_near _ _ _ _ _ _); [discriminate|]. destruct (sget d (sym e)); [discriminate|]. repeat split. discriminate.
Qed.
Print Assumptions C63_all_elements_refuted.
