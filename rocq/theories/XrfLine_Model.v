(* Model of XrayLibWrap, XrayLibWrap_Energy, XrfElement.line_near and emission_line_search of
   /repo/skbeam/core/constants/xrf.py.  The xraylib functions are parameters of an atomic number
   and a line; None is their ValueError.  Energies are exact rationals. *)
From Verif Require Import Common Text_Model Elem_Data Elem_Model.

(** line_name, lines 53-79, lower-cased (line_dict) *)
Definition line_names : list text := map txt ["ka1"; "ka2"; "ka3"; "kb1"; "kb2"; "kb3"; "kb4"; "kb5"; "la1"; "la2"; "lb1"; "lb2"; "lb3"; "lb4"; "lb5"; "lg1"; "lg2"; "lg3"; "lg4"; "ll"; "ln"; "ma1"; "ma2"; "mb"; "mg"]%string.
Section X.
Context (LineEnergy : Z -> text -> option Qc) (CS : Z -> text -> Qc -> option Qc).
Definition or0 (o : option Qc) : Qc := match o with Some v => v | None => 0%Qc end.
(** self.emission_line[k], self.cs(energy)[k], 282-301 and 379-397; the names are in sorted order already *)
Definition emission (z : Z) (k : text) : Qc := or0 (LineEnergy z k).
Definition cross (z : Z) (inc : Qc) (k : text) : Qc := or0 (CS z k inc).
Definition Qc_absv (v : Qc) : Qc := if Qc_ltb v 0%Qc then (- v)%Qc else v.
(** line_near, 598-622 *)
Definition line_near (z : Z) (energy delta inc : Qc) : list (text * Qc) :=
  flat_map (fun k => if Qc_eqb (cross z inc k) 0%Qc then []
                     else if Qc_ltb (Qc_absv (emission z k - energy)%Qc) delta then [(k, emission z k)] else []) line_names.
Fixpoint sset {A} (d : list (text * A)) (k : text) (v : A) : list (text * A) :=
  match d with [] => [(k, v)] | (k', v') :: r => if text_eqb k k' then (k', v) :: r else (k', v') :: sset r k v end.
Fixpoint sget {A} (d : list (text * A)) (k : text) : option A :=
  match d with [] => None | (k', v) :: r => if text_eqb k k' then Some v else sget r k end.
Fixpoint elements (t : dict) (l : list key) : option (list element) :=
  match l with [] => Some [] | k :: r => e <- basic_element t k ;; rest <- elements t r ;; Some (e :: rest) end.
(** emission_line_search, 625-667; None is the KeyError of an unknown element *)
Definition emission_line_search (t : dict) (line_e delta inc : Qc) (element_list : option (list key)) : option (list (text * list (text * Qc))) :=
  es <- elements t (match element_list with Some l => l | None => map (fun n => KInt (Z.of_nat n)) (seq 1 100) end) ;;
  Some (fold_left (fun out e => match line_near (Z_ e) line_e delta inc with [] => out | l => sset out (sym e) l end) es []).
End X.
