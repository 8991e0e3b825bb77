(* The names of emission lines and shells, and the quantities tabulated for them. *)
From Verif Require Import Common Text_Model Elem_Data Elem_Model Wrap_Model.
Open Scope list_scope.

Definition numbered (p : string) (n : nat) : list text := map (fun i => txt p ++ dec (Z.of_nat i)) (seq 1 n).
Definition line_list : list text :=
  numbered "ka" 3 ++ numbered "kb" 5 ++ numbered "la" 2 ++ numbered "lb" 5 ++ numbered "lg" 4 ++ [txt "ll"; txt "ln"] ++ numbered "ma" 2 ++ [txt "mb"; txt "mg"].
Definition shell_list : list text := [txt "k"] ++ numbered "l" 3 ++ numbered "m" 5 ++ numbered "n" 7 ++ numbered "o" 5 ++ numbered "p" 3.
(** quantities without an energy, with the names they are given for *)
Definition plain : list (string * quantity * list text) :=
  [("lines"%string, Lines, line_list); ("binding_e"%string, BindingE, shell_list); ("jump"%string, Jump, shell_list); ("yield"%string, Yield, shell_list)].
(** cross sections *)
Definition excited : list (string * quantity) := [("cs"%string, Cs); ("csb"%string, Csb)].
(** a missing entry counts as zero *)
Definition entry (o : option Qc) : Qc := match o with Some v => v | None => 0%Qc end.
