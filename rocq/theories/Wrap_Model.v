(* Model of the mappings of X-ray data of /repo/skbeam/core/constants/xrf.py: the tables of names 53-106 and 191-204,
   XrayLibWrap 207-315, XrayLibWrap_Energy 318-397, and what collections.abc.Mapping adds (in, get, items, ==).
   The xraylib functions are parameters: [f2] of a quantity, an atomic number and a line or shell, [f3] with an energy
   too; None is their ValueError.  Strings are ascii, numbers exact. *)
From Verif Require Import Common Text_Model Elem_Data Elem_Model XrfLine_Model.

(** bindingE, 81-106 *)
Definition shells : list text := map txt ["K"; "L1"; "L2"; "L3"; "M1"; "M2"; "M3"; "M4"; "M5"; "N1"; "N2"; "N3"; "N4"; "N5"; "N6"; "N7"; "O1"; "O2"; "O3"; "O4"; "O5"; "P1"; "P2"; "P3"]%string.
(** line_name as written, 53-79 *)
Definition lines_written : list text := map txt ["Ka1"; "Ka2"; "Ka3"; "Kb1"; "Kb2"; "Kb3"; "Kb4"; "kb5"; "La1"; "La2"; "Lb1"; "Lb2"; "Lb3"; "Lb4"; "Lb5"; "Lg1"; "Lg2"; "Lg3"; "Lg4"; "Ll"; "Ln"; "Ma1"; "Ma2"; "Mb"; "Mg"]%string.
(** line_dict, shell_dict, 191-193; the value is the place of the constant in line_list or shell_list *)
Definition code_table (names : list text) : list (text * nat) := combine (map lower names) (seq 0 (length names)).
Inductive quantity := Lines | Cs | Csb | BindingE | Jump | Yield.
(** XRAYLIB_MAP, 195-204 *)
Definition quantity_of (info_type : text) : option quantity :=
  if text_eqb info_type (txt "lines") then Some Lines else if text_eqb info_type (txt "cs") then Some Cs
  else if text_eqb info_type (txt "csb") then Some Csb else if text_eqb info_type (txt "binding_e") then Some BindingE
  else if text_eqb info_type (txt "jump") then Some Jump else if text_eqb info_type (txt "yield") then Some Yield else None.
Definition table_of (q : quantity) : list (text * nat) :=
  match q with Lines | Cs | Csb => code_table lines_written | BindingE | Jump | Yield => code_table shells end.
Definition needs_energy (q : quantity) : bool := match q with Cs | Csb => true | _ => false end.
Fixpoint find_code (t : list (text * nat)) (k : text) : option nat :=
  match t with [] => None | (k', c) :: r => if text_eqb k k' then Some c else find_code r k end.

(** sorted of strings: insertion sort by code points *)
Fixpoint text_leb (a b : text) : bool :=
  match a, b with
  | [], _ => true
  | _ :: _, [] => false
  | x :: a', y :: b' => (nat_of_ascii x <? nat_of_ascii y)%nat || (nat_of_ascii x =? nat_of_ascii y)%nat && text_leb a' b'
  end.
Fixpoint insert (k : text) (l : list text) : list text := match l with [] => [k] | x :: r => if text_leb k x then k :: l else x :: insert k r end.
Definition sorted (l : list text) : list text := fold_right insert [] l.

(** an object: [energy] is Some for XrayLibWrap_Energy *)
Record wrap := { element_no : Z; what : quantity; energy : option Qc }.
(** XrayLibWrap(element, info_type), 269-275; None is KeyError *)
Definition xraylib_wrap (z : Z) (info_type : text) : option wrap :=
  q <- quantity_of info_type ;; Some {| element_no := z; what := q; energy := None |}.
Definition xraylib_wrap_energy (z : Z) (info_type : text) (e : Qc) : option wrap :=
  q <- quantity_of info_type ;; Some {| element_no := z; what := q; energy := Some e |}.
(** the setter, 369-377 *)
Definition set_energy (w : wrap) (e : Qc) : wrap := {| element_no := element_no w; what := what w; energy := Some e |}.

Inductive looked := Value (v : Qc) | KeyError | TypeError.
Section W.
Context (f2 : quantity -> Z -> nat -> option Qc) (f3 : quantity -> Z -> nat -> Qc -> option Qc).
(** __getitem__, 282-301 and 379-397: a function called with the wrong number of arguments raises TypeError *)
Definition getitem (w : wrap) (key : text) : looked :=
  match find_code (table_of (what w)) (lower key) with
  | None => KeyError
  | Some c => match energy w with
              | None => if needs_energy (what w) then TypeError
                        else Value (match f2 (what w) (element_no w) c with Some v => v | None => 0%Qc end)
              | Some e => if needs_energy (what w)
                          then Value (match f3 (what w) (element_no w) c e with Some v => v | None => 0%Qc end)
                          else TypeError
              end
  end.
(** __iter__, __len__, 303-307 *)
Definition iter (w : wrap) : list text := sorted (map fst (table_of (what w))).
Definition len (w : wrap) : nat := length (iter w).
(** key in w; None is the TypeError *)
Definition contains (w : wrap) (key : text) : option bool :=
  match getitem w key with Value _ => Some true | KeyError => Some false | TypeError => None end.
Definition get (w : wrap) (key : text) (default : Qc) : option Qc :=
  match getitem w key with Value v => Some v | KeyError => Some default | TypeError => None end.
(** the property all, 277-280 *)
Fixpoint items_of (w : wrap) (ks : list text) : option (list (text * Qc)) :=
  match ks with
  | [] => Some []
  | k :: r => match getitem w k with Value v => rest <- items_of w r ;; Some ((k, v) :: rest) | _ => None end
  end.
Definition all (w : wrap) : option (list (text * Qc)) := items_of w (iter w).
(** dict(a.items()) == dict(b.items()) *)
Definition equal (a b : wrap) : option bool :=
  x <- all a ;; y <- all b ;;
  Some ((length x =? length y)%nat &&
        forallb (fun p => match find (fun q => text_eqb (fst p) (fst q)) y with Some q => Qc_eqb (snd p) (snd q) | None => false end) x).
End W.
