(* What may change an object, the documented words for bounds, and what a hint must be. *)
From Verif Require Import Common Xrf_Model Defaults_Model.

(** the statements that are given the object to change *)
Definition changes_dict (r : ref) (o : op) : Prop :=
  match o with SetEntry r' _ _ | Bound r' _ _ | Update r' _ => r' = r | _ => False end.
Definition changes_ctrl (i : nat) (o : op) : Prop := match o with CtrlStrategy j _ | CtrlUpdate j _ _ => j = i | _ => False end.
Definition changes_strategy (i : nat) (o : op) : Prop := match o with EditDict j _ _ => j = i | _ => False end.

Definition bound_words : list string := ["none"; "fixed"; "lo"; "hi"; "lohi"]%string.
(** free unless fixed, limited where the word says so; the value is handed on unless the word is "none" *)
Definition hint_spec (e : entry) (h : hint) : Prop :=
  hvary h = Some (negb (String.eqb (bound e) "fixed")) /\
  hvalue h = (if String.eqb (bound e) "none" then None else Some (value e)) /\
  hmin h = (if mem (bound e) ["lo"; "lohi"]%string then Some (pmin e) else None) /\
  hmax h = (if mem (bound e) ["hi"; "lohi"]%string then Some (pmax e) else None) /\ hexpr h = None.
(** programs that write only those words as bounds *)
Definition word (b : string) : Prop := In b bound_words.
Definition good_dict (t : list (string * string)) : Prop := forall k b, In (k, b) t -> word b.
Definition word_op (o : op) : Prop :=
  match o with
  | SetEntry _ _ e => word (bound e)
  | Bound _ _ ex => good_dict ex
  | NewDict t => good_dict t
  | EditDict _ _ b => word b
  | _ => True
  end.
