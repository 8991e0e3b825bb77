(* Independent specification: a dotted dictionary is a partial map from paths to values. *)
From Verif Require Import Common.
From Coq Require Export Strings.String.
Open Scope list_scope.

(** q starts with p. *)
Definition under (p q : list string) : Prop := exists r, q = p ++ r.
Definition strictly_under (p q : list string) : Prop := exists a r, q = p ++ a :: r.
Definition unrelated (p q : list string) : Prop := ~ under p q /\ ~ under q p.

(** The same on keys: k' is k, a dot and something more. *)
Definition below (k k' : string) : Prop := exists r, k' = (k ++ "." ++ r)%string.
Definition apart (k k' : string) : Prop := k <> k' /\ ~ below k k' /\ ~ below k' k.
