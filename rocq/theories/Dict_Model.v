(* Model of the dotted dictionaries.
   /repo/skbeam/core/utils.py 71-184 (MD_dict, _iter_helper), 214-301 (RCParamDict).

   Simplifications: python dicts are insertion-ordered association lists; keys are
   strings; sub-dictionaries are owned by their parent (an interior MD_dict or
   RCParamDict handed out by a read and then mutated by the caller, or stored as a
   value, is not modelled); the constructor argument md_dict (93-98) is left at its
   default; leaf values of an RCParamDict are not subscriptable by strings (so
   self._dict[a][b] on a leaf raises TypeError, and __delitem__ on it raises
   AttributeError).  The validator table of RCParamDict (237) is not modelled:
   256 tests the truth value of the function itself, so it never rejects. *)
From Verif Require Import Common.
From Coq Require Export Strings.String Strings.Ascii.
Open Scope list_scope.
Notation length := List.length.

(** key.split("."), 106 and 142. *)
Fixpoint split_dot (s : string) : list string :=
  match s with
  | EmptyString => [EmptyString]
  | String c r =>
      if Ascii.eqb c "."%char then EmptyString :: split_dot r
      else match split_dot r with
           | [] => [String c EmptyString]
           | x :: xs => String c x :: xs
           end
  end.
(** split.join(path), 181. *)
Fixpoint join_dot (l : list string) : string :=
  match l with
  | [] => EmptyString
  | [x] => x
  | x :: r => append x (String "."%char (join_dot r))
  end.
(** key.split(".", 1), 242: first segment and the rest, if any. *)
Fixpoint split1 (s : string) : string * option string :=
  match s with
  | EmptyString => (EmptyString, None)
  | String c r =>
      if Ascii.eqb c "."%char then (EmptyString, Some r)
      else let '(a, b) := split1 r in (String c a, b)
  end.

Inductive node (V : Type) := Leaf (v : V) | Branch (d : list (string * node V)).
Arguments Leaf {V}. Arguments Branch {V}.
Notation dict V := (list (string * node V)) (only parsing).

(** Python dict primitives. *)
Section D.
Context {V : Type}.
Fixpoint dget (d : dict V) (k : string) : option (node V) :=
  match d with [] => None | (k', n) :: r => if String.eqb k k' then Some n else dget r k end.
Fixpoint dset (d : dict V) (k : string) (n : node V) : dict V :=
  match d with
  | [] => [(k, n)]
  | (k', m) :: r => if String.eqb k k' then (k', n) :: r else (k', m) :: dset r k n
  end.
Fixpoint ddel (d : dict V) (k : string) : dict V :=
  match d with [] => [] | (k', m) :: r => if String.eqb k k' then r else (k', m) :: ddel r k end.

Inductive err := KeyErr | TypeErr | AttrErr | IndexErr.

(** ** RCParamDict *)
(** __setitem__, 240-259, over the segments of the key: the dictionary
    afterwards and the exception, if any. *)
Fixpoint rc_set (d : dict V) (p : list string) (v : V) : dict V * option err :=
  match p with
  | [] => (d, Some KeyErr)
  | [k] => (dset d k (Leaf v), None)
  | k :: r =>
      match dget d k with
      | None => let '(d', e) := rc_set [] r v in (dset d k (Branch d'), e)
      | Some (Branch d0) => let '(d', e) := rc_set d0 r v in (dset d k (Branch d'), e)
      | Some (Leaf _) => (d, Some KeyErr)
      end
  end.
(** __getitem__, 261-267. *)
Fixpoint rc_get (d : dict V) (p : list string) : node V + err :=
  match p with
  | [] => inr KeyErr
  | [k] => match dget d k with Some n => inl n | None => inr KeyErr end
  | k :: r =>
      match dget d k with
      | None => inr KeyErr
      | Some (Branch d0) => rc_get d0 r
      | Some (Leaf _) => inr TypeErr
      end
  end.
(** __delitem__, 269-274. *)
Fixpoint rc_del (d : dict V) (p : list string) : dict V * option err :=
  match p with
  | [] => (d, Some KeyErr)
  | [k] => match dget d k with Some _ => (ddel d k, None) | None => (d, Some KeyErr) end
  | k :: r =>
      match dget d k with
      | None => (d, Some KeyErr)
      | Some (Branch d0) => let '(d', e) := rc_del d0 r in (dset d k (Branch d'), e)
      | Some (Leaf _) => (d, Some AttrErr)
      end
  end.
(** Mapping.__contains__: a read that turns KeyError into False. *)
Definition rc_contains (d : dict V) (p : list string) : bool + err :=
  match rc_get d p with inl _ => inl true | inr KeyErr => inl false | inr e => inr e end.

(** _iter_helper, 282-301 (RCParamDict) and 175-184 (MD_dict): paths of the leaves. *)
Fixpoint leaf_paths (n : node V) : list (list string) :=
  match n with
  | Leaf _ => [[]]
  | Branch d => flat_map (fun kn => match kn with (k, m) => map (cons k) (leaf_paths m) end) d
  end.
Definition iter_keys (d : dict V) : list string := map join_dot (leaf_paths (Branch d)).
Definition dict_len (d : dict V) : nat := length (iter_keys d).

(** ** MD_dict *)
(** Walk used by __setitem__ and __getitem__, 107-116 and 143-153: any failure to
    reach a sub-dictionary (missing key or a leaf, whose ._dict raises
    AttributeError) installs a fresh empty MD_dict there. *)
Definition md_sub (d : dict V) (k : string) : dict V :=
  match dget d k with Some (Branch d0) => d0 | _ => [] end.
Fixpoint md_set (d : dict V) (p : list string) (v : V) : dict V :=
  match p with
  | [] => d
  | [k] => dset d k (Leaf v)
  | k :: r => dset d k (Branch (md_set (md_sub d k) r v))
  end.
(** __getitem__, 141-155: also returns the dictionary after the read. *)
Fixpoint md_get (d : dict V) (p : list string) : dict V * option (node V) :=
  match p with
  | [] => (d, None)
  | [k] => (d, dget d k)
  | k :: r => let '(d', res) := md_get (md_sub d k) r in (dset d k (Branch d'), res)
  end.
(** __delitem__, 157-165. *)
Fixpoint md_del (d : dict V) (p : list string) : dict V * option err :=
  match p with
  | [] => (d, Some KeyErr)
  | [k] => match dget d k with Some _ => (ddel d k, None) | None => (d, Some KeyErr) end
  | k :: r =>
      match dget d k with
      | None => (d, Some KeyErr)
      | Some (Branch d0) => let '(d', e) := md_del d0 r in (dset d k (Branch d'), e)
      | Some (Leaf _) => (d, Some AttrErr)
      end
  end.
End D.

(** Values offered to MD_dict.__setitem__. *)
Inductive pyval :=
| PNone | PStr (s : string) | PNum (z : Z) | PSeq (l : list pyval) | PMd (value units : pyval).
(** md_value(value, units). *)
Notation mdv := (pyval * pyval)%type (only parsing).
(** The wrapping rules, 118-139.  [inr] is the uncaught IndexError of val[1]. *)
Definition md_wrap (v : pyval) : mdv + err :=
  match v with
  | PMd a u => inl (a, u)
  | PStr s => inl (PStr s, PStr "text")
  | PSeq l =>
      match nth_error l 1 with
      | None => inr IndexErr
      | Some (PStr _) | Some PNone =>
          match l with [a; u] => inl (a, u) | _ => inl (v, PNone) end
      | Some _ => inl (v, PNone)
      end
  | PNum _ | PNone => inl (v, PNone)
  end.
(** md[key] = val: the dictionary afterwards and the exception, if any. *)
Definition md_setitem (d : dict mdv) (key : string) (val : pyval) : dict mdv * option err :=
  let p := split_dot key in
  match md_wrap val with
  | inl m => (md_set d p m, None)
  | inr e => (fst (md_get d p), Some e)
  end.
Definition md_getitem (d : dict mdv) (key : string) : dict mdv * option (node mdv) :=
  md_get d (split_dot key).
Definition md_delitem (d : dict mdv) (key : string) : dict mdv * option err := md_del d (split_dot key).
(** key in md: Mapping.__contains__, a read whose only caught exception is
    KeyError; the read raises none. *)
Definition md_contains (d : dict mdv) (key : string) : dict mdv * bool :=
  (fst (md_getitem d key), true).

(** ** Operation histories *)
Inductive rc_op (V : Type) := RSet (k : string) (v : V) | RDel (k : string).
Arguments RSet {V}. Arguments RDel {V}.
Definition rc_step {V} (d : dict V) (o : rc_op V) : dict V :=
  fst (match o with RSet k v => rc_set d (split_dot k) v | RDel k => rc_del d (split_dot k) end).
Definition rc_run {V} (ops : list (rc_op V)) : dict V := fold_left rc_step ops [].

Inductive md_op := MSet (k : string) (v : pyval) | MGet (k : string) | MDel (k : string).
Definition md_step (d : dict mdv) (o : md_op) : dict mdv :=
  match o with
  | MSet k v => fst (md_setitem d k v)
  | MGet k => fst (md_getitem d k)
  | MDel k => fst (md_delitem d k)
  end.
Definition md_run (ops : list md_op) : dict mdv := fold_left md_step ops [].
