(* Model of /repo/skbeam/core/constants/basic.py: the reader of AtomicConstants.dat, the lookup
   table and the comparison of elements.  Numbers of the file are exact rationals.  The
   documentation strings, __getitem__ and __str__ are left out. *)
From Verif Require Import Common Text_Model Elem_Data.

(** str.lower on ascii *)
Definition lower_ch (c : ascii) : ascii := let n := nat_of_ascii c in if (65 <=? n)%nat && (n <=? 90)%nat then ascii_of_nat (n + 32) else c.
Definition lower (s : text) : text := map lower_ch s.
Definition text_eqb (a b : text) : bool := if list_eq_dec ascii_dec a b then true else false.
Fixpoint starts_with (p s : text) : bool := match p, s with [], _ => true | a :: p', b :: s' => Ascii.eqb a b && starts_with p' s' | _ :: _, [] => false end.

(** the namedtuple, 54-73: Z, sym, name and the twelve numbers *)
Record element := { Z_ : Z; sym : text; name : text; vals : list Qc }.
Inductive key := KInt (n : Z) | KStr (s : text).
Definition key_eqb (a b : key) : bool := match a, b with KInt m, KInt n => (m =? n)%Z | KStr s, KStr t => text_eqb s t | _, _ => false end.
(** a python dict: keys in order of first insertion *)
Definition dict := list (key * element).
Fixpoint dset (d : dict) (k : key) (e : element) : dict :=
  match d with [] => [(k, e)] | (k', e') :: r => if key_eqb k k' then (k', e) :: r else (k', e') :: dset r k e end.
Fixpoint dget (d : dict) (k : key) : option element :=
  match d with [] => None | (k', e') :: r => if key_eqb k k' then Some e' else dget r k end.

Record rstate := { r_Z : option Z; r_abbrev : option text; r_name : option text; r_desc : list text; r_dict : dict }.
Fixpoint floats (l : list text) : option (list Qc) := match l with [] => Some [] | a :: r => v <- parse_float a ;; rest <- floats r ;; Some (v :: rest) end.
Definition fixed_desc : list text := [txt "Atomic number"; txt "Element symbol (Fe, Cr, etc.)"; txt "Full element name (Iron, Chromium, etc."].
(** the body of the loop, 91-112; None is an exception, inr the break *)
Definition read_line (st : rstate) (line : text) : option (rstate + rstate) :=
  w0 <- nth_error (words line) 0 ;;
  if text_eqb w0 (txt "#S") then
    abbrev <- nth_error (words line) 2 ;;
    z <- w <- nth_error (words line) 1 ;; parse_int w ;;
    let st := {| r_Z := Some z; r_abbrev := Some abbrev; r_name := r_name st; r_desc := r_desc st; r_dict := r_dict st |} in
    Some (if (z =? 1000)%Z then inr st else inl st)
  else if (match r_desc st with [] => true | _ => false end) && text_eqb w0 (txt "#L") then
    Some (inl {| r_Z := r_Z st; r_abbrev := r_abbrev st; r_name := r_name st; r_desc := fixed_desc ++ skipn 1 (words line); r_dict := r_dict st |})
  else if starts_with (txt "#UNAME") line then
    n <- nth_error (words line) 1 ;;
    Some (inl {| r_Z := r_Z st; r_abbrev := r_abbrev st; r_name := Some n; r_desc := r_desc st; r_dict := r_dict st |})
  else if starts_with (txt "#") line then Some (inl st)
  else
    v <- floats (words line) ;;
    z <- r_Z st ;; a <- r_abbrev st ;; n <- r_name st ;;
    if (length v =? 12)%nat then
      Some (inl {| r_Z := r_Z st; r_abbrev := r_abbrev st; r_name := r_name st; r_desc := r_desc st; r_dict := dset (r_dict st) (KStr (lower a)) {| Z_ := z; sym := a; name := n; vals := v |} |})
    else None.
Fixpoint read_lines (st : rstate) (lines : list text) : option rstate :=
  match lines with
  | [] => Some st
  | l :: r => s <- read_line st l ;; match s with inl st => read_lines st r | inr st => Some st end
  end.
Definition start : rstate := {| r_Z := None; r_abbrev := None; r_name := None; r_desc := []; r_dict := [] |}.
(** read_atomic_constants, 76-113 *)
Definition read_atomic_constants (lines : list text) : option (dict * list text) := st <- read_lines start lines ;; Some (r_dict st, r_desc st).
(** basic.update({f(elm): elm for elm in basic.values()}), 118-120 *)
Definition update_by (f : element -> key) (d : dict) : dict := fold_left (fun acc e => dset acc (f e) e) (map snd d) d.
Definition full_table (d : dict) : dict :=
  update_by (fun e => KStr (lower (sym e))) (update_by (fun e => KStr (lower (name e))) (update_by (fun e => KInt (Z_ e)) d)).
(** BasicElement(Z), 161-171: None is KeyError *)
Definition basic_element (table : dict) (k : key) : option element := dget table (match k with KStr s => KStr (lower s) | KInt _ => k end).
(** the module's table *)
Definition file_lines : list text := map txt atomic_constants.
Definition basic : option dict := r <- read_atomic_constants file_lines ;; Some (full_table (fst r)).

(** comparison, 190-194 with functools.total_ordering *)
Definition e_eq (a b : element) : bool := (Z_ a =? Z_ b)%Z.
Definition e_lt (a b : element) : bool := (Z_ a <? Z_ b)%Z.
Definition e_ne (a b : element) : bool := negb (e_eq a b).
Definition e_le (a b : element) : bool := e_lt a b || e_eq a b.
Definition e_gt (a b : element) : bool := negb (e_lt a b) && e_ne a b.
Definition e_ge (a b : element) : bool := negb (e_lt a b).
