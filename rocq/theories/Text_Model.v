(* Text: python's number formatting and parsing, as far as the powder file writer and
   reader use them.  A text is a list of ascii characters.  Numbers are exact rationals:
   %w.df rounds half to even, which is what python does on the exact value of a double.
   float(s) is modelled for [sign] digits [. digits]; exponents, underscores, "inf" and
   "nan" are not (None, as for an invalid literal). *)
From Coq Require Export Strings.String Strings.Ascii.
From Verif Require Import Common BinStat_Model.
Open Scope list_scope.
Notation length := List.length.

Definition text := list ascii.
Definition txt (s : string) : text := list_ascii_of_string s.
Definition sp : ascii := " "%char.
Definition cr : ascii := ascii_of_nat 13.
Definition lf : ascii := ascii_of_nat 10.
(** str.isspace for ascii *)
Definition isspace (c : ascii) : bool := let n := nat_of_ascii c in (n =? 32) || ((9 <=? n) && (n <=? 13)).
Definition spaces (n : nat) : text := repeat sp n.

(** ** Numbers as text *)
Definition digit (d : Z) : ascii := ascii_of_nat (48 + Z.to_nat d).
Fixpoint dec_aux (fuel : nat) (n : Z) (acc : text) : text :=
  match fuel with
  | O => acc
  | S f => if (n <? 10)%Z then digit n :: acc else dec_aux f (n / 10)%Z (digit (n mod 10)%Z :: acc)
  end.
(** the decimal digits of a natural number *)
Definition dec (n : Z) : text := dec_aux (S (Z.to_nat (Z.log2 n))) n [].
Definition minus (b : bool) : text := if b then ["-"%char] else [].
Definition rjust (w : nat) (s : text) : text := spaces (w - length s) ++ s.
Definition ljust (w : nat) (s : text) : text := s ++ spaces (w - length s).
Definition zfill (w : nat) (s : text) : text := repeat "0"%char (w - length s) ++ s.
(** '%i' *)
Definition int_text (n : Z) : text := minus (n <? 0)%Z ++ dec (Z.abs n).
(** '%.df' *)
Definition Qc_abs (x : Qc) : Qc := if Qc_ltb x 0%Qc then (- x)%Qc else x.
Definition fix_digits (d : nat) (x : Qc) : Z := qround_even (Qc_abs x * qz (10 ^ Z.of_nat d))%Qc.
Definition fixed_text (d : nat) (x : Qc) : text :=
  let r := fix_digits d x in
  minus (Qc_ltb x 0%Qc) ++
  match d with
  | O => dec r
  | _ => dec (r / 10 ^ Z.of_nat d)%Z ++ "."%char :: zfill d (dec (r mod 10 ^ Z.of_nat d)%Z)
  end.
(** '%wi', '%w.df', '%-ws' *)
Definition fmt_i (w : nat) (n : Z) : text := rjust w (int_text n).
Definition fmt_f (w d : nat) (x : Qc) : text := rjust w (fixed_text d x).

(** ** Text as numbers *)
Fixpoint lstrip (s : text) : text := match s with c :: r => if isspace c then lstrip r else s | [] => [] end.
Definition strip (s : text) : text := rev (lstrip (rev (lstrip s))).
Definition undigit (c : ascii) : option Z :=
  let n := nat_of_ascii c in if (48 <=? n) && (n <=? 57) then Some (Z.of_nat n - 48)%Z else None.
(** the leading digits: their value, their number and what follows *)
Fixpoint read_digits (s : text) (v : Z) (k : nat) : Z * nat * text :=
  match s with
  | c :: r => match undigit c with Some d => read_digits r (10 * v + d)%Z (S k) | None => (v, k, s) end
  | [] => (v, k, [])
  end.
Definition read_sign (s : text) : bool * text :=
  match s with
  | c :: r => if Ascii.eqb c "-" then (true, r) else if Ascii.eqb c "+" then (false, r) else (false, s)
  | [] => (false, [])
  end.
(** int(s) *)
Definition parse_int (s : text) : option Z :=
  let '(neg, r) := read_sign (strip s) in
  match read_digits r 0%Z 0 with
  | (v, S _, []) => Some (if neg then (- v)%Z else v)
  | _ => None
  end.
(** float(s) *)
Definition parse_float (s : text) : option Qc :=
  let '(neg, r) := read_sign (strip s) in
  let sgn x := if neg : bool then (- x)%Qc else x in
  match read_digits r 0%Z 0 with
  | (v, S _, []) => Some (sgn (qz v))
  | (v, k, c :: r') => if Ascii.eqb c "." then
        match read_digits r' v 0 with
        | (w, j, []) => match (k + j)%nat with O => None | _ => Some (sgn (qz w / qz (10 ^ Z.of_nat j))%Qc) end
        | _ => None
        end
      else None
  | _ => None
  end.

(** ** Splitting *)
(** s.split() *)
Definition flush (cur : text) : list text := match cur with [] => [] | _ => [cur] end.
Fixpoint words_aux (cur : text) (s : text) : list text :=
  match s with
  | [] => flush cur
  | c :: r => if isspace c then flush cur ++ words_aux [] r else words_aux (cur ++ [c]) r
  end.
Definition words (s : text) : list text := words_aux [] s.
(** universal newlines: what open(name, "r") delivers *)
Fixpoint universal (s : text) : text :=
  match s with
  | [] => []
  | c :: r => if Ascii.eqb c cr then match r with
                | d :: r' => if Ascii.eqb d lf then lf :: universal r' else lf :: universal r
                | [] => [lf]
                end
              else c :: universal r
  end.
(** readlines: every line with its newline *)
Fixpoint readlines_aux (cur : text) (s : text) : list text :=
  match s with
  | [] => flush cur
  | c :: r => if Ascii.eqb c lf then (cur ++ [c]) :: readlines_aux [] r else readlines_aux (cur ++ [c]) r
  end.
Definition readlines (s : text) : list text := readlines_aux [] (universal s).
(** s[i : i + w] *)
Definition sub (i w : nat) (s : text) : text := firstn w (skipn i s).
