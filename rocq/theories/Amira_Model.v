(* Model of /repo/skbeam/io/avizo_io.py (AmiraMesh files) and /repo/skbeam/io/fit2d.py (Fit2D masks).
   int(...) and float(...) are arguments; numbers are exact rationals.  None is an exception.
   A file is its list of lines, each ended by a newline; bytes that do not decode as text are not represented.
   fabio's mask files are library code: one bit per pixel, set where the data is not zero. *)
From Coq Require Import Strings.String.
From Verif Require Import Common.
Local Open Scope list_scope.
Notation length := List.length.

(** ** fit2d_save 9-22, read_fit2d_msk 25-39: boolean or integer masks; ~ inverts bits *)
Inductive pixel := PBool (b : bool) | PInt (n : Z).
Definition invert (p : pixel) : pixel := match p with PBool b => PBool (negb b) | PInt n => PInt (- n - 1) end.
Definition nonzero (p : pixel) : bool := match p with PBool b => b | PInt n => negb (n =? 0)%Z end.
Definition fit2d_save (mask : list (list pixel)) : list (list bool) := map (map (fun p => nonzero (invert p))) mask.
Definition read_fit2d_msk (file : list (list bool)) : list (list bool) := map (map negb) file.

(** ** _read_amira 9-38: lines up to the marker; at the end of the file readline() returns the empty string for ever *)
Inductive reading := Reading (header : list string) | Header (header : list string) (data : list string).
Definition marker : string := "# Data section follows"%string.
Fixpoint read_amira (fuel : nat) (file header : list string) : reading :=
  match fuel with
  | O => Reading header
  | S f => match file with
           | [] => read_amira f [] (header ++ [""%string])
           | l :: r => if String.eqb l marker then Header (header ++ [l]) (tl r) else read_amira f r (header ++ [l])
           end
  end.
(** _clean_amira_header 112-136 on python 3: str.translate takes one argument, so the first word met raises TypeError *)
Fixpoint split_at (s cur : string) : list string :=
  let out := match cur with EmptyString => [] | _ => [cur] end in
  match s with
  | EmptyString => out
  | String c r => let n := Ascii.nat_of_ascii c in
                  if ((28 <=? n) && (n <=? 32)) || ((9 <=? n) && (n <=? 13)) then out ++ split_at r EmptyString else split_at r (cur ++ String c EmptyString)
  end.
Definition split (row : string) : list string := split_at row EmptyString.
Definition clean_amira_header (header : list string) : option (list (list string)) :=
  if forallb (fun row => match split row with [] => true | _ => false end) header then Some (map (fun _ => []) header) else None.
Inductive outcome := Running | Raised | Returned.
(** load_amiramesh 235-257; [finish]: whatever follows the cleaning of the header *)
Definition load_amiramesh (finish : list (list string) -> list string -> outcome) (fuel : nat) (file : list string) : outcome :=
  match read_amira fuel file [] with
  | Reading _ => Running
  | Header h d => match clean_amira_header h with None => Raised | Some c => finish c d end
  end.

(** ** _create_md_dict 139-232 *)
Inductive resolution := Isotropic (x : Qc) | Anisotropic (z y x : Qc).
Record md := { software : string; data_format : string; format_version : string;
               dims : option (Z * Z * Z); data_type : option string; coord_type : option string;
               bbox : option (list Qc); res : option resolution; units : option string; coordinates : option string }.
Fixpoint index_of (w : string) (l : list string) : option nat :=
  match l with [] => None | a :: r => if String.eqb a w then Some 0 else option_map S (index_of w r) end.
Definition has (w : string) (l : list string) : bool := existsb (String.eqb w) l.
(** hl[hl.index(w) + k] *)
Definition after (w : string) (k : nat) (hl : list string) : option string := i <- index_of w hl ;; nth_error hl (i + k).
(** 199-205 *)
Definition axis_res (lo hi : Qc) (n : Z) : Qc := if (1 <? n)%Z then ((hi - lo) / qz (n - 1))%Qc else 0%Qc.
(** 206-218: division by a zero resolution raises ZeroDivisionError *)
Definition close (r r0 : Qc) : bool := Qc_ltb (Q2Qc (99 # 100)) (r / r0)%Qc && Qc_ltb (r / r0)%Qc (Q2Qc (101 # 100)).
Definition resolve (rx ry rz : Qc) : option resolution :=
  if Qc_eqb rx 0%Qc then None else if close ry rx && close rz rx then Some (Isotropic rx) else Some (Anisotropic rz ry rx).
Section Md.
Variables (to_int : string -> option Z) (to_float : string -> option Qc).
Definition header_line (m : md) (hl : list string) : option md :=
  if has "define" hl then
    a <- after "define" 2 hl ;; b <- after "define" 3 hl ;; c <- after "define" 4 hl ;;
    x <- to_int a ;; y <- to_int b ;; z <- to_int c ;;
    Some {| software := software m; data_format := data_format m; format_version := format_version m; dims := Some (x, y, z);
            data_type := data_type m; coord_type := coord_type m; bbox := bbox m; res := res m; units := units m; coordinates := coordinates m |}
  else if has "Content" hl then
    t <- after "Content" 2 hl ;;
    Some {| software := software m; data_format := data_format m; format_version := format_version m; dims := dims m;
            data_type := Some t; coord_type := coord_type m; bbox := bbox m; res := res m; units := units m; coordinates := coordinates m |}
  else if has "CoordType" hl then
    t <- after "CoordType" 1 hl ;;
    Some {| software := software m; data_format := data_format m; format_version := format_version m; dims := dims m;
            data_type := data_type m; coord_type := Some t; bbox := bbox m; res := res m; units := units m; coordinates := coordinates m |}
  else if has "BoundingBox" hl then
    a <- after "BoundingBox" 1 hl ;; b <- after "BoundingBox" 2 hl ;; c <- after "BoundingBox" 3 hl ;;
    d <- after "BoundingBox" 4 hl ;; e <- after "BoundingBox" 5 hl ;; f <- after "BoundingBox" 6 hl ;;
    x0 <- to_float a ;; x1 <- to_float b ;; y0 <- to_float c ;; y1 <- to_float d ;; z0 <- to_float e ;; z1 <- to_float f ;;
    n <- dims m ;;
    r <- resolve (axis_res x0 x1 (fst (fst n))) (axis_res y0 y1 (snd (fst n))) (axis_res z0 z1 (snd n)) ;;
    Some {| software := software m; data_format := data_format m; format_version := format_version m; dims := dims m;
            data_type := data_type m; coord_type := coord_type m; bbox := Some [x0; x1; y0; y1; z0; z1]; res := Some r; units := units m; coordinates := coordinates m |}
  else if has "Units" hl then
    Some {| software := software m; data_format := data_format m; format_version := format_version m; dims := dims m;
            data_type := data_type m; coord_type := coord_type m; bbox := bbox m; res := res m;
            units := Some (match after "Units" 2 hl with Some u => u | None => "pixels"%string end); coordinates := coordinates m |}
  else if has "Coordinates" hl then
    t <- after "Coordinates" 1 hl ;;
    Some {| software := software m; data_format := data_format m; format_version := format_version m; dims := dims m;
            data_type := data_type m; coord_type := coord_type m; bbox := bbox m; res := res m; units := units m; coordinates := Some t |}
  else Some m.
Definition create_md_dict (clean_header : list (list string)) : option md :=
  first <- nth_error clean_header 0 ;; s <- nth_error first 1 ;; f <- nth_error first 2 ;; v <- nth_error first 3 ;;
  fv <- (if String.eqb f "3D" then v' <- nth_error first 4 ;; Some (v, v') else Some (f, v)) ;;
  foldM header_line clean_header
    {| software := s; data_format := fst fv; format_version := snd fv; dims := None; data_type := None; coord_type := None;
       bbox := None; res := None; units := None; coordinates := None |}.
End Md.
