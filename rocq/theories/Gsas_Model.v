(* Model of /repo/skbeam/io/save_powder_output.py (save_output, gsas_writer) and
   /repo/skbeam/io/gsas_file_reader.py (gsas_reader), character by character.

   Values are exact rationals (see Text_Model for formatting and parsing).  A file system
   is a list of files; [isdir] tells which paths exist as directories.  The decimal
   exponent floor(log10(999999 / max)) is exact here.  With a single point python divides
   by zero (nan for numpy values): the model stops with ZeroDiv.  The columns of
   save_output, printed by np.savetxt, are kept as numbers. *)
From Coq Require Import Qround.
From Verif Require Import Common Text_Model.
Open Scope list_scope.
Notation length := List.length.

Inductive gerr := ValueErr | IndexErr | IOErr | ZeroDiv.

(** ** gsas_writer, 137-242: the text *)
Fixpoint qmax (l : list Qc) : option Qc :=
  match l with [] => None | x :: r => match qmax r with None => Some x | Some m => Some (if Qc_ltb x m then m else x) end end.
(** -int(log_scale): the least k >= 0 with max <= 999999 * 10^k, 165-168 *)
Definition scale_exp (m : Qc) : nat :=
  match find (fun k => Qc_leb m (qz (999999 * 10 ^ Z.of_nat k))) (seq 0 (S (length (dec (Qceiling (this m)))))) with Some k => k | None => O end.
Definition scale_of (k : nat) : Qc := (1 / qz (10 ^ Z.of_nat k))%Qc.
(** "%g" % scale *)
Definition scale_text (k : nat) : text :=
  match k with
  | O => txt "1"
  | _ => if (k <? 5)%nat then txt "0." ++ repeat "0"%char (k - 1) ++ txt "1" else txt "1e-" ++ zfill 2 (dec (Z.of_nat k))
  end.
(** 171-176 *)
Definition title (name : text) (k : nat) : text := ljust 80 (firstn 80 (txt "Angular Profile" ++ txt ": " ++ name ++ txt " scale=" ++ scale_text k)).
(** 189-197, 204-212, 219-227 *)
Definition bank (n nrec : nat) (tth0 dtth : Qc) (mode : string) : text :=
  txt "BANK " ++ fmt_i 5 1 ++ sp :: fmt_i 8 (Z.of_nat n) ++ sp :: fmt_i 8 (Z.of_nat nrec) ++ txt " CONST " ++ fmt_f 9 5 tth0 ++ sp :: fmt_f 9 5 dtth ++
  sp :: fmt_f 9 5 0%Qc ++ sp :: fmt_f 9 5 0%Qc ++ sp :: txt mode.
(** for i in range(0, len(recs), w): "".join(recs[i : i + w]) *)
Fixpoint chunks (fuel w : nat) (recs : list text) : list text :=
  match fuel with
  | O => []
  | S f => match recs with [] => [] | _ => List.concat (firstn w recs) :: chunks f w (skipn w recs) end
  end.
(** lines[-1] = "%-80s" % lines[-1], 238 *)
Fixpoint pad_last (lines : list text) : list text :=
  match lines with [] => [] | [x] => [ljust 80 x] | x :: r => x :: pad_last r end.
Definition std_rec (s : Qc) (y : Qc) : text := fmt_i 2 1 ++ fmt_f 6 0 (y * s)%Qc.
Definition esd_rec (s : Qc) (p : Qc * Qc) : text := fmt_f 8 0 (fst p) ++ fmt_f 8 0 (snd p * s)%Qc.
Definition fxye_rec (s : Qc) (p : Qc * Qc * Qc) : text :=
  fmt_f 22 10 (fst (fst p) * s)%Qc ++ fmt_f 22 10 (snd (fst p) * s)%Qc ++ fmt_f 24 10 (snd p * s)%Qc.
Definition step_of (tth : list Qc) : Qc := ((last tth 0 - hd 0 tth) / qz (Z.of_nat (length tth) - 1))%Qc.
Definition gsas_text (tth intensity : list Qc) (name : text) (mode : option string) (err : option (list Qc)) : text + gerr :=
  match qmax intensity with
  | None => inr ValueErr
  | Some m =>
    if Qc_ltb m 0%Qc then inr ValueErr
    else
      let k := scale_exp m in
      let s := scale_of k in
      let n := length intensity in
      if (length tth =? 1)%nat then inr ZeroDiv
      else
        let tth0 := (hd 0 tth * qz 100)%Qc in
        let dtth := (step_of tth * qz 100)%Qc in
        let mode := match err with None => Some "STD"%string | Some _ => mode end in
        let file (nrec : nat) (md : string) (lines : list text) :=
          inl (flat_map (fun l => l ++ [cr; lf]) (pad_last (title name k :: ljust 80 (bank n nrec tth0 dtth md) :: lines))) in
        match mode, err with
        | Some md, Some e =>
            if String.eqb md "STD" then file ((n + 9) / 10)%nat "STD"%string (chunks n 10 (map (std_rec s) intensity))
            else if String.eqb md "ESD" then file ((n + 4) / 5)%nat "ESD"%string (chunks n 5 (map (esd_rec s) (combine intensity e)))
            else if String.eqb md "FXYE" then file n "FXYE"%string (map (fun p => ljust 80 (fxye_rec s p)) (combine (combine tth intensity) e))
            else inr ValueErr
        | Some _, None => file ((n + 9) / 10)%nat "STD"%string (chunks n 10 (map (std_rec s) intensity))
        | None, _ => inr ValueErr
        end
  end.

(** ** gsas_reader.py, 54-283 *)
Definition point : Type := Qc * Qc * Qc.
(** _sfloat, 248-264 and _sint, 267-283 *)
Definition sfloat (s : text) : option Qc := match strip s with [] => Some 0%Qc | _ => parse_float s end.
Definition sint (s : text) : option Z := match strip s with [] => Some 0%Z | _ => parse_int s end.
Definition qpos (x : Qc) : Qc := if Qc_ltb 0%Qc x then x else 0%Qc.
(** the fields of width w of one line *)
Definition fields (w n : nat) (line : text) : list text := map (fun i => sub (i * w) w line) (seq 0 n).
(** _get_std_data, 206-240: one step of the inner loop per field *)
Fixpoint std_points (start step nch : Qc) (j : nat) (fs : list text) : option (list point) :=
  match fs with
  | [] => Some []
  | f :: r =>
      ni <- sint (sub 0 2 f) ;; y <- sfloat (sub 2 6 f) ;;
      let ni := Z.max ni 1 in
      let yi := qpos y in
      let vi := (yi / qz ni)%Qc in
      rest <- std_points start step nch (S j) r ;;
      Some (if Qc_ltb (qn j) nch then ((start + step * qn j)%Qc, (if Qc_leb vi 0%Qc then 0%Qc else yi), (if Qc_leb vi 0%Qc then 0%Qc else 1 / vi)%Qc) :: rest else rest)
  end.
(** _get_esd_data, 155-184 *)
Definition weight (e : Qc) : Qc := if Qc_ltb 0%Qc e then (1 / (e * e))%Qc else 0%Qc.
Fixpoint esd_points (start step : Qc) (j : nat) (fs : list text) : option (list point) :=
  match fs with
  | [] => Some []
  | f :: r =>
      y <- sfloat (sub 0 8 f) ;; e <- sfloat (sub 8 8 f) ;;
      rest <- esd_points start step (S j) r ;;
      Some (((start + step * qn j)%Qc, qpos y, weight e) :: rest)
  end.
(** _get_fxye_data, 110-133 *)
Fixpoint fxye_points (lines : list text) : list point + gerr :=
  match lines with
  | [] => inl []
  | l :: r =>
      let vals := words l in
      let val i := match nth_error vals i with None => inr IndexErr | Some v => match parse_float v with Some x => inl x | None => inr ValueErr end end in
      match val 0%nat with
      | inr e => inr e
      | inl x => match val 1%nat with
        | inr e => inr e
        | inl y => match val 2%nat with
          | inr e => inr e
          | inl s => match fxye_points r with inl rest => inl ((x, qpos y, weight s) :: rest) | inr e => inr e end
          end
        end
      end
  end.
Definition opt {A} (o : option A) : A + gerr := match o with Some a => inl a | None => inr ValueErr end.
Definition gsas_read (content : text) : list point + gerr :=
  match readlines content with
  | _ :: b :: lines =>
      match nth_error (words b) 9 with
      | None => inr IndexErr
      | Some md =>
          let num i := match nth_error (words b) i with Some t => parse_float t | None => None end in
          if list_eq_dec ascii_dec md (txt "STD") then
            opt (start <- num 5 ;; step <- num 6 ;; nch <- num 2 ;;
                 std_points (start / qz 100)%Qc (step / qz 100)%Qc nch 0 (flat_map (fields 8 10) lines))
          else if list_eq_dec ascii_dec md (txt "ESD") then
            opt (start <- num 5 ;; step <- num 6 ;;
                 esd_points (start / qz 100)%Qc (step / qz 100)%Qc 0 (flat_map (fields 16 5) lines))
          else if list_eq_dec ascii_dec md (txt "FXYE") then fxye_points lines
          else inr ValueErr
      end
  | _ => inr IndexErr
  end.

(** ** Files *)
Inductive content := Text (t : text) | Columns (tth intensity : list Qc) (err : option (list Qc)).
Definition fsys := list (text * content).
Definition teqb (a b : text) : bool := if list_eq_dec ascii_dec a b then true else false.
Fixpoint fget (fs : fsys) (p : text) : option content :=
  match fs with [] => None | (q, c) :: r => if teqb p q then Some c else fget r p end.
(** os.remove *)
Definition fdel (fs : fsys) (p : text) : fsys := filter (fun f => negb (teqb p (fst f))) fs.
Definition fput (fs : fsys) (p : text) (c : content) : fsys := (p, c) :: fdel fs p.
(** os.path.join *)
Definition slash : ascii := "/"%char.
Definition join (d n : text) : text :=
  match n with
  | c :: _ => if Ascii.eqb c slash then n else match rev d with [] => n | x :: _ => if Ascii.eqb x slash then d ++ n else d ++ slash :: n end
  | [] => match rev d with [] => n | x :: _ => if Ascii.eqb x slash then d ++ n else d ++ slash :: n end
  end.
(** os.path.splitext(p)[1], on the reversed name *)
Fixpoint named (r : text) : bool :=
  match r with [] => false | c :: r' => if Ascii.eqb c slash then false else if Ascii.eqb c "." then named r' else true end.
Fixpoint ext_aux (r acc : text) : text :=
  match r with
  | [] => []
  | c :: r' => if Ascii.eqb c slash then [] else if Ascii.eqb c "." then if named r' then c :: acc else [] else ext_aux r' (c :: acc)
  end.
Definition extension (p : text) : text := ext_aux (rev p) [].
Section Fs.
Context (isdir : text -> bool).
(** _validate_input, 265-272 *)
Definition valid (tth intensity : list Qc) (err : option (list Qc)) (ext : text) : bool :=
  (length tth =? length intensity)%nat && match err with Some e => (length intensity =? length e)%nat | None => negb (teqb ext (txt ".xye")) end.
(** _create_file_path, 299-310 *)
Definition create_file_path (fs : fsys) (dir : option text) (name ext : text) : (fsys * text) + gerr :=
  match dir with
  | None => inl (fdel fs (name ++ ext), name ++ ext)
  | Some d => if isdir d then inl (fdel fs (join d name ++ ext), join d name ++ ext) else inr ValueErr
  end.
(** save_output, 52-119 *)
Definition save_output (fs : fsys) (tth intensity : list Qc) (name : text) (q_or_2theta : string) (ext : text) (err : option (list Qc)) (dir : option text) : fsys * option gerr :=
  if negb (String.eqb q_or_2theta "Q" || String.eqb q_or_2theta "2theta") then (fs, Some ValueErr)
  else if negb (valid tth intensity err ext) then (fs, Some ValueErr)
  else match create_file_path fs dir name ext with
       | inr e => (fs, Some e)
       | inl (fs', p) => (fput fs' p (Columns tth intensity err), None)
       end.
(** gsas_writer, 137-242 *)
Definition gsas_writer (fs : fsys) (tth intensity : list Qc) (name : text) (mode : option string) (err : option (list Qc)) (dir : option text) : fsys * option gerr :=
  if negb (valid tth intensity err (txt ".gsas")) then (fs, Some ValueErr)
  else match create_file_path fs dir name (txt ".gsas") with
       | inr e => (fs, Some e)
       | inl (fs', p) => match gsas_text tth intensity name mode err with
                         | inr e => (fs', Some e)
                         | inl t => (fput fs' p (Text t), None)
                         end
       end.
(** gsas_reader, 54-88 *)
Definition gsas_reader (fs : fsys) (p : text) : list point + gerr :=
  if negb (teqb (extension p) (txt ".gsas")) then inr IOErr
  else match fget fs p with
       | Some (Text t) => gsas_read t
       | _ => inr IOErr
       end.
End Fs.
