(* What a powder pattern file must give back, said without the writer or the reader. *)
From Verif Require Import Common Text_Model Gsas_Model.
Open Scope list_scope.
Notation length := List.length.

(** [v] is [x] to [d] decimals *)
Definition near (d : nat) (v x : Qc) : Prop := (v - x <= 1 / qz (2 * 10 ^ Z.of_nat d))%Qc /\ (x - v <= 1 / qz (2 * 10 ^ Z.of_nat d))%Qc.
(** the decimal scale: the least power of ten bringing the largest intensity under a million *)
Definition decades (ys : list Qc) (k : nat) : Prop :=
  (forall y, In y ys -> (y <= qz (999999 * 10 ^ Z.of_nat k))%Qc) /\
  (forall j, (j < k)%nat -> exists y, In y ys /\ (qz (999999 * 10 ^ Z.of_nat j) < y)%Qc).
Definition ten (k : nat) : Qc := qz (10 ^ Z.of_nat k).
(** the equally spaced angles the header describes *)
Definition grid (tth : list Qc) (i : nat) : Qc := (hd 0 tth + (last tth 0 - hd 0 tth) / qz (Z.of_nat (length tth) - 1) * qn i)%Qc.
Definition on_grid (tth : list Qc) (i : nat) (t : Qc) : Prop :=
  (t - grid tth i <= (1 + qn i) / qz (2 * 10 ^ 7))%Qc /\ (grid tth i - t <= (1 + qn i) / qz (2 * 10 ^ 7))%Qc.
(** negative readings become 0 *)
Definition clipped (v p : Qc) : Prop := ((0 < p)%Qc -> v = p) /\ ((p <= 0)%Qc -> v = 0%Qc).
(** the third column: 1 / counts, or 1 / error^2 *)
Definition inverse (w p : Qc) : Prop := ((0 < p)%Qc -> w = (1 / p)%Qc) /\ ((p <= 0)%Qc -> w = 0%Qc).
Definition inverse_square (w p : Qc) : Prop := ((0 < p)%Qc -> w = (1 / (p * p))%Qc) /\ ((p <= 0)%Qc -> w = 0%Qc).
(** the last path component has a character other than a dot *)
Definition has_stem (name : text) : Prop := exists a c b, name = a ++ c :: b /\ c <> "."%char /\ c <> "/"%char /\ Forall (fun x => x = "."%char) b.
Definition one_line (s : text) : Prop := ~ In cr s /\ ~ In lf s.
(** the path of [name] in directory [d]: an absolute name stays as it is, otherwise the two with one slash between *)
Definition path_in (d n : text) : text :=
  if list_eq_dec ascii_dec (firstn 1 n) ["/"%char] then n else if list_eq_dec ascii_dec d [] then n else d ++ (if ascii_dec (last d " "%char) "/"%char then [] else ["/"%char]) ++ n.
Definition outfile (dir : option text) (name : text) : text := match dir with None => name | Some d => path_in d name end ++ txt ".gsas".
(** the last path component ends in .gsas after something else than dots *)
Definition gsas_named (p : text) : Prop := exists a c b, p = a ++ c :: b ++ txt ".gsas" /\ c <> "."%char /\ c <> "/"%char /\ ~ In "/"%char b.
(** gsas_writer succeeds and gsas_reader then returns [pts] *)
Definition writes (isdir : text -> bool) fs tth ys name mode err dir (pts : list point) : Prop :=
  exists fs', gsas_writer isdir fs tth ys name mode err dir = (fs', None) /\ gsas_reader fs' (outfile dir name) = inl pts.
(** lengths agree and the directory exists *)
Definition accepted (isdir : text -> bool) (tth ys : list Qc) (err : option (list Qc)) (dir : option text) : Prop :=
  length tth = length ys /\ (forall e, err = Some e -> length e = length ys) /\ (forall d, dir = Some d -> isdir d = true).
(** a mode the writer knows *)
Definition known_mode (mode : option string) (err : option (list Qc)) : Prop :=
  err = None \/ mode = Some "STD"%string \/ mode = Some "ESD"%string \/ mode = Some "FXYE"%string.
