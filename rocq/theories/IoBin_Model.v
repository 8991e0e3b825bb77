(* Model of /repo/skbeam/io/binary.py, read_binary.

   A file is a list of bytes.  The dtype is an item size and a decoding of that many bytes;
   [zero] is the value of an item of zero bytes. *)
From Verif Require Import Common.

Section Bin.
Context {B A : Type} (decode : list B -> A) (zero : A) (isize : nat).

(** opened_file.read(headersize), 77: a negative size reads everything *)
Definition read_header (file : list B) (hs : Z) : list B * list B :=
  if (hs <? 0)%Z then (file, []) else (firstn (Z.to_nat hs) file, skipn (Z.to_nat hs) file).
(** np.fromfile(count=-1), 80: an incomplete last item is dropped *)
Definition items (rest : list B) : list A :=
  map (fun m => decode (firstn isize (skipn (m * isize) rest))) (seq 0 (length rest / isize)).
(** ndarray.resize: cut or filled with zeros *)
Definition resized (n : nat) (l : list A) : list A := firstn n l ++ repeat zero (n - length l).
(** shape and elements in C order *)
Definition ndarray : Type := list nat * list A.
Definition resize (dims : list Z) (l : list A) : option ndarray :=
  if forallb (fun d => 0 <=? d)%Z dims then
    let s := map Z.to_nat dims in Some (s, resized (fold_left Nat.mul s 1) l)
  else None.
(** 43-91; None is numpy's ValueError for a negative dimension *)
Definition read_binary (file : list B) (nx ny nz hs : Z) : option (ndarray * list B) :=
  let '(header, rest) := read_header file hs in
  let data := items rest in
  a <- (if negb (nz =? 1)%Z then resize [nx; ny; nz] data
        else if negb (ny =? 1)%Z then resize [nx; ny] data
        else Some ([length data], data)) ;;
  Some (a, header).
End Bin.
