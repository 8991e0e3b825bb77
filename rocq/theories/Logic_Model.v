(* Model of /repo/skbeam/core/arithmetic.py: logical_nand, logical_nor, logical_sub with
   numpy's out argument.  The memory is a list of arrays, an array is a reference into it.
   Elements are integers, true when not 0; results are stored as 0 or 1.  Shapes must agree
   (broadcasting is not modelled); arrays overlap wholly or not at all. *)
From Verif Require Import Common.

Definition memory := list (list Z).
Definition truth (z : Z) : bool := negb (z =? 0)%Z.
Definition z_of (b : bool) : Z := if b then 1%Z else 0%Z.
(** store a result in out or in a fresh array *)
Definition store (m : memory) (r : list Z) (out : option nat) : option (memory * nat) :=
  match out with
  | None => Some (m ++ [r], length m)
  | Some o => old <- nth_error m o ;; if length old =? length r then m' <- upd m o r ;; Some (m', o) else None
  end.
(** numpy's logical_and, logical_or, logical_not *)
Definition ufunc2 (f : bool -> bool -> bool) (m : memory) (a b : nat) (out : option nat) : option (memory * nat) :=
  x <- nth_error m a ;; y <- nth_error m b ;;
  if length x =? length y then store m (map (fun p => z_of (f (truth (fst p)) (truth (snd p)))) (combine x y)) out else None.
Definition logical_and := ufunc2 andb.
Definition logical_or := ufunc2 orb.
Definition logical_not (m : memory) (a : nat) (out : option nat) : option (memory * nat) :=
  x <- nth_error m a ;; store m (map (fun v => z_of (negb (truth v))) x) out.
(** 58-93 *)
Definition logical_nand (m : memory) (x1 x2 : nat) (out : option nat) : option (memory * nat) :=
  r <- logical_and m x1 x2 out ;; logical_not (fst r) (snd r) out.
(** 96-129 *)
Definition logical_nor (m : memory) (x1 x2 : nat) (out : option nat) : option (memory * nat) :=
  r <- logical_or m x1 x2 out ;; logical_not (fst r) (snd r) out.
(** 132-167 *)
Definition logical_sub (m : memory) (x1 x2 : nat) (out : option nat) : option (memory * nat) :=
  r <- logical_and m x1 x2 out ;; n <- logical_not (fst r) (snd r) out ;; logical_and (fst n) x1 (snd n) out.
