(* src/ctrans.c:412,439-459: the clearing loop inside the OpenMP parallel region.
   The loop counter j is declared outside the region (line 412) and is in no
   private clause, so all threads share it; every thread runs
       for(j=0; j<grid_size; j++){ _dout[j]=0; _d2out[j]=0; _nout[j]=0; }
   on its own malloc'ed arrays.  Interleaving semantics, one memory access per step
   (j++ is a load and a store); compiler reordering is not modelled. *)
From Verif Require Import Common Grid_Model.

Inductive pc := PInit | PTest | PW1 | PW2 | PW3 | PLoad | PStore (r : nat) | PDone.
Record thread := mkT { t_pc : pc; t_acc : acc }.

(** One step of one thread: new shared counter and thread; None = write past the
    end of the thread's array. *)
Definition tstep (size j : nat) (t : thread) : option (nat * thread) :=
  let a := t_acc t in
  match t_pc t with
  | PInit => Some (0, mkT PTest a)
  | PTest => Some (j, mkT (if j <? size then PW1 else PDone) a)
  | PW1 => d <- upd (a_d a) j 0%Qc ;; Some (j, mkT PW2 (mkAcc d (a_d2 a) (a_n a)))
  | PW2 => d <- upd (a_d2 a) j 0%Qc ;; Some (j, mkT PW3 (mkAcc (a_d a) d (a_n a)))
  | PW3 => d <- upd (a_n a) j 0%Qc ;; Some (j, mkT PLoad (mkAcc (a_d a) (a_d2 a) d))
  | PLoad => Some (j, mkT (PStore j) a)
  | PStore r => Some (S r, mkT PTest a)
  | PDone => Some (j, t)
  end.

(** A schedule names the thread that moves next. *)
Definition sstep (size : nat) (s : nat * list thread) (k : nat) : option (nat * list thread) :=
  let '(j, ts) := s in
  t <- nth_error ts k ;;
  r <- tstep size j t ;;
  ts' <- upd ts k (snd r) ;;
  Some (fst r, ts').
Definition run_schedule (size : nat) (sched : list nat) (s : nat * list thread) : option (nat * list thread) :=
  foldM (sstep size) sched s.

(** All threads about to enter the loop, with whatever malloc returned. *)
Definition entering (garbage : list acc) : list thread := map (mkT PInit) garbage.
