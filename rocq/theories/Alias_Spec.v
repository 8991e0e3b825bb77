(* Specification for C113: which images a result speaks about.  A call without a state begins a new series; a call with
   the state of a result continues the series of that result.  [note] follows a program (the commands of Alias_Model) and
   fails on programs that are not well formed: unknown generators or results, odd or missing buffers, images of the
   wrong size. *)
From Verif Require Import Common MultiTau_Spec Alias_Model.

Record setup := { bufs : nat; levels : nat; labels_of : list Z }.
Notation image := (list (option Qc)).
Definition good_setup (u : setup) : bool := (bufs u mod 2 =? 0) && (2 <=? bufs u) && (1 <=? levels u).
(** a series: its parameters and the images shown to it so far *)
Definition series := (setup * list image)%type.
Definition shown (x : series) (im : image) : option series :=
  if length im =? length (labels_of (fst x)) then Some (fst x, snd x ++ [im]) else None.

(** per generator its series; the series; per result its series and what had been shown to it when it was yielded *)
Record book := { series_of : list nat; all : list series; due : list (nat * series) }.
Definition note (b : book) (x : cmd) : option book :=
  match x with
  | Start nb L labels =>
      let u := {| bufs := nb; levels := L; labels_of := labels |} in
      if good_setup u then Some {| series_of := series_of b ++ [length (all b)]; all := all b ++ [(u, [])]; due := due b |} else None
  | Resume r => d <- nth_error (due b) r ;; Some {| series_of := series_of b ++ [fst d]; all := all b; due := due b |}
  | Feed k im =>
      i <- nth_error (series_of b) k ;; old <- nth_error (all b) i ;; new <- shown old im ;; all' <- upd (all b) i new ;;
      Some {| series_of := series_of b; all := all'; due := due b ++ [(i, new)] |}
  end.
Definition history (p : list cmd) : option book := foldM note p {| series_of := []; all := []; due := [] |}.

(** Two-time: also the number of frames the matrix has room for; a generator or result counts as current while it has
    been told of every image of its series.  Only current ones may go on. *)
Record setup2 := { one : setup; room : nat }.
Definition series2 := (setup2 * list image)%type.

Definition shown2 (x : series2) (im : image) : option series2 :=
  if (length im =? length (labels_of (one (fst x)))) && (length (snd x) <? room (fst x)) then Some (fst x, snd x ++ [im]) else None.
Record book2 := { gen_of : list (nat * nat); all2 : list series2; res_of : list (nat * nat) }.   (* series, images told *)
Definition note2 (b : book2) (x : cmd2) : option book2 :=
  match x with
  | Start2 nb L nf labels =>
      let u := {| one := {| bufs := nb; levels := L; labels_of := labels |}; room := nf |} in
      if good_setup (one u) && (1 <=? n_rois labels) then
        Some {| gen_of := gen_of b ++ [(length (all2 b), 0)]; all2 := all2 b ++ [(u, [])]; res_of := res_of b |} else None
  | Resume2 r => d <- nth_error (res_of b) r ;; Some {| gen_of := gen_of b ++ [d]; all2 := all2 b; res_of := res_of b |}
  | Feed2 k im =>
      g <- nth_error (gen_of b) k ;; old <- nth_error (all2 b) (fst g) ;;
      if snd g =? length (snd old) then
        new <- shown2 old im ;; all' <- upd (all2 b) (fst g) new ;; gs <- upd (gen_of b) k (fst g, S (snd g)) ;;
        Some {| gen_of := gs; all2 := all'; res_of := res_of b ++ [(fst g, S (snd g))] |}
      else None
  | Convert2 r => _ <- nth_error (res_of b) r ;; Some b
  end.
Definition history2 (p : list cmd2) : option book2 := foldM note2 p {| gen_of := []; all2 := []; res_of := [] |}.
