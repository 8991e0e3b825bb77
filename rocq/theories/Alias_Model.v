(* The correlation generators as programs on memory.
   /repo/skbeam/core/correlation.py 202-256, 259-410 (lazy_one_time), 502-656 (lazy_two_time), 659-676
   (two_time_state_to_results), 757-817 (_init_state_two_time).
   The internal state is a namedtuple of references to arrays; the generators write into these arrays, and the results
   they yield hold references.  The arithmetic of one image is [step] of MultiTau_Model and [step2] of TwoTime_Model.
   Simplifications: the writes of one image are done at its end, array by array; a generator's arrays are created when
   it is called, not at its first image; a resuming call repeats the parameters of the call that made the state; an
   exception ends the program. *)
From Verif Require Import Common MultiTau_Model TwoTime_Model.

(** ** Memory: numbered arrays *)
Inductive arr :=
  | ABuf (x : list (list vec)) | AAcc (x : list (list Qc)) | ANat (x : list nat) | ABool (x : list bool)
  | AInt (x : list Z) | AInts (x : list (list Z)) | AG2 (x : list (list pix)) | AMat (x : mat).
Definition heap := list arr.
Fixpoint read_all (h : heap) (ks : list nat) : option (list arr) :=
  match ks with [] => Some [] | k :: r => a <- nth_error h k ;; l <- read_all h r ;; Some (a :: l) end.
Fixpoint write_all (h : heap) (ks : list nat) (vs : list arr) : option heap :=
  match ks, vs with
  | [], [] => Some h
  | k :: ks', v :: vs' => h' <- upd h k v ;; write_all h' ks' vs'
  | _, _ => None
  end.

(** ** lazy_one_time.  _internal_state, 162-177: the arrays that are written, ... *)
Definition pack1 (s : state) : list arr :=
  [ABuf (buf s); AAcc (G s); AAcc (past s); AAcc (fut s); ANat (ipl s); ABool (track s); AInt (cur s); AInts (norm s)].
Definition unpack1 (l : list arr) : option state :=
  match l with
  | [ABuf b; AAcc g; AAcc p; AAcc f; ANat i; ABool t; AInt c; AInts n] =>
      Some {| buf := b; G := g; past := p; fut := f; ipl := i; track := t; cur := c; norm := n |}
  | _ => None
  end.
(** ... and lag_steps.  A generator: its parameters and the state it works on. *)
Record handle := { written : list nat; lag_loc : nat }.
Record gen := { par : cfg; at_ : handle }.
(** results(g2, s.lag_steps[:g_max], s), 410: a new array, a view, a reference *)
Record result := { g2_loc : nat; lag_view : nat * nat; owner : gen }.
Record machine := { mem : heap; gens : list gen; outs : list result }.

(** What a program does: lazy_one_time without a state; the next image to the k-th generator made; lazy_one_time with
    the internal_state of the r-th result yielded (324-325) *)
Inductive cmd := Start (nb L : nat) (labels : list Z) | Feed (k : nat) (im : list pix) | Resume (r : nat).

Definition exec (m : machine) (x : cmd) : option machine :=
  match x with
  | Start nb L labels =>
      c <- init_cfg nb L labels ;;
      let n := length (mem m) in
      let ws := pack1 (init_state c) in
      Some {| mem := mem m ++ ws ++ [ANat (lag_steps c)];
              gens := gens m ++ [{| par := c; at_ := {| written := seq n (length ws); lag_loc := n + length ws |} |}];
              outs := outs m |}
  | Resume r => o <- nth_error (outs m) r ;; Some {| mem := mem m; gens := gens m ++ [owner o]; outs := outs m |}
  | Feed k im =>
      g <- nth_error (gens m) k ;;
      l <- read_all (mem m) (written (at_ g)) ;;
      s <- unpack1 l ;;
      v <- gather im (pixel_list (par g)) ;;
      s' <- step (par g) s v ;;                                                                  (* 332-399 *)
      h <- write_all (mem m) (written (at_ g)) (pack1 s') ;;
      Some {| mem := h ++ [AG2 (fst (outputs (par g) s'))];                                      (* 409 *)
              gens := gens m;
              outs := outs m ++ [{| g2_loc := length h; lag_view := (lag_loc (at_ g), first_zero_row (past s')); owner := g |}] |}
  end.
Definition boot : machine := {| mem := []; gens := []; outs := [] |}.
Definition run (p : list cmd) : option machine := foldM exec p boot.

(** A result looked at in some later memory *)
Definition show (h : heap) (o : result) : option (list (list pix) * list nat) :=
  match nth_error h (g2_loc o), nth_error h (fst (lag_view o)) with
  | Some (AG2 g), Some (ANat l) => Some (g, firstn (snd (lag_view o)) l)
  | _, _ => None
  end.

(** ** lazy_two_time.  _two_time_internal_state, 182-199: current_img_time is a number in the tuple (583), the rest are
    arrays and lists *)
Definition pack2 (s : state2) : list arr :=
  [ABuf (buf (base s)); ANat (ipl (base s)); ABool (track (base s)); AInt (cur (base s)); ANat (count_level s); AInts (time_ind s); AMat (g2 s)].
Definition unpack2 (t : Z) (l : list arr) : option state2 :=
  match l with
  | [ABuf b; ANat i; ABool tr; AInt cu; ANat n; AInts ti; AMat g] =>
      Some {| base := {| buf := b; G := []; past := []; fut := []; ipl := i; track := tr; cur := cu; norm := [] |};
              g2 := g; count_level := n; img_time := t; time_ind := ti |}
  | _ => None
  end.
Record tuple2 := { time2 : Z; at2 : list nat; par2 : cfg; frames2 : nat }.
(** [gens2]: the tuple each generator works on; [outs2]: the tuples yielded *)
Record machine2 := { mem2 : heap; gens2 : list tuple2; outs2 : list tuple2 }.
Inductive cmd2 := Start2 (nb L nf : nat) (labels : list Z) | Feed2 (k : nat) (im : list pix) | Resume2 (r : nat)
  | Convert2 (r : nat).  (* two_time_state_to_results of the r-th tuple yielded *)
Definition exec2 (m : machine2) (x : cmd2) : option machine2 :=
  match x with
  | Start2 nb L nf labels =>
      c <- init_cfg nb L labels ;;
      let ws := pack2 (init_state2 c nf) in
      Some {| mem2 := mem2 m ++ ws;
              gens2 := gens2 m ++ [{| time2 := 0; at2 := seq (length (mem2 m)) (length ws); par2 := c; frames2 := nf |}]; outs2 := outs2 m |}
  | Resume2 r => t <- nth_error (outs2 m) r ;; Some {| mem2 := mem2 m; gens2 := gens2 m ++ [t]; outs2 := outs2 m |}
  | Feed2 k im =>
      g <- nth_error (gens2 m) k ;;
      l <- read_all (mem2 m) (at2 g) ;;
      s <- unpack2 (time2 g) l ;;
      v <- gather im (pixel_list (par2 g)) ;;
      s' <- step2 (par2 g) s v ;;                                                                (* 579-655 *)
      h <- write_all (mem2 m) (at2 g) (pack2 s') ;;
      let t := {| time2 := img_time s'; at2 := at2 g; par2 := par2 g; frames2 := frames2 g |} in (* 583: s._replace *)
      gs <- upd (gens2 m) k t ;;
      Some {| mem2 := h; gens2 := gs; outs2 := outs2 m ++ [t] |}                                 (* 656 *)
  | Convert2 r =>
      t <- nth_error (outs2 m) r ;;
      l <- read_all (mem2 m) (at2 t) ;;
      s <- unpack2 (time2 t) l ;;
      match label_array (par2 t) with
      | [] => None
      | _ => h <- write_all (mem2 m) (at2 t) (pack2 (set_g2 s (symmetrise (max_label (label_array (par2 t))) (frames2 t) (g2 s)))) ;; (* 673-675 *)
             Some {| mem2 := h; gens2 := gens2 m; outs2 := outs2 m |}
      end
  end.
Definition boot2 : machine2 := {| mem2 := []; gens2 := []; outs2 := [] |}.
Definition run2 (p : list cmd2) : option machine2 := foldM exec2 p boot2.
(** The array g2 of a tuple looked at in some later memory *)
Definition show2 (h : heap) (t : tuple2) : option mat :=
  l <- read_all h (at2 t) ;; s <- unpack2 (time2 t) l ;; Some (g2 s).
