(* The one-time multi-tau correlator in binary64 arithmetic.
   /repo/skbeam/core/correlation.py 69-157, 202-256, 259-410, 413-429; the same code as MultiTau_Model.v, which treats it
   in exact arithmetic and whose configuration (labels, lags, no pixel values) is used here.
   Pixels are IEEE doubles with NaN and infinities; buf, G and the intensity norms are float64 arrays (np.zeros), so
   images of any type are converted to float64 on their way into buf (here: already converted; exact for integers up to
   2^53 and for float32).  np.bincount adds the weights of a label one after another in raster order, starting with 0.0;
   num_pixels and normalize are integers converted to float64.  Array reads and writes are checked as in MultiTau_Model.v. *)
From Flocq Require Import IEEE754.BinarySingleNaN.
From Verif Require Import Common F64 MultiTau_Model.

Definition pmul : f64 -> f64 -> f64 := fmul.
(** (a + b) / 2, 371-373 *)
Definition pavg (a b : f64) : f64 := fdiv (fadd a b) (f64_of_Z 2).
Definition vmap2 (f : f64 -> f64 -> f64) (u v : list f64) : list f64 := map (fun p => f (fst p) (snd p)) (combine u v).
(** np.isnan(v).any() *)
Definition has_nan (v : list f64) : bool := existsb is_nan v.
(** np.bincount(label_array, weights=w)[1:] *)
Definition bincount_w (labels : list nat) (w : list f64) : list f64 :=
  map (fun r => fold_left fadd (map snd (filter (fun p => fst p =? r) (combine labels w))) fzero) (seq 1 (max_label labels)).

Record state := {
  buf : list (list (list f64));         (* num_levels x num_bufs x pixels *)
  G : list (list f64);            (* tot_channels x num_rois *)
  past : list (list f64);
  fut : list (list f64);
  ipl : list nat;                (* img_per_level *)
  track : list bool;             (* track_level *)
  cur : list Z;
  norm : list (list Z)           (* norm[level+1] *)
}.

Definition set_buf s x := {| buf := x; G := G s; past := past s; fut := fut s;
  ipl := ipl s; track := track s; cur := cur s; norm := norm s |}.
Definition set_acc s g p f := {| buf := buf s; G := g; past := p; fut := f;
  ipl := ipl s; track := track s; cur := cur s; norm := norm s |}.
Definition set_ipl s x := {| buf := buf s; G := G s; past := past s; fut := fut s;
  ipl := x; track := track s; cur := cur s; norm := norm s |}.
Definition set_track s x := {| buf := buf s; G := G s; past := past s; fut := fut s;
  ipl := ipl s; track := x; cur := cur s; norm := norm s |}.
Definition set_cur s x := {| buf := buf s; G := G s; past := past s; fut := fut s;
  ipl := ipl s; track := track s; cur := x; norm := norm s |}.
Definition set_norm s x := {| buf := buf s; G := G s; past := past s; fut := fut s;
  ipl := ipl s; track := track s; cur := cur s; norm := x |}.

(** _init_state_one_time, 202-256: arrays of zeros *)
Definition init_state (c : cfg) : state :=
  let nb := num_bufs c in let L := num_levels c in
  let K := length (num_pixels c) in
  let z := repeat (repeat fzero K) ((L + 1) * nb / 2) in          (* 236-240 *)
  {| buf := repeat (repeat (repeat (fzero) (length (pixel_list c))) nb) L;
     G := z; past := z; fut := z;
     ipl := repeat 0 L; track := repeat false L;
     cur := repeat 1%Z L;
     norm := map (fun n => repeat 0%Z n) (lev_len c) |}.         (* 881 *)

(* ------------------------------------------------------------------ *)
(** ** _one_time_process : correlation.py 69-157 *)

(** Line 156: arr[t_index] += (binned / num_pixels - arr[t_index]) / normalize,
    elementwise over ROIs. *)
Definition acc_row (row binned : list f64) (npix : list nat) (normalize : Z)
  : list f64 :=
  map (fun p => fadd (fst p) (fdiv (fsub (fdiv (fst (snd p)) (f64_of_Z (Z.of_nat (snd (snd p))))) (fst p)) (f64_of_Z normalize)))
      (combine row (combine binned npix)).

Definition acc_at (c : cfg) (arr : list (list f64)) (t : nat) (w : list f64) (nz : Z)
  : option (list (list f64)) :=
  row <- nth_error arr t ;;
  upd arr t (acc_row row (bincount_w (label_array c) w) (num_pixels c) nz).

Definition otp_body (c : cfg) (level : nat) (buf_no : Z) (nimg : nat)
           (s : state) (i : nat) : option state :=
  let nb := num_bufs c in
  let t_index := level * nb / 2 + i in                                  (* 134 *)
  let delay_no := ((buf_no - Z.of_nat i) mod Z.of_nat nb)%Z in          (* 135 *)
  row <- nth_error (buf s) level ;;
  di <- pyindex (Z.of_nat (length row)) delay_no ;;
  past_img <- nth_error row di ;;                                       (* 138 *)
  fi <- pyindex (Z.of_nat (length row)) buf_no ;;
  future_img <- nth_error row fi ;;                                     (* 139 *)
  let ind := (Z.of_nat t_index
              - Z.of_nat (list_sum (firstn level (lev_len c))))%Z in    (* 143 *)
  nrow <- nth_error (norm s) level ;;
  ni <- pyindex (Z.of_nat (length nrow)) ind ;;
  nv <- nth_error nrow ni ;;
  let normalize := (Z.of_nat nimg - Z.of_nat i - nv)%Z in               (* 144 *)
  if has_nan past_img || has_nan future_img then                        (* 148 *)
    nrow' <- upd nrow ni (nv + 1)%Z ;;                                  (* 149 *)
    norm' <- upd (norm s) level nrow' ;;
    Some (set_norm s norm')
  else if (normalize =? 0)%Z then None     (* shown unreachable *)
  else                                                                  (* 151-156 *)
    g <- acc_at c (G s) t_index (vmap2 pmul past_img future_img) normalize ;;
    p <- acc_at c (past s) t_index past_img normalize ;;
    f <- acc_at c (fut s) t_index future_img normalize ;;
    Some (set_acc s g p f).

Definition one_time_process (c : cfg) (level : nat) (buf_no : Z) (s : state)
  : option state :=
  n0 <- nth_error (ipl s) level ;;
  let nimg := n0 + 1 in
  ipl' <- upd (ipl s) level nimg ;;                                     (* 128 *)
  let i_min := if level =? 0 then 0 else num_bufs c / 2 in              (* 131 *)
  foldM (otp_body c level buf_no nimg)
        (seq i_min (Nat.min nimg (num_bufs c) - i_min))                 (* 132 *)
        (set_ipl s ipl').

(* ------------------------------------------------------------------ *)
(** ** lazy_one_time : correlation.py 259-410 *)

Definition set_buf_at (s : state) (level : nat) (idx : Z) (v : list f64) : option state :=
  row <- nth_error (buf s) level ;;
  k <- pyindex (Z.of_nat (length row)) idx ;;
  row' <- upd row k v ;;
  b <- upd (buf s) level row' ;;
  Some (set_buf s b).

Definition get_buf_at (s : state) (level : nat) (idx : Z) : option (list f64) :=
  row <- nth_error (buf s) level ;;
  k <- pyindex (Z.of_nat (length row)) idx ;;
  nth_error row k.

(** The [while processing] loop, 360-399; [fuel] bounds the iterations and
    running out of it is an error (shown unreachable). *)
Fixpoint level_loop (fuel : nat) (c : cfg) (level : nat) (s : state)
  : option state :=
  match fuel with
  | 0 => None
  | S fuel' =>
    tr <- nth_error (track s) level ;;
    if negb tr then                                                     (* 364-366 *)
      t' <- upd (track s) level true ;; Some (set_track s t')
    else
      cp <- nth_error (cur s) (level - 1) ;;
      let prev := (1 + (cp - 2) mod Z.of_nat (num_bufs c))%Z in         (* 368 *)
      cl <- nth_error (cur s) level ;;
      let cl' := (1 + cl mod Z.of_nat (num_bufs c))%Z in                (* 369 *)
      cur' <- upd (cur s) level cl' ;;
      a <- get_buf_at s (level - 1) (prev - 1)%Z ;;
      b <- get_buf_at s (level - 1) (cp - 1)%Z ;;
      s1 <- set_buf_at (set_cur s cur') level (cl' - 1)%Z (vmap2 pavg a b) ;; (* 371-373 *)
      t' <- upd (track s1) level false ;;                               (* 376 *)
      s2 <- one_time_process c level (cl' - 1)%Z (set_track s1 t') ;;   (* 381-395 *)
      if S level <? num_levels c then level_loop fuel' c (S level) s2   (* 396-399 *)
      else Some s2
  end.

(** One iteration of the image loop on the ROI pixels of the image, 329-399. *)
Definition step (c : cfg) (s : state) (img : list f64) : option state :=
  c0 <- nth_error (cur s) 0 ;;
  let c0' := ((1 + c0) mod Z.of_nat (num_bufs c))%Z in                  (* 334 *)
  cur' <- upd (cur s) 0 c0' ;;
  s1 <- set_buf_at (set_cur s cur') 0 (c0' - 1)%Z img ;;                (* 337 *)
  s2 <- one_time_process c 0 (c0' - 1)%Z s1 ;;                          (* 343-356 *)
  if 1 <? num_levels c then level_loop (num_levels c) c 1 s2            (* 360 *)
  else Some s2.

(** Truncation and normalisation, 404-410. *)
Fixpoint first_zero_row (m : list (list f64)) : nat :=
  match m with
  | [] => 0
  | r :: m' => if existsb (Beqb fzero) r then 0 else S (first_zero_row m')
  end.
Definition g2_row (g p f : list f64) : list f64 :=
  map (fun x => fdiv (fst x) (fmul (fst (snd x)) (snd (snd x)))) (combine g (combine p f)).
Definition outputs (c : cfg) (s : state) : list (list f64) * list nat :=
  let gm := first_zero_row (past s) in
  (map (fun x => g2_row (fst x) (fst (snd x)) (snd (snd x)))
       (combine (firstn gm (G s)) (combine (firstn gm (past s)) (firstn gm (fut s)))),
   firstn gm (lag_steps c)).

(** np.ravel(image)[pixel_list], 337 *)
Fixpoint gather (img : list f64) (pl : list nat) : option (list f64) :=
  match pl with
  | [] => Some []
  | p :: pl' => x <- nth_error img p ;; r <- gather img pl' ;; Some (x :: r)
  end.

(** The generator: the list of everything yielded, and the last state. *)
Fixpoint lazy_one_time (c : cfg) (s : state) (images : list (list f64))
  : option (list (list (list f64) * list nat) * state) :=
  match images with
  | [] => Some ([], s)
  | im :: rest =>
    v <- gather im (pixel_list c) ;;
    s' <- step c s v ;;
    r <- lazy_one_time c s' rest ;;
    Some (outputs c s' :: fst r, snd r)
  end.

(** multi_tau_auto_corr, 413-429: the last yielded result (an empty image
    sequence raises UnboundLocalError). *)
Definition multi_tau_auto_corr (nb L : nat) (labels : list Z)
           (images : list (list f64)) : option (list (list f64) * list nat) :=
  c <- init_cfg nb L labels ;;
  r <- lazy_one_time c (init_state c) images ;;
  match rev (fst r) with [] => None | x :: _ => Some x end.
