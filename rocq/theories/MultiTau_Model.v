(* Model of the one-time multi-tau correlator.
   /repo/skbeam/core/utils.py 1109-1165 (multi_tau_lags)
   /repo/skbeam/core/roi.py 500-533 (extract_label_indices)
   /repo/skbeam/core/correlation.py 69-157, 202-256, 259-410, 413-429, 820-906.

   Simplifications: float64 is exact rational arithmetic (Qc) with NaN = None;
   images and label arrays arrive already raveled (lists); integers are
   unbounded.  Every array read or write is checked: out of range is None
   (Python would raise IndexError). *)
From Verif Require Import Common.

(* ------------------------------------------------------------------ *)
(** ** multi_tau_lags : utils.py 1109-1165 *)

(** utils.py 1156-1162: the lags appended for level [i] (2 <= i). *)
Definition level_lags (channels i : nat) : list nat :=
  map (fun j => (channels / 2 + j) * 2 ^ (i - 1)) (seq 0 (channels / 2)).

(** Result triple (tot_channels, lag_steps, dict_lags); [dict_lags] is the list
    of values for keys 1, 2, .. in insertion order. *)
Definition multi_tau_lags (levels channels : nat)
  : option (nat * list nat * list (list nat)) :=
  if negb (channels mod 2 =? 0) then None            (* 1143-1147 ValueError *)
  else
    let tot_channels := (levels + 1) * channels / 2 in          (* 1150 *)
    let first := seq 0 channels in                              (* 1154 *)
    let others := map (level_lags channels) (seq 2 (levels - 1)) in
    Some (tot_channels, first ++ concat others, first :: others).

(* ------------------------------------------------------------------ *)
(** ** Pixels and frames *)
Notation pix := (option Qc) (only parsing).   (* None models NaN *)
Notation vec := (list (option Qc)) (only parsing).

Definition pmul (a b : pix) : pix :=
  match a, b with Some x, Some y => Some (x * y)%Qc | _, _ => None end.
(** (a + b) / 2, correlation.py 371-373 *)
Definition pavg (a b : pix) : pix :=
  match a, b with Some x, Some y => Some ((x + y) / (1 + 1))%Qc | _, _ => None end.
Definition vmap2 (f : pix -> pix -> pix) (u v : vec) : vec :=
  map (fun p => f (fst p) (snd p)) (combine u v).
(** np.isnan(v).any() *)
Definition has_nan (v : vec) : bool :=
  existsb (fun p => match p with None => true | Some _ => false end) v.
(** Values of a vector, only used once [has_nan] is false. *)
Definition vals (v : vec) : list Qc :=
  map (fun p => match p with Some x => x | None => 0%Qc end) v.

(** np.bincount(label_array, weights=w)[1:] for a label array with maximum K:
    entry r (1 <= r <= K) is the sum of the weights with that label. *)
Definition max_label (labels : list nat) : nat := fold_right Nat.max 0 labels.
Definition bincount_w (labels : list nat) (w : list Qc) : list Qc :=
  map (fun r => qsum (map snd (filter (fun p => fst p =? r) (combine labels w))))
      (seq 1 (max_label labels)).
(** np.bincount(label_array)[1:], correlation.py 874 *)
Definition bincount_n (labels : list nat) : list nat :=
  map (fun r => length (filter (fun l => l =? r) labels))
      (seq 1 (max_label labels)).

(* ------------------------------------------------------------------ *)
(** ** extract_label_indices and label compaction *)

(** roi.py 526-533: labels > 0 in raster order, with their raster indices. *)
Definition extract_label_indices (labels : list Z) : list Z * list nat :=
  let sel := filter (fun p => (0 <? snd p)%Z)
                    (combine (seq 0 (length labels)) labels) in
  (map snd sel, map fst sel).

(** np.unique: ascending distinct values (insertion into a sorted list). *)
Fixpoint insert_u (x : Z) (l : list Z) : list Z :=
  match l with
  | [] => [x]
  | y :: l' => if (x <? y)%Z then x :: l
               else if (x =? y)%Z then l
               else y :: insert_u x l'
  end.
Definition unique (l : list Z) : list Z := fold_right insert_u [] l.

(** correlation.py 865-868: dict {label: n+1} over ascending labels, then
    sequential in-place replacement [label_array[label_array == label] = n]. *)
Definition remap_pass (arr : list Z) (ln : Z * Z) : list Z :=
  map (fun x => if (x =? fst ln)%Z then snd ln else x) arr.
Definition label_mapping (arr : list Z) : list (Z * Z) :=
  combine (unique arr) (map Z.of_nat (seq 1 (length (unique arr)))).
Definition remap (arr : list Z) : list Z :=
  fold_left remap_pass (label_mapping arr) arr.

(* ------------------------------------------------------------------ *)
(** ** Configuration and state (correlation.py 162-179) *)
Record cfg := {
  num_bufs : nat;
  num_levels : nat;
  label_array : list nat;        (* compacted labels of the ROI pixels *)
  pixel_list : list nat;
  num_pixels : list nat;
  lag_steps : list nat;
  lev_len : list nat
}.
Record state := {
  buf : list (list vec);         (* num_levels x num_bufs x pixels *)
  G : list (list Qc);            (* tot_channels x num_rois *)
  past : list (list Qc);
  fut : list (list Qc);
  ipl : list nat;                (* img_per_level *)
  track : list bool;             (* track_level *)
  cur : list Z;
  norm : list (list Z)           (* norm[level+1] *)
}.

Definition set_buf s x := {| buf := x; G := G s; past := past s; fut := fut s;
  ipl := ipl s; track := track s; cur := cur s; norm := norm s |}.
Definition set_acc s g p f := {| buf := buf s; G := g; past := p; fut := f;
  ipl := ipl s; track := track s; cur := cur s; norm := norm s |}.
Definition set_ipl s x := {| buf := buf s; G := G s; past := past s; fut := fut s;
  ipl := x; track := track s; cur := cur s; norm := norm s |}.
Definition set_track s x := {| buf := buf s; G := G s; past := past s; fut := fut s;
  ipl := ipl s; track := x; cur := cur s; norm := norm s |}.
Definition set_cur s x := {| buf := buf s; G := G s; past := past s; fut := fut s;
  ipl := ipl s; track := track s; cur := x; norm := norm s |}.
Definition set_norm s x := {| buf := buf s; G := G s; past := past s; fut := fut s;
  ipl := ipl s; track := track s; cur := cur s; norm := x |}.

(** _validate_and_transform_inputs (820-906) and _init_state_one_time (202-256).
    [labels] is the raveled label array. *)
Definition init_cfg (nb L : nat) (labels : list Z) : option cfg :=
  if negb (nb mod 2 =? 0) then None                              (* 860-861 *)
  else
    let (la, pl) := extract_label_indices labels in              (* 862 *)
    let la' := map Z.to_nat (remap la) in                        (* 865-868 *)
    ml <- multi_tau_lags L nb ;;                                 (* 877 *)
    let '(_, lags, dict) := ml in
    Some {| num_bufs := nb; num_levels := L; label_array := la';
            pixel_list := pl; num_pixels := bincount_n la';      (* 874 *)
            lag_steps := lags;
            lev_len := map (@length nat) dict |}.                (* 882 *)

Definition init_state (c : cfg) : state :=
  let nb := num_bufs c in let L := num_levels c in
  let K := length (num_pixels c) in
  let z := repeat (repeat 0%Qc K) ((L + 1) * nb / 2) in          (* 236-240 *)
  {| buf := repeat (repeat (repeat (Some 0%Qc) (length (pixel_list c))) nb) L;
     G := z; past := z; fut := z;
     ipl := repeat 0 L; track := repeat false L;
     cur := repeat 1%Z L;
     norm := map (fun n => repeat 0%Z n) (lev_len c) |}.         (* 881 *)

(* ------------------------------------------------------------------ *)
(** ** _one_time_process : correlation.py 69-157 *)

(** Line 156: arr[t_index] += (binned / num_pixels - arr[t_index]) / normalize,
    elementwise over ROIs. *)
Definition acc_row (row binned : list Qc) (npix : list nat) (normalize : Z)
  : list Qc :=
  map (fun p => (fst p + (fst (snd p) / qn (snd (snd p)) - fst p) / qz normalize)%Qc)
      (combine row (combine binned npix)).

Definition acc_at (c : cfg) (arr : list (list Qc)) (t : nat) (w : vec) (nz : Z)
  : option (list (list Qc)) :=
  row <- nth_error arr t ;;
  upd arr t (acc_row row (bincount_w (label_array c) (vals w)) (num_pixels c) nz).

Definition otp_body (c : cfg) (level : nat) (buf_no : Z) (nimg : nat)
           (s : state) (i : nat) : option state :=
  let nb := num_bufs c in
  let t_index := level * nb / 2 + i in                                  (* 134 *)
  let delay_no := ((buf_no - Z.of_nat i) mod Z.of_nat nb)%Z in          (* 135 *)
  row <- nth_error (buf s) level ;;
  di <- pyindex (Z.of_nat (length row)) delay_no ;;
  past_img <- nth_error row di ;;                                       (* 138 *)
  fi <- pyindex (Z.of_nat (length row)) buf_no ;;
  future_img <- nth_error row fi ;;                                     (* 139 *)
  let ind := (Z.of_nat t_index
              - Z.of_nat (list_sum (firstn level (lev_len c))))%Z in    (* 143 *)
  nrow <- nth_error (norm s) level ;;
  ni <- pyindex (Z.of_nat (length nrow)) ind ;;
  nv <- nth_error nrow ni ;;
  let normalize := (Z.of_nat nimg - Z.of_nat i - nv)%Z in               (* 144 *)
  if has_nan past_img || has_nan future_img then                        (* 148 *)
    nrow' <- upd nrow ni (nv + 1)%Z ;;                                  (* 149 *)
    norm' <- upd (norm s) level nrow' ;;
    Some (set_norm s norm')
  else if (normalize =? 0)%Z then None     (* division by zero; shown unreachable *)
  else                                                                  (* 151-156 *)
    g <- acc_at c (G s) t_index (vmap2 pmul past_img future_img) normalize ;;
    p <- acc_at c (past s) t_index past_img normalize ;;
    f <- acc_at c (fut s) t_index future_img normalize ;;
    Some (set_acc s g p f).

Definition one_time_process (c : cfg) (level : nat) (buf_no : Z) (s : state)
  : option state :=
  n0 <- nth_error (ipl s) level ;;
  let nimg := n0 + 1 in
  ipl' <- upd (ipl s) level nimg ;;                                     (* 128 *)
  let i_min := if level =? 0 then 0 else num_bufs c / 2 in              (* 131 *)
  foldM (otp_body c level buf_no nimg)
        (seq i_min (Nat.min nimg (num_bufs c) - i_min))                 (* 132 *)
        (set_ipl s ipl').

(* ------------------------------------------------------------------ *)
(** ** lazy_one_time : correlation.py 259-410 *)

Definition set_buf_at (s : state) (level : nat) (idx : Z) (v : vec) : option state :=
  row <- nth_error (buf s) level ;;
  k <- pyindex (Z.of_nat (length row)) idx ;;
  row' <- upd row k v ;;
  b <- upd (buf s) level row' ;;
  Some (set_buf s b).

Definition get_buf_at (s : state) (level : nat) (idx : Z) : option vec :=
  row <- nth_error (buf s) level ;;
  k <- pyindex (Z.of_nat (length row)) idx ;;
  nth_error row k.

(** The [while processing] loop, 360-399; [fuel] bounds the iterations and
    running out of it is an error (shown unreachable). *)
Fixpoint level_loop (fuel : nat) (c : cfg) (level : nat) (s : state)
  : option state :=
  match fuel with
  | 0 => None
  | S fuel' =>
    tr <- nth_error (track s) level ;;
    if negb tr then                                                     (* 364-366 *)
      t' <- upd (track s) level true ;; Some (set_track s t')
    else
      cp <- nth_error (cur s) (level - 1) ;;
      let prev := (1 + (cp - 2) mod Z.of_nat (num_bufs c))%Z in         (* 368 *)
      cl <- nth_error (cur s) level ;;
      let cl' := (1 + cl mod Z.of_nat (num_bufs c))%Z in                (* 369 *)
      cur' <- upd (cur s) level cl' ;;
      a <- get_buf_at s (level - 1) (prev - 1)%Z ;;
      b <- get_buf_at s (level - 1) (cp - 1)%Z ;;
      s1 <- set_buf_at (set_cur s cur') level (cl' - 1)%Z (vmap2 pavg a b) ;; (* 371-373 *)
      t' <- upd (track s1) level false ;;                               (* 376 *)
      s2 <- one_time_process c level (cl' - 1)%Z (set_track s1 t') ;;   (* 381-395 *)
      if S level <? num_levels c then level_loop fuel' c (S level) s2   (* 396-399 *)
      else Some s2
  end.

(** One iteration of the image loop on the ROI pixels of the image, 329-399. *)
Definition step (c : cfg) (s : state) (img : vec) : option state :=
  c0 <- nth_error (cur s) 0 ;;
  let c0' := ((1 + c0) mod Z.of_nat (num_bufs c))%Z in                  (* 334 *)
  cur' <- upd (cur s) 0 c0' ;;
  s1 <- set_buf_at (set_cur s cur') 0 (c0' - 1)%Z img ;;                (* 337 *)
  s2 <- one_time_process c 0 (c0' - 1)%Z s1 ;;                          (* 343-356 *)
  if 1 <? num_levels c then level_loop (num_levels c) c 1 s2            (* 360 *)
  else Some s2.

(** Truncation and normalisation, 404-410.  A zero denominator is None. *)
Fixpoint first_zero_row (m : list (list Qc)) : nat :=
  match m with
  | [] => 0
  | r :: m' => if existsb (Qc_eqb 0%Qc) r then 0 else S (first_zero_row m')
  end.
Definition qdiv (a b : Qc) : pix := if Qc_eqb b 0%Qc then None else Some (a / b)%Qc.
Definition g2_row (g p f : list Qc) : list pix :=
  map (fun x => qdiv (fst x) (fst (snd x) * snd (snd x))%Qc) (combine g (combine p f)).
Definition outputs (c : cfg) (s : state) : list (list pix) * list nat :=
  let gm := first_zero_row (past s) in
  (map (fun x => g2_row (fst x) (fst (snd x)) (snd (snd x)))
       (combine (firstn gm (G s)) (combine (firstn gm (past s)) (firstn gm (fut s)))),
   firstn gm (lag_steps c)).

(** np.ravel(image)[pixel_list], 337 *)
Fixpoint gather (img : list pix) (pl : list nat) : option vec :=
  match pl with
  | [] => Some []
  | p :: pl' => x <- nth_error img p ;; r <- gather img pl' ;; Some (x :: r)
  end.

(** The generator: the list of everything yielded, and the last state. *)
Fixpoint lazy_one_time (c : cfg) (s : state) (images : list (list pix))
  : option (list (list (list pix) * list nat) * state) :=
  match images with
  | [] => Some ([], s)
  | im :: rest =>
    v <- gather im (pixel_list c) ;;
    s' <- step c s v ;;
    r <- lazy_one_time c s' rest ;;
    Some (outputs c s' :: fst r, snd r)
  end.

(** multi_tau_auto_corr, 413-429: the last yielded result (an empty image
    sequence raises UnboundLocalError). *)
Definition multi_tau_auto_corr (nb L : nat) (labels : list Z)
           (images : list (list pix)) : option (list (list pix) * list nat) :=
  c <- init_cfg nb L labels ;;
  r <- lazy_one_time c (init_state c) images ;;
  match rev (fst r) with [] => None | x :: _ => Some x end.
