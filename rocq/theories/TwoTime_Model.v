(* Model of the two-time correlator.
   /repo/skbeam/core/correlation.py 483-499 (two_time_corr), 502-656
   (lazy_two_time), 659-676 (two_time_state_to_results), 679-754
   (_two_time_process), 757-817 (_init_state_two_time), 820-906
   (_validate_and_transform_inputs, the [init_cfg] of MultiTau_Model),
   909-945 (one_time_from_two_time, without calc_errors).

   Simplifications: exact rational arithmetic with NaN (and the inf of a
   division by zero) = None; images raveled; integers unbounded.  The ring
   buffer fields shared with the one-time correlator reuse its [state] record
   (its accumulators G, past, fut and norm are unused and empty here). *)
From Verif Require Import Common MultiTau_Model.

(** NaN-propagating sum and (734-740) np.bincount(label_array, weights=v)[1:]. *)
Definition padd (a b : pix) : pix :=
  match a, b with Some x, Some y => Some (x + y)%Qc | _, _ => None end.
Definition popp (a : pix) : pix := option_map Qcopp a.
Definition psum (l : vec) : pix := fold_right padd (Some 0%Qc) l.
Definition bincount_p (labels : list nat) (w : vec) : vec :=
  map (fun r => psum (map snd (filter (fun p => fst p =? r) (combine labels w))))
      (seq 1 (max_label labels)).

(** tmp_binned / (pi_binned * fi_binned) * num_pixels for one ROI, 752/754. *)
Definition pdiv (a b : pix) : pix :=
  match a, b with
  | Some x, Some y => if Qc_eqb y 0%Qc then None else Some (x / y)%Qc
  | _, _ => None end.
Definition norm_cell (tmp pi fi : pix) (npix : nat) : pix :=
  pmul (pdiv tmp (pmul pi fi)) (Some (qn npix)).
Definition cell_values (labels : list nat) (npix : list nat) (past_img future_img : vec) : vec :=
  map (fun x => norm_cell (fst x) (fst (snd x)) (fst (snd (snd x))) (snd (snd (snd x))))
      (combine (bincount_p labels (vmap2 pmul past_img future_img))
        (combine (bincount_p labels past_img)
          (combine (bincount_p labels future_img) npix))).

(** The g2 array, created at 800; the write of 752/754 with NumPy index rules: [g2 !! a !! b] is the vector g2[:, a, b]. *)
Definition mat := list (list vec).
Definition write (g : mat) (a b : Z) (v : vec) : option mat :=
  ai <- pyindex (Z.of_nat (length g)) a ;;
  row <- nth_error g ai ;;
  bi <- pyindex (Z.of_nat (length row)) b ;;
  row' <- upd row bi v ;;
  upd g ai row'.

Record state2 := {
  base : state;                    (* buf, img_per_level, track_level, cur *)
  g2 : mat;
  count_level : list nat;
  img_time : Z;                    (* current_img_time *)
  time_ind : list (list Z)         (* per level, DOUBLED times (half-integers) *)
}.
Definition set_base s b := {| base := b; g2 := g2 s; count_level := count_level s;
  img_time := img_time s; time_ind := time_ind s |}.
Definition set_g2 s g := {| base := base s; g2 := g; count_level := count_level s;
  img_time := img_time s; time_ind := time_ind s |}.
Definition set_count s x := {| base := base s; g2 := g2 s; count_level := x;
  img_time := img_time s; time_ind := time_ind s |}.
Definition set_time s x := {| base := base s; g2 := g2 s; count_level := count_level s;
  img_time := x; time_ind := time_ind s |}.
Definition set_tind s x := {| base := base s; g2 := g2 s; count_level := count_level s;
  img_time := img_time s; time_ind := x |}.

(** 744-754: the cells written for one lag.  [t2] is the doubled image time;
    int() truncates towards zero.  At level 0 the time is an int, else a float. *)
Definition write_lag (level : nat) (t2 lag : Z) (v : vec) (g : mat) : option mat :=
  let tind1 := (t2 - 2)%Z in
  let tind2 := (t2 - 2 * lag - 2)%Z in
  if level =? 0 then write g (Z.quot tind1 2) (Z.quot tind2 2) v
  else
    let nshift := 2 ^ (level - 1) in
    foldM (fun g j =>
             let i := (Z.of_nat j - Z.of_nat nshift + 1)%Z in
             write g (Z.quot (tind1 + 2 * i) 2) (Z.quot (tind2 + 2 * i) 2) v)
          (seq 0 (2 * nshift)) g.

(** Body of the loop over i in _two_time_process, 727-754. *)
Definition ttp_body (c : cfg) (level : nat) (buf_no t2 : Z) (ring : list vec)
           (g : mat) (i : nat) : option mat :=
  let nb := num_bufs c in
  let t_index := level * nb / 2 + i in
  let delay_no := ((buf_no - Z.of_nat i) mod Z.of_nat nb)%Z in
  di <- pyindex (Z.of_nat (length ring)) delay_no ;;
  past_img <- nth_error ring di ;;
  fi <- pyindex (Z.of_nat (length ring)) buf_no ;;
  future_img <- nth_error ring fi ;;
  lag <- nth_error (lag_steps c) t_index ;;
  write_lag level t2 (Z.of_nat lag)
            (cell_values (label_array c) (num_pixels c) past_img future_img) g.

(** _two_time_process, 679-754. *)
Definition two_time_process (c : cfg) (level : nat) (buf_no t2 : Z) (s : state2)
  : option state2 :=
  n0 <- nth_error (ipl (base s)) level ;;
  let nimg := n0 + 1 in
  ipl' <- upd (ipl (base s)) level nimg ;;                          (* 720 *)
  ring <- nth_error (buf (base s)) level ;;
  let i_min := if level =? 0 then 0 else num_bufs c / 2 in
  g <- foldM (ttp_body c level buf_no t2 ring)
             (seq i_min (Nat.min nimg (num_bufs c) - i_min)) (g2 s) ;;
  Some (set_g2 (set_base s (set_ipl (base s) ipl')) g).

(** The while loop of lazy_two_time, 611-655; running out of fuel is an error. *)
Fixpoint level_loop2 (fuel : nat) (c : cfg) (level : nat) (s : state2)
  : option state2 :=
  match fuel with
  | 0 => None
  | S fuel' =>
    tr <- nth_error (track (base s)) level ;;
    if negb tr then
      t' <- upd (track (base s)) level true ;;
      Some (set_base s (set_track (base s) t'))
    else
      cp <- nth_error (cur (base s)) (level - 1) ;;
      let prev := (1 + (cp - 2) mod Z.of_nat (num_bufs c))%Z in
      cl <- nth_error (cur (base s)) level ;;
      let cl' := (1 + cl mod Z.of_nat (num_bufs c))%Z in
      cur' <- upd (cur (base s)) level cl' ;;
      n <- nth_error (count_level s) level ;;
      cnt' <- upd (count_level s) level (1 + n) ;;
      a <- get_buf_at (base s) (level - 1) (prev - 1)%Z ;;
      b <- get_buf_at (base s) (level - 1) (cp - 1)%Z ;;
      b1 <- set_buf_at (set_cur (base s) cur') level (cl' - 1)%Z (vmap2 pavg a b) ;;
      let t1_idx := (1 + n - 1) * 2 in
      tl <- nth_error (time_ind s) (level - 1) ;;
      ta <- nth_error tl t1_idx ;;
      tb <- nth_error tl (t1_idx + 1) ;;
      (* (ta + tb) / 2.0 ; a sum that is not a multiple of 1/2 after halving
         cannot be represented here, shown unreachable *)
      if negb (Z.even (ta + tb)) then None
      else
      let t2 := ((ta + tb) / 2)%Z in
      tcur <- nth_error (time_ind s) level ;;
      ti' <- upd (time_ind s) level (tcur ++ [t2]) ;;
      t' <- upd (track b1) level false ;;
      s' <- two_time_process c level (cl' - 1)%Z t2
              {| base := set_track b1 t'; g2 := g2 s; count_level := cnt';
                 img_time := img_time s; time_ind := ti' |} ;;
      if S level <? num_levels c then level_loop2 fuel' c (S level) s' else Some s'
  end.

(** One image, 580-655. *)
Definition step2 (c : cfg) (s : state2) (img : vec) : option state2 :=
  c0 <- nth_error (cur (base s)) 0 ;;
  let c0' := ((1 + c0) mod Z.of_nat (num_bufs c))%Z in
  cur' <- upd (cur (base s)) 0 c0' ;;
  n <- nth_error (count_level s) 0 ;;
  cnt' <- upd (count_level s) 0 (1 + n) ;;
  let time := (img_time s + 1)%Z in
  b1 <- set_buf_at (set_cur (base s) cur') 0 (c0' - 1)%Z img ;;
  s' <- two_time_process c 0 (c0' - 1)%Z (2 * time)%Z
          {| base := b1; g2 := g2 s; count_level := cnt';
             img_time := time; time_ind := time_ind s |} ;;
  t0 <- nth_error (time_ind s') 0 ;;
  ti' <- upd (time_ind s') 0 (t0 ++ [2 * time]%Z) ;;
  let s'' := set_tind s' ti' in
  if 1 <? num_levels c then level_loop2 (num_levels c) c 1 s'' else Some s''.

(** _init_state_two_time, 757-817. *)
Definition init_state2 (c : cfg) (num_frames : nat) : state2 :=
  let b := init_state c in
  let K := length (num_pixels c) in
  {| base := {| buf := buf b; G := []; past := []; fut := []; ipl := ipl b;
                track := track b; cur := cur b; norm := [] |};
     g2 := repeat (repeat (repeat (Some 0%Qc) K) num_frames) num_frames;
     count_level := repeat 0 (num_levels c);
     img_time := 0%Z;
     time_ind := repeat [] (num_levels c) |}.

(** The generator: the state after all images, 574-656. *)
Fixpoint lazy_two_time (c : cfg) (s : state2) (images : list (list pix)) : option state2 :=
  match images with
  | [] => Some s
  | im :: rest =>
    v <- gather im (pixel_list c) ;;
    s' <- step2 c s v ;;
    lazy_two_time c s' rest
  end.

(** two_time_state_to_results, 659-676: np.tril(x) + np.tril(x).T - np.diag(np.diag(x)),
    per ROI q in range(max(label_array)); out of range positions do not occur
    in a square matrix and read as None here. *)
Definition mget (g : mat) (q a b : nat) : pix :=
  match nth_error g a with
  | Some row => match nth_error row b with
                | Some v => match nth_error v q with Some x => x | None => None end
                | None => None end
  | None => None end.
Definition tril (g : mat) q a b : pix := if b <=? a then mget g q a b else Some 0%Qc.
Definition diagm (g : mat) q a b : pix := if a =? b then mget g q a a else Some 0%Qc.
Definition symmetrise (K n : nat) (g : mat) : mat :=
  map (fun a => map (fun b => map (fun q =>
     padd (padd (tril g q a b) (tril g q b a)) (popp (diagm g q a b)))
     (seq 0 K)) (seq 0 n)) (seq 0 n).

(** two_time_corr, 483-499. *)
Definition two_time_corr (labels : list Z) (images : list (list pix))
           (num_frames nb L : nat) : option mat :=
  c <- init_cfg nb L labels ;;
  match images with
  | [] => None                        (* UnboundLocalError: result *)
  | _ =>
    s <- lazy_two_time c (init_state2 c num_frames) images ;;
    match label_array c with
    | [] => None                      (* np.max of an empty array raises *)
    | _ => Some (symmetrise (max_label (label_array c)) num_frames (g2 s))
    end
  end.

(** one_time_from_two_time, 909-945: for each ROI q and each j in range(n),
    np.nanmean(np.diag(g, k=j)) ; NaN (None) when the diagonal has no number. *)
Definition diag (m : list (list pix)) (j : nat) : list pix :=
  map (fun a => match nth_error m a with
                | Some row => match nth_error row (a + j) with Some x => x | None => None end
                | None => None end) (seq 0 (length m - j)).
Definition nanmean (l : list pix) : pix :=
  let xs := concat (map (fun p => match p with Some x => [x] | None => [] end) l) in
  match xs with [] => None | _ => Some (qsum xs / qn (length xs))%Qc end.
Definition one_time_from_two_time (stack : list (list (list pix))) : list (list pix) :=
  map (fun m => map (fun j => nanmean (diag m j)) (seq 0 (length m))) stack.

(** The same array seen as numpy shows it, [roi][time][time]. *)
Definition to_stack (K : nat) (g : mat) : list (list (list pix)) :=
  map (fun q => map (map (fun v => nth q v None)) g) (seq 0 K).
