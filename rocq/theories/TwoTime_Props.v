(* Property theorems C08, C09, C65 (two-time correlation). *)
From Verif Require Import Common MultiTau_Model MultiTau_Spec TwoTime_Model TwoTime_Spec TwoTime_Main.

(* ---------------- running example ---------------- *)
Definition tt_im (l : list Z) : list (option Qc) := map (fun z => Some (qz z)) l.
Definition tt_labels : list Z := [1; 1; 0; 5]%Z.
Definition tt_images := [tt_im [1;2;9;4]; tt_im [3;1;9;2]; tt_im [2;2;9;1];
                         tt_im [1;4;9;3]; tt_im [5;1;9;2]]%Z.
Definition tt_show (g : mat) q := map (map (fun v => option_map (option_map this) (nth_error v q))) g.

(* ------------------------------------------------------------------ *)
(** C08: every write is inside the array; every entry on a reported lag is the
    normalised correlation of the two blocks it belongs to, every other entry
    is 0, and the matrix is symmetric. *)
Theorem C08_matrix : forall nb L nf labels images,
  nb mod 2 = 0 -> 2 <= nb -> 1 <= L ->
  (forall im, In im images -> length im = length labels) ->
  length images <= nf -> images <> [] -> 1 <= n_rois labels ->
  exists g, two_time_corr labels images nf nb L = Some g /\
    length g = nf /\ (forall row, In row g -> length row = nf) /\
    (forall row v, In row g -> In v row -> length v = n_rois labels) /\
    (forall q a b, q < n_rois labels -> a < nf -> b < nf -> entry g q a b = entry g q b a) /\
    (forall q a b l k i, q < n_rois labels -> on_lag nb L (length images) a b l k i ->
       entry g q a b = Some (spec_tt labels images l (k - i) k (q + 1))) /\
    (forall q a b, q < n_rois labels -> b <= a < nf ->
       (forall l k i, ~ on_lag nb L (length images) a b l k i) ->
       entry g q a b = Some (Some 0%Qc)).
Proof. exact tt_main. Qed.
Print Assumptions C08_matrix.
Example C08_ex : option_map (fun g => nth 4 (tt_show g 0) []) (two_time_corr tt_labels tt_images 6 2 2)
  = Some [Some (Some 0); Some (Some 0); Some (Some 0); Some (Some (3 # 5));
          Some (Some (13 # 9)); Some (Some 0)]%Q
  /\ option_map (fun g => nth 3 (tt_show g 0) []) (two_time_corr tt_labels tt_images 6 2 2)
  = Some [Some (Some 0); Some (Some (20 # 21)); Some (Some 1); Some (Some (34 # 25));
          Some (Some (3 # 5)); Some (Some 0)]%Q.
Proof. split; vm_compute; reflexivity. Qed.
Example C08_ex_lag : on_lag 2 2 5 3 1 1 1 1.
Proof. repeat split; auto. exists 1. auto. Qed.

(** Less than num_bufs frames apart, the entry is the frame-by-frame correlation. *)
Theorem C08_near_diagonal : forall nb L nf labels images,
  nb mod 2 = 0 -> 2 <= nb -> 1 <= L ->
  (forall im, In im images -> length im = length labels) ->
  length images <= nf -> images <> [] -> 1 <= n_rois labels ->
  exists g, two_time_corr labels images nf nb L = Some g /\
    forall q a b, q < n_rois labels -> a < length images -> b < length images ->
      a < b + nb -> b < a + nb ->
      entry g q a b = Some (spec_tt labels images 0 (Nat.min a b) (Nat.max a b) (q + 1)).
Proof. exact tt_near. Qed.
Print Assumptions C08_near_diagonal.
Example C08_ex_spec : option_map this (spec_tt tt_labels tt_images 0 3 4 1) = Some (3 # 5)%Q.
Proof. vm_compute. reflexivity. Qed.

(** More frames than num_frames: IndexError. *)
Theorem C08_too_many_frames : forall nb L nf labels images,
  nb mod 2 = 0 -> 2 <= nb -> 1 <= L ->
  (forall im, In im images -> length im = length labels) ->
  nf < length images -> two_time_corr labels images nf nb L = None.
Proof. exact tt_overflow. Qed.
Print Assumptions C08_too_many_frames.
Example C08_ex_too_many : 4 < length tt_images. Proof. cbn. auto. Qed.

(* ------------------------------------------------------------------ *)
(** C09: per ROI, value j is the mean of the numbers on the j-th superdiagonal. *)
Theorem C09_superdiagonal_means : forall stack : list (list (list (option Qc))),
  length (one_time_from_two_time stack) = length stack /\
  forall q m, nth_error stack q = Some m ->
    (forall row, In row m -> length row = length m) ->
    exists out, nth_error (one_time_from_two_time stack) q = Some out /\
      length out = length m /\
      forall j, j < length m ->
        exists d, length d = length m - j /\
          (forall a, a < length m - j -> exists row, nth_error m a = Some row /\
              nth_error row (a + j) = nth_error d a) /\
          nth_error out j = Some (match numbers d with [] => None | xs => Some (mean xs) end).
Proof. exact one_time_ok. Qed.
Print Assumptions C09_superdiagonal_means.
Example C09_ex : map (map (option_map this))
   (one_time_from_two_time [[tt_im [1;2;3]; [None; Some (qz 4); None]; tt_im [7;8;9]]]%Z)
  = [[Some (14 # 3); Some 2; Some 3]]%Q.
Proof. vm_compute. reflexivity. Qed.

(* ------------------------------------------------------------------ *)
(** C65: one-time values derived from a two-time result.  With one level the
    lags below num_bufs are right and all longer lags are reported as 0. *)
Theorem C65_one_level : forall nb labels images,
  nb mod 2 = 0 -> 2 <= nb -> images <> [] -> 1 <= n_rois labels ->
  (forall im, In im images -> length im = length labels) ->
  exists out, one_time_of nb 1 (length images) labels images = Some out /\
    length out = n_rois labels /\
    forall q, q < n_rois labels -> exists row, nth_error out q = Some row /\
      length row = length images /\
      (forall j, j < nb -> j < length images ->
         nth_error row j = Some
           (match numbers (map (fun a => spec_tt labels images 0 a (a + j) (q + 1))
                               (seq 0 (length images - j)))
            with [] => None | xs => Some (mean xs) end)) /\
      (forall j, nb <= j < length images -> nth_error row j = Some (Some 0%Qc)).
Proof. exact one_time_level1. Qed.
Print Assumptions C65_one_level.
Example C65_ex : option_map (map (map (option_map this))) (one_time_of 2 1 5 tt_labels tt_images)
  = Some [[Some (5549 # 4500); Some (103 # 120); Some 0; Some 0; Some 0];
          [Some 1; Some 1; Some 0; Some 0; Some 0]]%Q.
Proof. vm_compute. reflexivity. Qed.

(** With two levels a constant image, whose correlation is 1 at every lag, is
    reported with the value 2/3 at lag 2: the never-written zero cell of the
    incomplete last block enters the mean. *)
Theorem C65_diluted_refuted : exists nb L labels images,
  nb mod 2 = 0 /\ 2 <= nb /\ 1 <= L /\
  (forall im, In im images -> length im = length labels) /\
  (forall a b, a < length images -> b < length images ->
     option_map this (spec_tt labels images 0 a b 1) = Some 1%Q) /\
  is_lag nb L 1 1 /\
  option_map (map (map (option_map this))) (one_time_of nb L (length images) labels images)
  = Some [[Some 1; Some 1; Some (2 # 3); Some 0; Some 0]]%Q.
Proof. exact one_time_diluted. Qed.
Print Assumptions C65_diluted_refuted.
