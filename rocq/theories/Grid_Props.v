(* C19, C67: the 3-D gridder. *)
From Verif Require Import Common Grid_Model Hist_Spec Grid_Spec Grid_Proofs GridRace_Model GridRace_Proofs.
From Coq Require Import Permutation.

(** C19: however the points are dealt out to threads (each with cleared arrays), the
    cell (i,j,k) reports count, total, mean and squared standard error of exactly
    the non-NaN intensities of the points inside it; an empty cell has mean NaN and
    error 0. *)
Theorem C19_cells : forall ax ay az chunks pts,
  good_gaxis ax -> good_gaxis ay -> good_gaxis az ->
  chunks <> [] -> Permutation (concat chunks) pts ->
  exists out, grid ax ay az chunks = Some out /\ length out = g_n ax * g_n ay * g_n az /\
    forall i j k, i < g_n ax -> j < g_n ay -> k < g_n az ->
      exists vs o, collects (in_grid_cell (g3 ax) (g3 ay) (g3 az) i j k) pts vs /\
        nth_error out (row_major [g_n ax; g_n ay; g_n az] [i; j; k]) = Some o /\
        o_occ o = qn (length vs) /\ o_total o = qsum vs /\
        (vs = [] -> o_mean o = None /\ o_se2 o = 0%Qc) /\
        (vs <> [] -> o_mean o = Some (mean_of vs) /\ o_se2 o = sem2_of vs).
Proof. exact (fun ax ay az c p X Y Z => grid_cells ax ay az X Y Z c p). Qed.
Print Assumptions C19_cells.
Definition exax := mkG (qz 0) (qz 4) 2.
Definition ex_pt (x y z v : Z) : gpoint := (qz x, qz y, qz z, Some (qz v)).
Definition ex_chunks := [[ex_pt 1 1 1 5; ex_pt 4 0 0 9]; []; [(qz 0, qz 0, qz 0, None); ex_pt 0 1 0 8; ex_pt 3 0 1 2]].
Example C19_ex1 : good_gaxis exax /\ ex_chunks <> [] /\ Permutation (concat ex_chunks) (rev (concat ex_chunks)).
Proof. split; [split; [discriminate|reflexivity]|]. split; [discriminate|apply Permutation_rev]. Qed.
Example C19_ex2 : option_map (map (fun o => (this (o_total o), this (o_occ o), option_map this (o_mean o), this (o_se2 o))))
   (grid exax exax exax ex_chunks)
  = Some [(13, 2, Some (13 # 2), (9 # 8)); (0, 0, None, 0); (0, 0, None, 0); (0, 0, None, 0);
          (2, 1, Some 2, 0); (0, 0, None, 0); (0, 0, None, 0); (0, 0, None, 0)]%Q.
Proof. vm_compute. reflexivity. Qed.

(** C19: the collected intensities are determined by the specification. *)
Theorem C19_spec_functional : forall P pts vs ws, collects P pts vs -> collects P pts ws -> vs = ws.
Proof. exact collects_unique. Qed.
Print Assumptions C19_spec_functional.
Example C19_ex3 : collects (fun _ => True) [ex_pt 1 1 1 5; (qz 0, qz 0, qz 0, None)] [qz 5].
Proof. apply col_in; [exact I|]. apply col_nan. constructor. Qed.

(** C19: two ways of dealing the same points out to threads give the same grid. *)
Theorem C19_thread_independent : forall ax ay az chunks chunks',
  good_gaxis ax -> good_gaxis ay -> good_gaxis az ->
  chunks <> [] -> chunks' <> [] -> Permutation (concat chunks) (concat chunks') ->
  grid ax ay az chunks = grid ax ay az chunks'.
Proof. exact (fun ax ay az c d X Y Z => grid_threads ax ay az X Y Z c d). Qed.
Print Assumptions C19_thread_independent.
Example C19_ex4 : Permutation (concat ex_chunks) (concat (rev ex_chunks)).
Proof. cbn. apply (Permutation_app_comm [_; _] [_; _; _]). Qed.

(** C19: a mask shaped like the stack keeps the rows it marks True. *)
Theorem C19_mask_stack : forall n_img q img b, length img = length q -> length b = length q ->
  exists r, masked_points n_img q img (MaskStack b) = Some r /\
    kept (fun i => nth i b false) 0 (combine q img) r.
Proof. exact mask_stack_ok. Qed.
Print Assumptions C19_mask_stack.
(** C19: a mask shaped like one image applies to every image of the stack. *)
Theorem C19_mask_image : forall n_img q img b, length img = length q -> length q = n_img * length b ->
  exists r, masked_points n_img q img (MaskImage b) = Some r /\
    kept (fun i => nth (i mod length b) b false) 0 (combine q img) r.
Proof. exact mask_image_ok. Qed.
Print Assumptions C19_mask_image.
(** C19: masks of any other shape are errors. *)
Theorem C19_mask_bad : forall n_img q img, masked_points n_img q img MaskOther = None /\
  (forall b, length img = length q -> length b <> length q -> masked_points n_img q img (MaskStack b) = None) /\
  (forall b, length img = length q -> n_img * length b <> length q -> masked_points n_img q img (MaskImage b) = None).
Proof. exact mask_bad. Qed.
Print Assumptions C19_mask_bad.
Definition ex_q := [(qz 1, qz 1, qz 1); (qz 2, qz 2, qz 2); (qz 3, qz 3, qz 3); (qz 4, qz 4, qz 4)].
Example C19_ex5 : masked_points 2 ex_q (map (fun z => Some (qz z)) [6; 7; 8; 9]%Z) (MaskImage [false; true])
  = Some [((qz 2, qz 2, qz 2), Some (qz 7)); ((qz 4, qz 4, qz 4), Some (qz 9))].
Proof. reflexivity. Qed.

(** C67: a thread whose clearing loop is not interleaved with another thread's clears
    exactly its own arrays, so with a single thread the loop is right whatever
    memory malloc returned. *)
Theorem C67_uninterleaved_ok : forall size j ts k g,
  nth_error ts k = Some (mkT PInit g) -> sized size g ->
  exists ts', run_schedule size (repeat k (1 + size * 6 + 1)) (j, ts) = Some (size, ts') /\
    nth_error ts' k = Some (mkT PDone (cleared size)) /\
    forall i, i <> k -> nth_error ts' i = nth_error ts i.
Proof. exact alone_ok. Qed.
Print Assumptions C67_uninterleaved_ok.
Theorem C67_single_thread : forall size g, sized size g ->
  exists sched, run_schedule size sched (0, entering [g]) = Some (size, [mkT PDone (cleared size)]) /\
  forall sched' s', (forall k, In k sched' -> k = 0) -> run_schedule size sched' (0, entering [g]) = Some s' ->
    Forall (fun t => t_pc t = PDone) (snd s') -> s' = (size, [mkT PDone (cleared size)]).
Proof. exact single_ok. Qed.
Print Assumptions C67_single_thread.
(** C67: with two threads the loop counter is shared, and for every grid and every
    content of the second thread's fresh memory some schedule adds that content to
    the reported totals and occupancies. *)
Theorem C67_garbage_in_result : forall ax ay az g0 g1 p0 p1,
  good_gaxis ax -> good_gaxis ay -> good_gaxis az ->
  let size := gsize ax ay az in sized size g0 -> sized size g1 ->
  exists sched j ts, run_schedule size sched (0, entering [g0; g1]) = Some (j, ts) /\ Forall (fun t => t_pc t = PDone) ts /\
    exists out good, c_grid3d ax ay az (combine (map t_acc ts) [p0; p1]) = Some out /\
      grid ax ay az [p0; p1] = Some good /\
      forall c, c < size -> exists o og, nth_error out c = Some o /\ nth_error good c = Some og /\
        o_total o = (o_total og + nth c (a_d g1) 0)%Qc /\ o_occ o = (o_occ og + nth c (a_n g1) 0)%Qc.
Proof. exact garbage_counts. Qed.
Print Assumptions C67_garbage_in_result.
(** C67: and some schedule writes past the end of a thread's array. *)
Theorem C67_out_of_bounds : forall size g0 g1, size <> 0 -> sized size g0 -> sized size g1 ->
  exists sched, run_schedule size sched (0, entering [g0; g1]) = None /\ forall k, In k sched -> k < 2.
Proof. exact oob_exists. Qed.
Print Assumptions C67_out_of_bounds.
Example C67_ex : let g := mkAcc (repeat (qz 7) 8) (repeat (qz 7) 8) (repeat (qz 7) 8) in
  sized (gsize exax exax exax) g /\ good_gaxis exax.
Proof. split; [repeat split|split; [discriminate|reflexivity]]. Qed.
