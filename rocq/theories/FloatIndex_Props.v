(* C20, C21, C23: cell indices in IEEE double arithmetic. *)
From Coq Require Import ZArith Reals Lia Lra Bool List.
From Verif Require Import F64 FloatIndex_Model FloatIndex_Proofs.
Open Scope R_scope.

(** C20: whatever doubles the point and the bounds are, if the three computed
    fractional positions pass the gridder's test then each cell index is inside
    its axis and the flat index is inside the output array. *)
Theorem C20_no_out_of_bounds : forall x y z x0 x1 y0 y1 z0 z1 n0 n1 n2,
  (1 <= n0 <= 2 ^ 53)%Z -> (1 <= n1 <= 2 ^ 53)%Z -> (1 <= n2 <= 2 ^ 53)%Z ->
  grid_accepts (grid_pos x x0 x1) = true ->
  grid_accepts (grid_pos y y0 y1) = true ->
  grid_accepts (grid_pos z z0 z1) = true ->
  let i0 := grid_index (grid_pos x x0 x1) n0 in
  let i1 := grid_index (grid_pos y y0 y1) n1 in
  let i2 := grid_index (grid_pos z z0 z1) n2 in
  (0 <= i0 < n0 /\ 0 <= i1 < n1 /\ 0 <= i2 < n2 /\
   0 <= grid_flat n0 n1 n2 i0 i1 i2 < n0 * n1 * n2)%Z.
Proof.
  exact (fun x y z x0 x1 y0 y1 z0 z1 n0 n1 n2 H0 H1 H2 A B C =>
    let I0 := index_in_range _ _ A H0 in let I1 := index_in_range _ _ B H1 in
    let I2 := index_in_range _ _ C H2 in
    conj I0 (conj I1 (conj I2 (flat_in_range _ _ _ _ _ _ I0 I1 I2)))).
Qed.
Print Assumptions C20_no_out_of_bounds.
(* the largest double below 1 on a grid of 2^31 - 1 cells *)
Example C20_ex : grid_accepts (f64_of (2 ^ 53 - 1) (-53)) = true /\
  grid_index (f64_of (2 ^ 53 - 1) (-53)) (2 ^ 31 - 1) = (2 ^ 31 - 2)%Z.
Proof. split; vm_compute; reflexivity. Qed.

(** C20: different accepted cells never share an array element. *)
Theorem C20_cells_distinct : forall n0 n1 n2 i0 i1 i2 j0 j1 j2,
  (0 <= i0 < n0 -> 0 <= i1 < n1 -> 0 <= i2 < n2 ->
   0 <= j0 < n0 -> 0 <= j1 < n1 -> 0 <= j2 < n2 ->
   grid_flat n0 n1 n2 i0 i1 i2 = grid_flat n0 n1 n2 j0 j1 j2 ->
   i0 = j0 /\ i1 = j1 /\ i2 = j2)%Z.
Proof. exact flat_injective. Qed.
Print Assumptions C20_cells_distinct.
Example C20_ex2 : (grid_flat 2 3 4 1 2 3 = 23 /\ grid_flat 2 3 4 1 1 3 = 19)%Z.
Proof. split; reflexivity. Qed.

(** C21: with defaulted bounds, on every axis whose largest coordinate is negative
    (and which is not constant) the largest point is dropped. *)
Theorem C21_negative_max_dropped : forall qmin qmax : f64,
  is_finite qmin = true -> B2R qmin < B2R qmax -> B2R qmax < 0 ->
  default_accepts qmax qmin qmax = false.
Proof. exact negative_max_dropped. Qed.
Print Assumptions C21_negative_max_dropped.
Example C21_ex : default_accepts (f64_of_Z (-1)) (f64_of_Z (-2)) (f64_of_Z (-1)) = false /\
  default_accepts (f64_of (-3) (-1)) (f64_of_Z (-2)) (f64_of_Z (-1)) = true.
Proof. split; vm_compute; reflexivity. Qed.

(** C21: the largest point is also dropped whenever it is positive but smaller
    than the range by a factor of at least 2^55. *)
Theorem C21_small_max_dropped : forall qmin qmax : f64,
  is_finite qmin = true -> 0 < B2R qmax ->
  B2R qmax * bpow radix2 55 <= - B2R qmin -> - B2R qmin < bpow radix2 1000 ->
  default_accepts qmax qmin qmax = false.
Proof. exact small_max_dropped. Qed.
Print Assumptions C21_small_max_dropped.
Example C21_ex2 : default_accepts (f64_of_Z 1) (f64_of (-1) 60) (f64_of_Z 1) = false.
Proof. vm_compute; reflexivity. Qed.

(** C21: even a non-negative range can lose its largest point to rounding ties. *)
Theorem C21_kept_refuted : exists qmin qmax : f64,
  is_finite qmin = true /\ is_finite qmax = true /\
  fltb fzero qmin = true /\ fltb qmin qmax = true /\
  default_accepts qmax qmin qmax = false.
Proof. exists (f64_of 1 (-53)), (f64_of 3 (-1)). vm_compute. repeat split. Qed.
Print Assumptions C21_kept_refuted.

(** C21: where the padding does work: a non-negative range whose width is exactly
    representable keeps its largest point. *)
Theorem C21_exact_range_kept : forall qmin qmax : f64,
  is_finite qmin = true -> 0 <= B2R qmin -> B2R qmin < B2R qmax ->
  generic_format radix2 (FLT_exp (-1074) 53) (B2R qmax - B2R qmin) ->
  succ radix2 (FLT_exp (-1074) 53) (B2R qmax) < bpow radix2 1024 ->
  default_accepts qmax qmin qmax = true.
Proof. exact exact_range_kept. Qed.
Print Assumptions C21_exact_range_kept.
Example C21_ex3 : B2R (f64_of_Z 1) < B2R (f64_of_Z 3) /\
  generic_format radix2 (FLT_exp (-1074) 53) (B2R (f64_of_Z 3) - B2R (f64_of_Z 1)) /\
  default_accepts (f64_of_Z 3) (f64_of_Z 1) (f64_of_Z 3) = true.
Proof.
  rewrite (proj1 (f64_of_Z_ok 1 ltac:(lia))), (proj1 (f64_of_Z_ok 3 ltac:(lia))).
  split; [lra|]. split; [|vm_compute; reflexivity].
  replace (3 - 1) with (IZR 2) by lra. apply Z_format. lia.
Qed.

(** C23: a coordinate below the lower bound, or not below the upper one, is given no bin. *)
Theorem C23_outside : forall (pos low high : f64) (nbin : Z), is_finite pos = true -> is_finite low = true -> is_finite high = true ->
  B2R pos < B2R low \/ B2R high <= B2R pos -> find_indices pos low high nbin = (-1)%Z.
Proof.
  intros pos low high nbin Fp Fl Fh H. unfold find_indices. rewrite fleb_ok, fltb_ok by assumption.
  destruct H as [H|H]; [rewrite (Rle_bool_false _ _ H); reflexivity|]. rewrite (Rlt_bool_false _ _ H), Bool.andb_false_r. reflexivity.
Qed.
Print Assumptions C23_outside.
Example C23_outside_ex : find_indices (f64_of_Z 5) (f64_of_Z 0) (f64_of_Z 5) 10 = (-1)%Z /\ find_indices (f64_of_Z (-1)) (f64_of_Z 0) (f64_of_Z 5) 10 = (-1)%Z.
Proof. vm_compute. split; reflexivity. Qed.

(** C23: an accepted coordinate can be given the index nbins. *)
Theorem C23_index_below_nbins_refuted : exists (pos low high : f64) (nbin : Z),
  fleb low pos = true /\ fltb pos high = true /\ (1 <= nbin)%Z /\
  find_indices pos low high nbin = nbin.
Proof. exists fzero, (f64_of_Z (-1)), (f64_of 1 (-60)), 2%Z. vm_compute. repeat split; discriminate. Qed.
Print Assumptions C23_index_below_nbins_refuted.

(** C23: with a bin width that is not subnormal the index never exceeds nbins. *)
Theorem C23_index_at_most_nbins : forall (pos low high : f64) (nbin : Z),
  is_finite pos = true -> is_finite low = true -> is_finite high = true ->
  B2R low <= B2R pos -> B2R pos < B2R high -> is_finite (fsub high low) = true ->
  (1 <= nbin <= 2 ^ 50)%Z ->
  bpow radix2 (-1021) <= B2R (hist_binsize low high nbin) ->
  is_finite (hist_binsize low high nbin) = true ->
  (0 <= find_indices pos low high nbin <= nbin)%Z.
Proof. exact hist_index_le. Qed.
Print Assumptions C23_index_at_most_nbins.
Example C23_ex : find_indices (f64_of_Z 4) (f64_of_Z 0) (f64_of_Z 5) 10 = 8%Z.
Proof. vm_compute. reflexivity. Qed.

(** C23: with a subnormal bin width the index can be any distance past the end. *)
Theorem C23_subnormal_refuted : exists (pos low high : f64) (nbin : Z),
  fleb low pos = true /\ fltb pos high = true /\ (1 <= nbin)%Z /\
  (find_indices pos low high nbin > nbin)%Z.
Proof.
  exists (f64_of 13 (-1074)), fzero, (f64_of 14 (-1074)), 10%Z. vm_compute. repeat split; discriminate.
Qed.
Print Assumptions C23_subnormal_refuted.

(** C23: when the differences and the bin width are exact the index is in range. *)
Theorem C23_exact_in_range : forall (pos low high : f64) (nbin : Z),
  is_finite pos = true -> is_finite low = true -> is_finite high = true ->
  B2R low <= B2R pos -> B2R pos < B2R high -> is_finite (fsub high low) = true ->
  (1 <= nbin <= 2 ^ 50)%Z ->
  B2R (fsub pos low) = B2R pos - B2R low -> B2R (fsub high low) = B2R high - B2R low ->
  B2R (hist_binsize low high nbin) * IZR nbin = B2R high - B2R low ->
  (0 <= find_indices pos low high nbin < nbin)%Z.
Proof. exact hist_exact_safe. Qed.
Print Assumptions C23_exact_in_range.
(* largest double below 1, unit range, 4 bins *)
Example C23_ex2 : find_indices (f64_of (2 ^ 53 - 1) (-53)) fzero fone 4 = 3%Z.
Proof. vm_compute. reflexivity. Qed.
