(* Property theorems C13, C14, C15, C16, C18. *)
From Verif Require Import Common Utils_Model Utils_Spec Utils_Proofs.

(** C13 *)
Theorem C13_subtract_reference : forall A (sub : A -> A -> A) imgs refs,
  (subtract_reference_images sub imgs refs = None <->
     imgs = [] \/ nth_error refs 0 <> Some true) /\
  forall outs, subtract_reference_images sub imgs refs = Some outs ->
    length outs = count_false (firstn (length imgs) refs) /\
    forall i im, nth_error imgs i = Some im -> nth_error refs i = Some false ->
      exists r ir, last_ref_before refs i r /\ nth_error imgs r = Some ir /\
        nth_error outs (count_false (firstn i refs)) = Some (sub im ir).
Proof. exact @subref_ok. Qed.
Print Assumptions C13_subtract_reference.
Example C13_ex : subtract_reference_images Z.sub [10; 15; 17; 20; 26]%Z [true; false; false; true; false]
  = Some [5; 7; 6]%Z.
Proof. reflexivity. Qed.

(** C14: right on square images. *)
Theorem C14_square : forall s img cx cy px py a b, sizes_ok px py a b -> length img = s * s ->
  exists xs ys, img_to_relative_xyi s s img cx cy px py = Some (xs, ys, img) /\
    forall row col, row < s -> col < s ->
      nth_error xs (row * s + col) = Some (a * (qn col - cx))%Qc /\
      nth_error ys (row * s + col) = Some (b * (qn row - cy))%Qc.
Proof. exact xyi_square. Qed.
Print Assumptions C14_square.
Example C14_ex1 : sizes_ok None None 1 1 /\ length (map qn [1; 2; 3; 4]) = 2 * 2.
Proof. split; [left; auto|reflexivity]. Qed.
(** C14: wrong on every non-square image: some pixel gets another column's offset. *)
Theorem C14_nonsquare_refuted : forall s0 s1 img cx cy px py a b, sizes_ok px py a b ->
  length img = s0 * s1 -> 1 <= s0 -> 1 <= s1 -> s0 <> s1 ->
  exists xs ys row col, img_to_relative_xyi s0 s1 img cx cy px py = Some (xs, ys, img) /\
    row < s0 /\ col < s1 /\
    nth_error xs (row * s1 + col) <> Some (a * (qn col - cx))%Qc.
Proof. exact xyi_nonsquare. Qed.
Print Assumptions C14_nonsquare_refuted.
Example C14_ex2 : option_map (fun r => map this (fst (fst r)))
  (img_to_relative_xyi 2 3 (map qn [1; 2; 3; 4; 5; 6]) 0 0 None None) = Some [0; 1; 0; 1; 0; 1]%Q.
Proof. vm_compute. reflexivity. Qed.
(** C14: pixel sizes are accepted iff both absent or both positive. *)
Theorem C14_pixel_sizes : forall px py, match xyi_sizes px py with
  | Some (a, b) => sizes_ok px py a b | None => forall a b, ~ sizes_ok px py a b end.
Proof. exact xyi_sizes_ok. Qed.
Print Assumptions C14_pixel_sizes.
Example C14_ex3 : xyi_sizes (Some 1%Qc) None = None. Proof. reflexivity. Qed.

(** C15: edges, per-bin sums and counts, totals, and the partition of the range. *)
Theorem C15_bin_1D : forall x y n lo hi, length x = length y -> (0 < n)%Z -> (lo <= hi)%Qc ->
  let N := Z.to_nat n in
  exists bins val count, bin_1D x y (Some n) (Some lo) (Some hi) = Some (bins, val, count) /\
    length bins = S N /\ length val = N /\ length count = N /\
    (forall k, k <= N -> nth_error bins k = Some (bin_edge lo hi N k)) /\
    (forall k, k < N -> exists v c, nth_error val k = Some v /\ nth_error count k = Some c /\
       weight (in_bin lo hi N k) (combine x y) v /\
       weight (in_bin lo hi N k) (map (fun s => (s, 1%Qc)) x) c) /\
    weight (fun s => (lo <= s)%Qc /\ (s <= hi)%Qc) (combine x y) (qsum val) /\
    weight (fun s => (lo <= s)%Qc /\ (s <= hi)%Qc) (map (fun s => (s, 1%Qc)) x) (qsum count) /\
    (forall s, (lo <= s)%Qc -> (s <= hi)%Qc -> exists k, k < N /\ in_bin lo hi N k s /\
       forall j, j < N -> in_bin lo hi N j s -> j = k) /\
    (forall s k, k < N -> in_bin lo hi N k s -> (lo <= s)%Qc /\ (s <= hi)%Qc).
Proof. exact bin_1D_ok. Qed.
Print Assumptions C15_bin_1D.
Example C15_ex : option_map (fun r => (map this (fst (fst r)), map this (snd (fst r)), map this (snd r)))
  (bin_1D (map qz [0; 1; 2; 4; 5; -1]%Z) (map qz [10; 20; 30; 40; 50; 60]%Z) (Some 2%Z) (Some (qz 0)) (Some (qz 4)))
  = Some ([0; 2; 4], [30; 70], [2; 2])%Q.
Proof. vm_compute. reflexivity. Qed.
(** The defaults are the data range, so no sample is lost. *)
Theorem C15_defaults : forall x y n, x <> [] ->
  exists lo hi, In lo x /\ In hi x /\ (forall s, In s x -> (lo <= s)%Qc /\ (s <= hi)%Qc) /\
    bin_1D x y n None None = bin_1D x y n (Some lo) (Some hi).
Proof. exact bin_1D_defaults. Qed.
Print Assumptions C15_defaults.
Example C15_ex_defaults : option_map (fun r => map this (snd (fst r)))
  (bin_1D (map qz [3; 1; 2]%Z) (map qz [10; 20; 30]%Z) (Some 2%Z) None None) = Some [20; 40]%Q.
Proof. vm_compute. reflexivity. Qed.
(** An inverted range is an error. *)
Theorem C15_inverted : forall x y n lo hi, (0 < n)%Z -> (hi < lo)%Qc ->
  bin_1D x y (Some n) (Some lo) (Some hi) = None.
Proof. exact bin_1D_inverted. Qed.
Print Assumptions C15_inverted.
Example C15_ex_inverted : (qz 1 < qz 2)%Qc. Proof. reflexivity. Qed.
(** With the default number of bins, data spanning less than one unit gets no bin at
    all: every sample is dropped without an error. *)
Theorem C15_default_bins_refuted : exists x y bins val count, x <> [] /\
  bin_1D x y None None None = Some (bins, val, count) /\ val = [] /\ count = [].
Proof.
  exists [qz 0; (qz 1 / qz 2)%Qc], [qz 7; qz 8]. do 3 eexists.
  split; [discriminate|]. split; [vm_compute; reflexivity|]. split; reflexivity.
Qed.
Print Assumptions C15_default_bins_refuted.

(** C16: rejections. *)
Theorem C16_rejects : forall rmin rmax nb st,
  opt_n rmin + opt_n rmax + opt_n st + opt_n nb <> 3 \/
  (exists a b, rmin = Some a /\ rmax = Some b /\ (b <= a)%Qc) \/
  (exists n, nb = Some n /\ (n <= 0)%Z) \/
  (exists a b s, rmin = Some a /\ rmax = Some b /\ nb = None /\ st = Some s /\ (b - a < s)%Qc) ->
  bin_edges rmin rmax nb st = BE_ValueError.
Proof. exact be_rejects. Qed.
Print Assumptions C16_rejects.
Example C16_ex1 : bin_edges (Some (qz 0)) (Some (qz 1)) (Some 3%Z) (Some (qz 1)) = BE_ValueError.
Proof. vm_compute. reflexivity. Qed.
(** C16: (min, max, nbins). *)
Theorem C16_min_max_nbins : forall a b n, (a < b)%Qc -> (0 < n)%Z ->
  exists l, bin_edges (Some a) (Some b) (Some n) None = BE_value l /\
    is_grid l a ((b - a) / qz n)%Qc (S (Z.to_nat n)) /\
    nth_error l (Z.to_nat n) = Some b.
Proof. exact be_three. Qed.
Print Assumptions C16_min_max_nbins.
Example C16_ex_mmn : match bin_edges (Some (qz 0)) (Some (qz 3)) (Some 2%Z) None with
  BE_value l => map this l | _ => [] end = [0; 3 # 2; 3]%Q.
Proof. vm_compute. reflexivity. Qed.
(** C16: (min, max, step): starts at min, never exceeds max, stops less than a step short. *)
Theorem C16_min_max_step : forall a b s, (a < b)%Qc -> (0 < s)%Qc -> (s <= b - a)%Qc ->
  exists l m, bin_edges (Some a) (Some b) None (Some s) = BE_value l /\
    1 <= m /\ is_grid l a s (S m) /\ (a + qn m * s <= b)%Qc /\ (b - (a + qn m * s) < s)%Qc.
Proof. exact be_min_max_step. Qed.
Print Assumptions C16_min_max_step.
Example C16_ex2 : match bin_edges (Some (qz 0)) (Some (qz 10)) None (Some (qz 3)) with
  BE_value l => map this l | _ => [] end = [0; 3; 6; 9]%Q.
Proof. vm_compute. reflexivity. Qed.
(** C16: (min, nbins, step) and (max, nbins, step). *)
Theorem C16_min_nbins_step : forall a n s, (0 < n)%Z ->
  exists l, bin_edges (Some a) None (Some n) (Some s) = BE_value l /\ is_grid l a s (S (Z.to_nat n)).
Proof. exact be_min_n_step. Qed.
Print Assumptions C16_min_nbins_step.
Example C16_ex_mns : match bin_edges (Some (qz 1)) None (Some 2%Z) (Some (qz 3)) with
  BE_value l => map this l | _ => [] end = [1; 4; 7]%Q.
Proof. vm_compute. reflexivity. Qed.
Theorem C16_max_nbins_step : forall b n s, (0 < n)%Z ->
  exists l, bin_edges None (Some b) (Some n) (Some s) = BE_value l /\
    is_grid l (b - qz n * s)%Qc s (S (Z.to_nat n)) /\ nth_error l (Z.to_nat n) = Some b.
Proof. exact be_max_n_step. Qed.
Print Assumptions C16_max_nbins_step.
Example C16_ex3 : match bin_edges None (Some (qz 10)) (Some 2%Z) (Some (qz 3)) with
  BE_value l => map this l | _ => [] end = [4; 7; 10]%Q.
Proof. vm_compute. reflexivity. Qed.
(** C16: a step <= 0 is an error (not a ValueError) when both ends are given ... *)
Theorem C16_bad_step : forall a b s, (s <= 0)%Qc -> (a < b)%Qc ->
  bin_edges (Some a) (Some b) None (Some s) = BE_OtherError.
Proof. exact be_bad_step. Qed.
Print Assumptions C16_bad_step.
Example C16_ex_bad : (qz (-1) <= 0)%Qc /\ (qz 0 < qz 1)%Qc. Proof. split; [discriminate|reflexivity]. Qed.
(** ... but is accepted when one end is missing, and the edges then leave the range
    the documentation promises ("all bin edges will be greater than or equal"). *)
Theorem C16_negative_step_refuted : exists a n s l x, (s < 0)%Qc /\
  bin_edges (Some a) None (Some n) (Some s) = BE_value l /\ In x l /\ (x < a)%Qc.
Proof.
  exists (qz 0), 1%Z, (qz (-1)). eexists. exists (qz (-1)).
  split; [reflexivity|]. split; [reflexivity|]. split; [right; left; reflexivity|reflexivity].
Qed.
Print Assumptions C16_negative_step_refuted.

(** C18 *)
Theorem C18_terminates : forall r n a, (1 < r)%Qc -> (0 < a)%Qc ->
  exists fuel l, geometric_series fuel r n a = Some l.
Proof. exact geo_terminates. Qed.
Print Assumptions C18_terminates.
Example C18_ex0 : (1 < qz 2)%Qc /\ (0 < qz 1)%Qc. Proof. split; reflexivity. Qed.
(** The result is a, then exactly the a*r^k strictly below n, in order. *)
Theorem C18_terms : forall r n a fuel l, (1 < r)%Qc -> (0 < a)%Qc ->
  geometric_series fuel r n a = Some l ->
  (forall x, In x l <-> x = a \/ exists k, x = (a * qpow r k)%Qc /\ (x < n)%Qc /\ 1 <= k) /\
  (forall i x y, nth_error l i = Some x -> nth_error l (S i) = Some y -> y = (x * r)%Qc) /\
  nth_error l 0 = Some a.
Proof. exact geo_complete. Qed.
Print Assumptions C18_terms.
Example C18_ex : option_map (map this) (geometric_series 20 (qz 2) (qz 64) (qz 1)) = Some [1; 2; 4; 8; 16; 32]%Q.
Proof. vm_compute. reflexivity. Qed.
(** The documented bound "less than or equal to number of images" is not met with
    equality: 64 images, ratio 2, the term 64 is missing. *)
Theorem C18_equal_term_refuted : exists r n a fuel l k,
  geometric_series fuel r n a = Some l /\ (a * qpow r k = n)%Qc /\ ~ In n l.
Proof.
  exists (qz 2), (qz 4), (qz 1), 5. eexists. exists 2.
  split; [vm_compute; reflexivity|]. split; [vm_compute; reflexivity|].
  intros [E|[E|[]]]; apply (f_equal this) in E; vm_compute in E; discriminate.
Qed.
Print Assumptions C18_equal_term_refuted.
(** A ratio in [0, 1] never terminates. *)
Theorem C18_diverges : forall r n a, (0 <= r)%Qc -> (r <= 1)%Qc -> (0 < a)%Qc -> (a * r < n)%Qc ->
  forall fuel, geometric_series fuel r n a = None.
Proof. exact geo_diverges. Qed.
Print Assumptions C18_diverges.
Example C18_ex2 : (0 <= qz 1)%Qc /\ (qz 1 <= 1)%Qc /\ (0 < qz 1)%Qc /\ (qz 1 * qz 1 < qz 10)%Qc.
Proof. repeat split; vm_compute; try reflexivity; discriminate. Qed.
