(* C31, C32, C33 and C70: masks. *)
From Coq Require Import Reals.
From Verif Require Import Common Roi_Model Mask_Model Mask_Spec Mask_Proofs.

(** C31: margin keeps exactly the pixels at least e away from every border ... *)
Theorem C31_margin : forall h w e i j, (0 < e)%Z -> i < h -> j < w ->
  get2 (margin h w e) i j = Some true <->
  (e <= Z.of_nat i < Z.of_nat h - e)%Z /\ (e <= Z.of_nat j < Z.of_nat w - e)%Z.
Proof. exact margin_ok. Qed.
Print Assumptions C31_margin.
Theorem C31_margin_shape : forall h w e, length (margin h w e) = h /\ Forall (fun r => length r = w) (margin h w e).
Proof. exact margin_shape. Qed.
Print Assumptions C31_margin_shape.
(** ... but a margin of 0 masks every pixel. *)
Theorem C31_margin_zero : forall h w i j, i < h -> j < w -> get2 (margin h w 0) i j = Some false.
Proof. exact margin_zero. Qed.
Print Assumptions C31_margin_zero.
Example C31_ex : margin 3 4 1 = [[false; false; false; false]; [false; true; true; false]; [false; false; false; false]].
Proof. reflexivity. Qed.
Example C31_ex2 : margin 2 2 0 = [[false; false]; [false; false]]. Proof. reflexivity. Qed.

(** C32: every yield is the same array (the caller's mask if one was given); at the
    k-th yield a pixel of it is 0 iff one of the first k images reached the
    threshold there, else its initial value; nothing else is written; and a list of
    the yields shows the final mask in every entry. *)
Theorem C32_threshold : forall h images vals t mask a m0 N, images <> [] ->
  Forall2 (fun im v => nth_error h im = Some v /\ length v = N /\ im <> a) images vals -> start h N mask a m0 ->
  exists ys, threshold h images t mask = Some ys /\ length ys = length images /\
    (forall k y hp, nth_error ys k = Some (y, hp) -> y = a /\
      (forall b, b < length h -> b <> a -> nth_error hp b = nth_error h b) /\
      exists mk, nth_error hp a = Some mk /\ length mk = N /\
        forall p, p < N -> exists v, nth_error mk p = Some v /\ seen t (firstn (S k) vals) m0 p v) /\
    exists final, collected ys = repeat (Some final) (length images) /\ length final = N /\
      forall p, p < N -> exists v, nth_error final p = Some v /\ seen t vals m0 p v.
Proof. exact threshold_ok. Qed.
Print Assumptions C32_threshold.
Example C32_ex : let h := [[qz 5; qz 1]; [qz 1; qz 5]; [qz 1; qz 1]] in
  option_map (map (fun y => (fst y, nth_error (snd y) 2))) (threshold h [0; 1] (qz 3) (Some 2))
  = Some [(2, Some [qz 0; qz 1]); (2, Some [qz 0; qz 0])] /\
  option_map collected (threshold h [0; 1] (qz 3) (Some 2)) = Some [Some [qz 0; qz 0]; Some [qz 0; qz 0]].
Proof. split; vm_compute; reflexivity. Qed.
Example C32_ex2 : start [[qz 5; qz 1]; [qz 1; qz 5]; [qz 1; qz 1]] 2 (Some 2) 2 [qz 1; qz 1] /\
  start [[qz 5; qz 1]] 2 None 1 [qz 1; qz 1].
Proof. split; [left; auto|right; repeat split]. Qed.

Local Open Scope R_scope.
(** C33: a pixel survives iff it was unmasked and lies strictly within a standard
    deviations of the mean of the bin it is compared with. *)
Theorem C33_outlier : forall img r alpha bins mask, strictly_increasing bins -> (2 <= length bins)%nat ->
  let m := match mask with Some m => m | None => map (fun _ => true) img end in
  let n := (length bins - 1)%nat in
  length m = length img -> length r = length img -> (forall l, alpha = AArray l -> length l = n) ->
  exists out, binned_outlier img r alpha bins mask = Some out /\ length out = length img /\
  forall p x v b k a, nth_error r p = Some x -> nth_error img p = Some v -> nth_error m p = Some b ->
    compared_with bins k x -> match alpha with AOne c => a = c | ATuple c d => spread c d n k a | AArray l => nth_error l k = Some a end ->
    (nth_error out p = Some true <-> b = true /\
       exists vs mu sd, bin_values bins r img m k vs /\ is_mean vs mu /\ is_std vs mu sd /\ mu - a * sd < v < mu + a * sd).
Proof. exact outlier_given. Qed.
Print Assumptions C33_outlier.
(** C33: strictly inside a bin that is the pixel's own bin ... *)
Theorem C33_inside_own_bin : forall bins k x lo hi,
  nth_error bins k = Some lo -> nth_error bins (k + 1) = Some hi -> lo < x < hi -> compared_with bins k x.
Proof. exact compared_inside. Qed.
Print Assumptions C33_inside_own_bin.
(** ... on an edge it is the bin below ... *)
Theorem C33_edge_bin_below : forall bins k lo hi, strictly_increasing bins ->
  nth_error bins k = Some lo -> nth_error bins (k + 1) = Some hi -> compared_with bins k hi.
Proof. exact compared_edge. Qed.
Print Assumptions C33_edge_bin_below.
(** ... and on the first edge it is the last bin. *)
Theorem C33_first_edge_last_bin : forall bins lo, (2 <= length bins)%nat -> nth_error bins 0 = Some lo ->
  compared_with bins (length bins - 2) lo.
Proof. exact compared_first. Qed.
Print Assumptions C33_first_edge_last_bin.
(** C33: so a pixel on an inner edge can be masked although it is within the limits
    of the bin it was averaged into. *)
Theorem C33_own_bin_refuted : exists img r bins a out p k mu sd vs,
  binned_outlier img r (AOne a) bins None = Some out /\
  (exists x, nth_error r p = Some x /\ in_stat_bin bins k x) /\
  bin_values bins r img (map (fun _ => true) img) k vs /\ is_mean vs mu /\ is_std vs mu sd /\
  (exists v, nth_error img p = Some v /\ mu - a * sd < v < mu + a * sd) /\ nth_error out p = Some false.
Proof. exact edge_refuted. Qed.
Print Assumptions C33_own_bin_refuted.
Example C33_ex : strictly_increasing [0; 1; 2] /\ bin_values [0; 1; 2] ex_r ex_img [true; true; true; true] 1 [10; 12].
Proof. exact (conj ex_strict ex_values1). Qed.
Local Close Scope R_scope.

(** C70: bad_to_nan_gen replaces exactly the images whose index is listed (images of
    equal size). *)
Theorem C70_bad_to_nan : forall N images bad, Forall (fun im => length im = N) images ->
  length (bad_to_nan_gen images bad) = length images /\
  forall k im, nth_error images k = Some im ->
    (In (Z.of_nat k) bad -> nth_error (bad_to_nan_gen images bad) k = Some (repeat None N)) /\
    (~ In (Z.of_nat k) bad -> nth_error (bad_to_nan_gen images bad) k = Some im).
Proof. exact bad_to_nan_ok. Qed.
Print Assumptions C70_bad_to_nan.
Example C70_ex : bad_to_nan_gen [[Some (qz 1)]; [Some (qz 2)]; [Some (qz 3)]] [2; 0; -2]%Z = [[None]; [Some (qz 2)]; [None]].
Proof. reflexivity. Qed.
(** C70: with images of different sizes the NaN array has the wrong size. *)
Theorem C70_sizes_refuted : exists images bad k im out, In (Z.of_nat k) bad /\ nth_error images k = Some im /\
  nth_error (bad_to_nan_gen images bad) k = Some out /\ length out <> length im.
Proof. exact bad_sizes_refuted. Qed.
Print Assumptions C70_sizes_refuted.
