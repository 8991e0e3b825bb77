(* C49, C84-C86: linear fitting of spectra. *)
From Coq Require Import Reals.
From Verif Require Import Common QcArith Xrf_Model XrfFit_Model XrfFit_Proofs.
From Coq Require Import Lra.
Open Scope list_scope.
Local Open Scope R_scope.

(** C49: without use_snip a non-empty map raises UnboundLocalError. *)
Theorem C49_unbound nnls snip y data M : fit_per_line_nnls nnls snip (y :: data) M false = UnboundLocal.
Proof. exact (fit_unbound nnls snip y data M). Qed.
Print Assumptions C49_unbound.
(** C49: with it, every spectrum is fitted by itself. *)
Theorem C49_rows nnls snip M data : fit_per_line_nnls nnls snip data M true =
  Ret (map (fun y => let '(x, r) := nnls M (zipw Rminus y (snip y)) in (x, rsum (snip y), goodness y r)) data).
Proof. exact (fit_snip nnls snip M data). Qed.
Print Assumptions C49_rows.
(** C49: the goodness is one minus the residual over the sum of squares about the mean, nan for a flat spectrum *)
Theorem C49_goodness y r m S : m * INR (length y) = fold_right Rplus 0 y -> y <> [] -> S = fold_right Rplus 0 (map (fun v => (v - m) ^ 2) y) ->
  (S <> 0 -> goodness y r = Some (1 - r / S)) /\ (S = 0 -> goodness y r = None).
Proof.
  intros Hm Hy HS. assert (N : INR (length y) <> 0) by (destruct y; [contradiction|]; apply not_0_INR; discriminate).
  assert (E : sst y = S).
  { rewrite HS. unfold sst, rsum. f_equal. apply map_ext. intros v. replace (mean y) with m; [ring|].
    unfold mean, rsum. rewrite <- Hm. field. exact N. }
  unfold goodness. rewrite E. destruct (Req_EM_T S 0); split; intros; try contradiction; reflexivity.
Qed.
Print Assumptions C49_goodness.
(** C49: counting c times as long scales the best fit and its residual by c, *)
Theorem C49_fit_scales M y x r c : 0 < c -> is_nnls M y x r -> is_nnls M (map (Rmult c) y) (map (Rmult c) x) (c * r).
Proof. exact (nnls_scale M y x r c). Qed.
Print Assumptions C49_fit_scales.
(** ... the residual does not depend on which best fit was found, *)
Theorem C49_residual_unique M y x r x' r' : is_nnls M y x r -> is_nnls M y x' r' -> length x = length x' -> r = r'.
Proof. exact (nnls_unique M y x r x' r'). Qed.
Print Assumptions C49_residual_unique.
(** ... and moves the goodness reported from g to 1 - (1 - g) / c, *)
Theorem C49_goodness_scales y r c g : c <> 0 -> goodness y r = Some g -> goodness (map (Rmult c) y) (c * r) = Some (1 - (1 - g) / c).
Proof. exact (goodness_scale y r c g). Qed.
Print Assumptions C49_goodness_scales.
(** ... which the coefficient of determination is not. *)
Theorem C49_r_squared_invariant y r c : c <> 0 -> sst y <> 0 -> r_squared (map (Rmult c) y) (c * r) = r_squared y r.
Proof. exact (r_squared_scale y r c). Qed.
Print Assumptions C49_r_squared_invariant.
(** A best fit of one column to (1, 3), and the goodness at two exposures. *)
Example C49_ex : is_nnls [[1]; [1]] [1; 3] [2] (sqrt 2) /\ goodness [1; 3] (sqrt 2) = Some (1 - sqrt 2 / 2) /\
  goodness (map (Rmult 2) [1; 3]) (2 * sqrt 2) = Some (1 - sqrt 2 / 4).
Proof.
  assert (S : sst [1; 3] = 2) by (unfold sst, mean, rsum; cbn; lra).
  assert (G : goodness [1; 3] (sqrt 2) = Some (1 - sqrt 2 / 2)).
  { unfold goodness. rewrite S. destruct (Req_EM_T 2 0); [lra|reflexivity]. }
  split; [|split; [exact G|]].
  - split.
    + repeat constructor; lra.
    + f_equal. unfold sq_err, mulv, dotp, zipw, rsum. cbn. lra.
    + intros [|a [|b x]] L _; try discriminate L. unfold sq_err, mulv, dotp, zipw, rsum. cbn. pose proof (Rle_0_sqr (a - 2)) as Q. unfold Rsqr in Q. lra.
  - rewrite (goodness_scale _ _ 2 _ ltac:(lra) G). f_equal. lra.
Qed.

(** C84: with weights the fit minimises the weighted square error. *)
Theorem C84_weighted nnls M y w x r : Forall (Rle 0) w -> (forall A b, let '(x, r) := nnls A b in is_nnls A b x r) ->
  nnls_fit nnls y M (Some w) = (x, r) ->
  Forall (Rle 0) x /\ r = sqrt (werr M x y w) /\ forall x', length x' = length x -> Forall (Rle 0) x' -> werr M x y w <= werr M x' y w.
Proof.
  intros W N E. apply (nnls_weighted M y w x r W). cbn in E. specialize (N (weigh_rows M w) (weigh y w)). now rewrite E in N.
Qed.
Print Assumptions C84_weighted.
(** The weighted error is the sum of the weighted squares. *)
Example C84_ex : werr [[1]; [2]] [3] [5; 5] [2; 7] = 2 * (3 - 5) * (3 - 5) + 7 * (6 - 5) * (6 - 5) /\
  sq_err (weigh_rows [[1]; [2]] [4; 9]) [3] (weigh [5; 5] [4; 9]) = 4 * 4 + 9 * 1.
Proof.
  split; [unfold werr, mulv, dotp, zipw, rsum; cbn; lra|].
  rewrite weighted by (repeat constructor; lra). unfold werr, mulv, dotp, zipw, rsum; cbn; lra.
Qed.

(** C85: with distinct names the component spectra reported add up to the fitted spectrum. *)
Theorem C85_components names M out i row : NoDup names -> length names = length out ->
  Forall (fun r => length r = length out /\ Forall (Rle 0) r) M -> Forall (Rle 0) out -> nth_error M i = Some row ->
  rsum (map (fun p => nth i (snd p) 0) (spectra_dict names M out)) = dotp row out.
Proof. exact (components_sum names M out i row). Qed.
Print Assumptions C85_components.
(** C85: an element named twice loses one of its columns. *)
Theorem C85_duplicate_refuted : exists names M out, length names = length out /\
  Forall (fun r => length r = length out /\ Forall (Rle 0) r) M /\ Forall (Rle 0) out /\
  exists i row, nth_error M i = Some row /\ rsum (map (fun p => nth i (snd p) 0) (spectra_dict names M out)) <> dotp row out.
Proof. exact duplicate_lost. Qed.
Print Assumptions C85_duplicate_refuted.
(** C85: the component and the area reported for a name are its column times its coefficient and its
    area times its coefficient; a component that sums to zero is left out of both. *)
Theorem C85_reported names M out areas j nm x : NoDup names -> length names = length out -> nth_error names j = Some nm -> nth_error out j = Some x ->
  let spec := map (fun row => x * nth j row 0) M in
  (rsum spec = 0 -> aget (area_dict names M out areas) nm = None /\ aget (spectra_dict names M out) nm = None) /\
  (rsum spec <> 0 -> aget (area_dict names M out areas) nm = Some (x * areas nm) /\ aget (spectra_dict names M out) nm = Some spec).
Proof.
  intros N L Hn Hx. pose proof (areas_ok names M out areas j nm x N L Hn Hx) as H. unfold column in H. rewrite map_map in H. exact H.
Qed.
Print Assumptions C85_reported.
Example C85_reported_ex : aget (area_dict ["Fe_K"; "compton"]%string [[1; 0]; [2; 0]] [3; 4] (fun _ => 10)) "Fe_K" = Some (3 * 10).
Proof.
  destruct (C85_reported ["Fe_K"; "compton"]%string [[1; 0]; [2; 0]] [3; 4] (fun _ => 10) 0 "Fe_K"%string 3) as [_ H]; [|reflexivity|reflexivity|reflexivity|].
  - repeat constructor; cbn; intuition discriminate.
  - apply H. unfold rsum. cbn. lra.
Qed.
(** C85: the map of areas: coefficient times the sum of the column, times the share of the first
    line when that is asked for and the name is an elemental line; *)
Theorem C85_area names M results ratio fp i : NoDup names -> (i < length names)%nat -> ~ In "snip_bkg"%string names -> ~ In "r_squared"%string names ->
  aget (calculate_area names M results ratio fp) (nth i names EmptyString) =
  Some (rsum (map (Rmult (nth i results 0)) (column M i)) *
        (if fp then if mem (nth i names EmptyString) (K_LINE ++ L_LINE ++ M_LINE) then ratio (nth i names EmptyString) else 1 else 1)).
Proof. exact (area_map names M results ratio fp i). Qed.
Print Assumptions C85_area.
(** ... and the last two planes are the background and the goodness. *)
Theorem C85_extra names M results ratio fp : length results = (length names + 2)%nat ->
  aget (calculate_area names M results ratio fp) "snip_bkg" = Some (nth (length names) results 0) /\
  aget (calculate_area names M results ratio fp) "r_squared" = Some (nth (length names + 1) results 0).
Proof. exact (area_extra names M results ratio fp). Qed.
Print Assumptions C85_extra.
Example C85_ex : spectra_dict ["Fe_K"; "compton"]%string [[1; 0]; [2; 0]] [3; 4] = [("Fe_K"%string, [3 * 1; 3 * 2])] /\
  aget (calculate_area ["Fe_K"; "compton"]%string [[1; 0]; [2; 1]] [3; 4; 8; 9] (fun _ => 1 / 2) true) "Fe_K" = Some (3 * (1 + (2 + 0)) * (1 / 2)).
Proof.
  split; [|reflexivity]. unfold spectra_dict. cbn [combine total_y length seq map nth column fold_left fst snd].
  destruct (Req_EM_T (rsum [3 * 1; 3 * 2]) 0) as [E|_]; [unfold rsum in E; cbn in E; lra|].
  destruct (Req_EM_T (rsum [4 * 0; 4 * 0]) 0) as [_|E]; [reflexivity|]. exfalso. apply E. unfold rsum. cbn. lra.
Qed.

(** C86: every channel whose energy lies in the range asked for is kept, *)
Theorem C86_inside {A} (data : list A) low high a0 a1 k v : (0 < a1)%Qc -> (0 <= k)%Z -> nth_error data (Z.to_nat k) = Some v ->
  (low <= a0 + a1 * qz k)%Qc -> (a0 + a1 * qz k <= high)%Qc ->
  exists l, define_range data low high a0 a1 = Some l /\ In (k, v) l.
Proof. exact (range_inside data low high a0 a1 k v). Qed.
Print Assumptions C86_inside.
(** ... nothing further than half a channel outside it is, with the count it had, *)
Theorem C86_near {A} (data : list A) low high a0 a1 l k v : (0 < a1)%Qc -> define_range data low high a0 a1 = Some l -> In (k, v) l ->
  nth_error data (Z.to_nat k) = Some v /\ (0 <= k)%Z /\
  (low - a1 * Q2Qc (1 # 2) <= a0 + a1 * qz k)%Qc /\ (a0 + a1 * qz k <= high + a1 * Q2Qc (1 # 2))%Qc.
Proof. exact (range_near data low high a0 a1 l k v). Qed.
Print Assumptions C86_near.
(** ... in the order of the channels. *)
Theorem C86_sorted {A} (data : list A) low high a0 a1 l : define_range data low high a0 a1 = Some l -> Sorted.StronglySorted Z.lt (map fst l).
Proof.
  unfold define_range. destruct (Qc_eqb a1 0%Qc); [discriminate|]. intros E. injection E as <-. apply trim_sorted.
Qed.
Print Assumptions C86_sorted.
(** C86: trim on any axis keeps exactly the pairs between the limits, both included. *)
Theorem C86_trim {A} (x : list Z) (y : list A) low high p : In p (trim x y low high) <-> In p (combine x y) /\ (low <= fst p <= high)%Z.
Proof. unfold trim. rewrite filter_In, andb_true_iff, !Z.leb_le. reflexivity. Qed.
Print Assumptions C86_trim.
(** C86: with a negative calibration slope the result is empty. *)
Theorem C86_negative {A} (data : list A) low high a0 a1 : (a1 < 0)%Qc -> (- a1 < high - low)%Qc -> define_range data low high a0 a1 = Some [].
Proof. exact (range_negative data low high a0 a1). Qed.
Print Assumptions C86_negative.
(** Channels of 1/100 keV; 0.015 and 0.045 fall between channels. *)
Example C86_ex : define_range [5; 6; 7; 8; 9; 4]%Z (Q2Qc (15 # 1000)) (Q2Qc (45 # 1000)) 0%Qc (Q2Qc (1 # 100)) = Some [(2, 7); (3, 8); (4, 9)]%Z.
Proof. reflexivity. Qed.
