(* C43: speckle visibility spectroscopy. *)
From Coq Require Import Sorted.
From Verif Require Import Common Roi_Model Roi_Spec Xsvs_Model Xsvs_Spec Xsvs_Proofs.

(** C43: one image set.  For every number of levels, every timebin_num >= 2 and every sequence
    of good and bad images the result is the mean over the good frames of the histogram of the
    level's image, that image being the binomially weighted sum of the last l + 1 frames; the
    standard deviation is that of those histograms. *)
Theorem C43_one_set T num_times labels max_cts imgs : 2 <= T -> 1 <= num_times ->
  (forall x, In (Some x) imgs -> length x = length labels) ->
  exists p v, xsvs exactly T num_times labels max_cts [imgs] = Some (p, v) /\ forall l j b, l < num_times ->
    let h := fun px => density max_cts l (roi_data labels px j) b in
    p l j b = mean_good (mixed (length labels) imgs l) h (length imgs) /\
    v l j b = (mean_good (mixed (length labels) imgs l) (fun px => h px * h px) (length imgs) - p l j b * p l j b)%Qc.
Proof.
  intros HT Hn L. apply (xsvs_one_set exactly T num_times labels max_cts eq_refl (fun _ _ => eq_refl) HT Hn imgs).
  intros x I. split; [exact (L x I)|apply Forall_forall; reflexivity].
Qed.
Print Assumptions C43_one_set.
(** C43: the values of the j-th region are the pixels with the j-th smallest of the labels *)
Theorem C43_regions labels px j us lab : length px = length labels -> StronglySorted Z.lt us -> (forall z, In z us <-> In z labels) ->
  nth_error us j = Some lab -> picked (fun p => nth_error labels p = Some lab) 0 px (roi_data labels px j).
Proof. exact (roi_data_ok labels px j us lab). Qed.
Print Assumptions C43_regions.
Example C43_regions_ex : roi_data [3; 1; 3; 7]%Z [10; 20; 30; 40]%Z 1 = [10; 30]%Z.
Proof. reflexivity. Qed.
(** The weights of a level add up to 2^l, whatever timebin_num is, over only l + 1 frames. *)
Theorem C43_weights l : zsum (l + 1) (binom l) = (2 ^ Z.of_nat l)%Z.
Proof. exact (binom_total l). Qed.
Print Assumptions C43_weights.
(** Two regions of one pixel, three frames; at level 2 the middle frame counts twice. *)
Example C43_ex : mixed 2 [Some [1; 10]; Some [2; 20]; Some [4; 40]]%Z 2 2 = Some [1 + 2 * 2 + 4; 10 + 2 * 20 + 40]%Z /\
  mixed 2 [Some [1; 10]; None; Some [4; 40]; Some [5; 50]; Some [6; 60]]%Z 2 3 = None /\
  match xsvs exactly 2 3 [1; 1; 2]%Z 4 [[Some [0; 1; 2]; Some [1; 1; 1]; None; Some [2; 1; 0]]]%Z with
  | Some (p, _) => map (fun b => this (p 0 0 b)) [0; 1; 2] = [1 # 6; 2 # 3; 1 # 6]%Q
  | None => False
  end.
Proof. split; [vm_compute; reflexivity|]. split; vm_compute; reflexivity. Qed.
(** C43: the documented integration over 2^l separate frames is not what happens. *)
Theorem C43_distinct_frames_refuted : exists npix imgs n,
  (forall m, m < 4 -> exists x, nth_error imgs m = Some (Some x) /\ length x = npix) /\ n = 3 /\
  mixed npix imgs 2 n <> Some (map (fun p => zsum 4 (fun m => pixel imgs m p)) (seq 0 npix)).
Proof.
  exists 1, [Some [1]; Some [2]; Some [3]; Some [5]]%Z, 3. split; [|split; [reflexivity|vm_compute; discriminate]].
  intros [|[|[|[|m]]]] H; try lia; eexists; split; reflexivity.
Qed.
Print Assumptions C43_distinct_frames_refuted.
(** C43: the histogram.  Bin b holds the fraction of the pixels with exactly b counts, among
    those below max_cts 2^l; the last bin also takes those with one more. *)
Theorem C43_histogram max_cts l vals b : b + 2 <= max_cts * 2 ^ l ->
  let M := Z.of_nat (max_cts * 2 ^ l) in
  let total := length (filter (fun v => (0 <=? v)%Z && (v <? M)%Z) vals) in
  (density max_cts l vals b * qn total =
   qn (length (filter (fun v => (v =? Z.of_nat b)%Z) vals) + (if (Z.of_nat b + 2 =? M)%Z then length (filter (fun v => (v =? M - 1)%Z) vals) else 0)))%Qc \/
  total = 0 /\ density max_cts l vals b = 0%Qc.
Proof. exact (density_ok max_cts l vals b). Qed.
Print Assumptions C43_histogram.
(** C43: pixels at max_cts 2^l, the brightest pixel's value with the default max_cts, are
    dropped as if they were not there. *)
Theorem C43_brightest_dropped max_cts l vals b :
  density max_cts l vals b = density max_cts l (filter (fun v => (v <? Z.of_nat (max_cts * 2 ^ l))%Z) vals) b.
Proof. exact (density_drops max_cts l vals b). Qed.
Print Assumptions C43_brightest_dropped.
Example C43_hist_ex : map (fun b => this (density 3 0 [0; 1; 1; 2; 3; 3; 3]%Z b)) [0; 1; 2] = [1 # 4; 3 # 4; 0]%Q.
Proof. reflexivity. Qed.
(** C43: several sets.  Whatever the earlier sets gave, each image of the last one shrinks
    their influence by i / (i + 1). *)
Theorem C43_last_set T num_times labels max_cts sets1 sets1' imgs l j b : 2 <= T -> 1 <= num_times ->
  length sets1 = length sets1' -> l < num_times ->
  (forall s x, In s (sets1 ++ [imgs]) \/ In s (sets1' ++ [imgs]) -> In (Some x) s -> length x = length labels) ->
  exists p v p' v' q w q' w', xsvs exactly T num_times labels max_cts (sets1 ++ [imgs]) = Some (p, v) /\ xsvs exactly T num_times labels max_cts (sets1' ++ [imgs]) = Some (p', v') /\
    xsvs exactly T num_times labels max_cts sets1 = Some (q, w) /\ xsvs exactly T num_times labels max_cts sets1' = Some (q', w') /\
    (p l j b - p' l j b = qpow (qn (length sets1) / qn (length sets1 + 1)) (length imgs) * (q l j b - q' l j b))%Qc.
Proof.
  intros HT Hn El Hl W. apply (last_set_dominates exactly T num_times labels max_cts eq_refl (fun _ _ => eq_refl) HT Hn sets1 sets1' imgs l j b El Hl);
    apply Forall_forall; intros s I x Ix; (split; [apply (W s x); auto|apply Forall_forall; reflexivity]).
Qed.
Print Assumptions C43_last_set.
(** C43: so the result is not the mean of the sets' results, and their order matters. *)
Theorem C43_mean_of_sets_refuted : exists T num_times labels max_cts A B pA pB pAB pBA vA vB vAB vBA,
  xsvs exactly T num_times labels max_cts [A] = Some (pA, vA) /\ xsvs exactly T num_times labels max_cts [B] = Some (pB, vB) /\
  xsvs exactly T num_times labels max_cts [A; B] = Some (pAB, vAB) /\ xsvs exactly T num_times labels max_cts [B; A] = Some (pBA, vBA) /\
  pAB 0 0 0 <> ((pA 0%nat 0%nat 0%nat + pB 0%nat 0%nat 0%nat) / qn 2)%Qc /\ pAB 0 0 0 <> pBA 0 0 0.
Proof. exact mean_of_sets_wrong. Qed.
Print Assumptions C43_mean_of_sets_refuted.
(** C43: normalize_bin_edges divides edge k by the mean count of the region times 2^i; the
    centres are the midpoints. *)
Theorem C43_normalize num_times mean_roi max_cts i j k m : i < num_times -> nth_error mean_roi j = Some m -> k < max_cts * 2 ^ i -> m <> 0%Qc ->
  (exists row e, nth_error (fst (normalize_bin_edges num_times mean_roi max_cts)) i = Some row /\ nth_error row j = Some e /\
    length e = max_cts * 2 ^ i /\ exists x, nth_error e k = Some x /\ (x * m * qn (2 ^ i) = qn k)%Qc) /\
  (exists row c, nth_error (snd (normalize_bin_edges num_times mean_roi max_cts)) i = Some row /\ nth_error row j = Some c /\
    length c = max_cts * 2 ^ i - 1 /\ (k + 1 < max_cts * 2 ^ i -> exists x, nth_error c k = Some x /\ (x * m * qn (2 ^ i) = qn k + Q2Qc (1 # 2))%Qc)).
Proof. exact (normalized num_times mean_roi max_cts i j k m). Qed.
Print Assumptions C43_normalize.
Example C43_normalize_ex :
  map (map (map this)) (snd (normalize_bin_edges 2 [qn 2; qn 5] 2)) = [[[1 # 4]; [1 # 10]]; [[1 # 8; 3 # 8; 5 # 8]; [1 # 20; 3 # 20; 1 # 4]]]%Q.
Proof. reflexivity. Qed.
