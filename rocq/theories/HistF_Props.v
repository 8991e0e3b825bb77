(* C114: bin totals (bin_1D) and ring averages (circular_average) of floating-point images, computed in the precision of
   the image.  The totals are differences of one running sum taken outwards through all bins. *)
From Coq Require Import Permutation Sorted Reals.
From Flocq Require Import Core IEEE754.BinarySingleNaN.
From Verif Require Import Common QcArith F64 HistF_Model HistF_Spec HistF_Proofs HistF_Main.
From Coq Require Import Lra.
Import ListNotations.
Local Open Scope R_scope.

(** ** The theorems; [prec] and [emax] are 24 and 128 for float32, 53 and 1024 for float64 *)
Theorem C114_error prec emax (p0 : Prec_gt_0 prec) (p1 : Prec_lt_emax prec emax) block (sort : list (Qc * binary_float prec emax) -> _) xs bins k :
  (0 < block)%nat -> sorts sort -> edges_ok bins -> (S k < length bins)%nat ->
  let seen := of_bin (up_to bins k) xs in let m := (length seen + n_blocks block (length xs))%nat in
  (forall w, In w seen -> is_finite w = true) -> rsum (map (fun w => Rabs (B2R w)) seen) <= bpow radix2 (emax - 3) -> INR m <= bpow radix2 (prec - 1) ->
  exists v, nth_error (histogram_float prec emax block sort xs bins) k = Some v /\ is_finite v = true /\
    Rabs (B2R v - rsum (map B2R (of_bin (inside bins k) xs))) <= INR (S m) * (4 * bpow radix2 (- prec)) * rsum (map (fun w => Rabs (B2R w)) seen).
Proof. intros Hb Hs He Hk seen m F Sm Fw. exact (hist_error prec emax block sort Hb Hs xs bins k He Hk F Sm Fw). Qed.
Print Assumptions C114_error.

Theorem C114_empty prec emax (p0 : Prec_gt_0 prec) (p1 : Prec_lt_emax prec emax) block (sort : list (Qc * binary_float prec emax) -> _) xs bins k :
  (0 < block)%nat -> sorts sort -> edges_ok bins -> (S k < length bins)%nat ->
  let seen := of_bin (up_to bins k) xs in let m := (length seen + n_blocks block (length xs))%nat in
  (forall w, In w seen -> is_finite w = true) -> rsum (map (fun w => Rabs (B2R w)) seen) <= bpow radix2 (emax - 3) -> INR m <= bpow radix2 (prec - 1) ->
  (forall x w, In (x, w) xs -> inside bins k x = false) ->
  exists v, nth_error (histogram_float prec emax block sort xs bins) k = Some v /\ is_finite v = true /\ B2R v = 0.
Proof.
  intros Hb Hs He Hk seen m F Sm Fw N. destruct (C114_error prec emax p0 p1 block sort xs bins k Hb Hs He Hk F Sm Fw) as (v & E & _). exists v. split; [exact E|].
  exact (hist_empty prec emax block sort Hb Hs xs bins k He Hk F Sm Fw v N E).
Qed.
Print Assumptions C114_empty.

Theorem C114_positive prec emax (p0 : Prec_gt_0 prec) (p1 : Prec_lt_emax prec emax) block (sort : list (Qc * binary_float prec emax) -> _) xs bins k :
  (0 < block)%nat -> sorts sort -> edges_ok bins -> (S k < length bins)%nat ->
  let seen := of_bin (up_to bins k) xs in let m := (length seen + n_blocks block (length xs))%nat in
  (forall w, In w seen -> is_finite w = true /\ 0 <= B2R w) -> rsum (map B2R seen) <= bpow radix2 (emax - 3) -> INR m <= bpow radix2 (prec - 1) ->
  exists v, nth_error (histogram_float prec emax block sort xs bins) k = Some v /\ is_finite v = true /\ 0 <= B2R v.
Proof.
  intros Hb Hs He Hk seen m F Sm Fw. assert (A : map B2R seen = map (fun w => Rabs (B2R w)) seen). { apply map_ext_in. intros w I. symmetry. apply Rabs_pos_eq, F, I. } rewrite A in Sm.
  assert (Fi : forall w, In w seen -> is_finite w = true) by (intros w I; apply F, I).
  destruct (C114_error prec emax p0 p1 block sort xs bins k Hb Hs He Hk Fi Sm Fw) as (v & E & G & _). exists v. split; [exact E|]. split; [exact G|].
  apply (hist_positive prec emax block sort Hb Hs xs bins k He Hk Fi Sm Fw v); [intros w I; apply F, I|exact E].
Qed.
Print Assumptions C114_positive.

Theorem C114_integers prec emax (p0 : Prec_gt_0 prec) (p1 : Prec_lt_emax prec emax) block (sort : list (Qc * binary_float prec emax) -> _) xs bins k :
  (0 < block)%nat -> sorts sort -> edges_ok bins -> (S k < length bins)%nat ->
  let seen := of_bin (up_to bins k) xs in
  (forall w, In w seen -> is_finite w = true /\ exists z, B2R w = IZR z) -> rsum (map (fun w => Rabs (B2R w)) seen) <= bpow radix2 prec ->
  exists v, nth_error (histogram_float prec emax block sort xs bins) k = Some v /\ is_finite v = true /\ B2R v = rsum (map B2R (of_bin (inside bins k) xs)).
Proof.
  intros Hb Hs He Hk seen I B. destruct (hist_int prec emax block sort Hb Hs xs bins k He Hk I B) as (v & E & (F & _) & G). exists v. split; [exact E|]. split; [exact F|exact G].
Qed.
Print Assumptions C114_integers.

Theorem C114_nan prec emax (p0 : Prec_gt_0 prec) (p1 : Prec_lt_emax prec emax) block (sort : list (Qc * binary_float prec emax) -> _) xs bins k x :
  (0 < block)%nat -> sorts sort -> (S k < length bins)%nat -> In (x, B754_nan) xs -> up_to bins k x = true ->
  nth_error (histogram_float prec emax block sort xs bins) k = Some B754_nan.
Proof. intros Hb Hs. exact (hist_nan prec emax block sort Hb Hs xs bins k x). Qed.
Print Assumptions C114_nan.

(** ring averages: one entry for each bin of more than [threshold] pixels, in order: the total of the bin, as far off as
    C114_error says, over the number of its pixels, correctly rounded to float64 *)
Lemma of_bin_fst {A} (P : Qc -> bool) (r : list Qc) (i : list A) : length r = length i -> length (of_bin P (combine r i)) = length (filter P r).
Proof. revert i. unfold of_bin. induction r as [|x r IH]; intros [|y i] L; cbn in *; try lia. destruct (P x); cbn; rewrite IH; lia. Qed.
Theorem C114_averages prec emax (p0 : Prec_gt_0 prec) (p1 : Prec_lt_emax prec emax) block (sort : list (Qc * binary_float prec emax) -> _) radial image bins threshold :
  (0 < block)%nat -> sorts sort -> (prec <= 53)%Z -> (emax <= 1024)%Z -> edges_ok bins -> (0 <= threshold)%Z -> length radial = length image -> (Z.of_nat (length radial) <= 2 ^ 53)%Z ->
  let count k := length (filter (inside bins k) radial) in
  let xs := combine radial image in
  let seen k := of_bin (up_to bins k) xs in
  let m k := (length (seen k) + n_blocks block (length xs))%nat in
  exists l, ring_averages prec emax block sort radial image bins threshold = Some l /\
  Forall2 (fun k a =>
      (In B754_nan (seen k) -> a = B754_nan) /\
      ((forall w, In w (seen k) -> is_finite w = true) -> rsum (map (fun w => Rabs (B2R w)) (seen k)) <= bpow radix2 (emax - 3) -> INR (m k) <= bpow radix2 (prec - 1) ->
        is_finite a = true /\ exists total, B2R a = rnd (total / INR (count k)) /\
        Rabs (total - rsum (map B2R (of_bin (inside bins k) xs))) <= INR (S (m k)) * (4 * bpow radix2 (- prec)) * rsum (map (fun w => Rabs (B2R w)) (seen k))) /\
      ((forall w, In w (seen k) -> is_finite w = true /\ exists z, B2R w = IZR z) -> rsum (map (fun w => Rabs (B2R w)) (seen k)) <= bpow radix2 prec ->
        is_finite a = true /\ B2R a = rnd (rsum (map B2R (of_bin (inside bins k) xs)) / INR (count k))))
    (filter (fun k => (threshold <? Z.of_nat (count k))%Z) (seq 0 (length bins - 1))) l.
Proof.
  intros Hb Hs P E He T L N count xs seen m. destruct (averages prec emax block sort Hb radial image bins threshold L) as (l & El & A). exists l. split; [exact El|].
  specialize (A He). cbv zeta in A. unfold count. fold count in A |- *. fold xs in A.
  assert (G : forall ks, (forall k, In k ks -> (S k < length bins)%nat /\ (0 < Z.of_nat (count k))%Z) -> forall l, Forall2 (fun k a => exists v, nth_error (histogram_float prec emax block sort xs bins) k = Some v /\ a = fdiv (widen prec emax v) (f64_of_Z (Z.of_nat (count k)))) ks l ->
     Forall2 (fun k a => (In B754_nan (seen k) -> a = B754_nan) /\
      ((forall w, In w (seen k) -> is_finite w = true) -> rsum (map (fun w => Rabs (B2R w)) (seen k)) <= bpow radix2 (emax - 3) -> INR (m k) <= bpow radix2 (prec - 1) ->
        is_finite a = true /\ exists total, B2R a = rnd (total / INR (count k)) /\
        Rabs (total - rsum (map B2R (of_bin (inside bins k) xs))) <= INR (S (m k)) * (4 * bpow radix2 (- prec)) * rsum (map (fun w => Rabs (B2R w)) (seen k))) /\
      ((forall w, In w (seen k) -> is_finite w = true /\ exists z, B2R w = IZR z) -> rsum (map (fun w => Rabs (B2R w)) (seen k)) <= bpow radix2 prec ->
        is_finite a = true /\ B2R a = rnd (rsum (map B2R (of_bin (inside bins k) xs)) / INR (count k)))) ks l).
  { intros ks Hks l0 F. induction F as [|k a ks l0 (v & Ev & Ea) F IH]; [constructor|]. constructor; [|apply IH; intros; apply Hks; right; assumption].
    destruct (Hks k (or_introl eq_refl)) as [Hk C]. assert (C2 : (Z.of_nat (count k) <= 2 ^ 53)%Z). { refine (Z.le_trans _ _ _ _ N). unfold count. apply inj_le. clear. induction radial as [|x r IH]; [reflexivity|]. cbn [filter]. destruct (inside bins k x); cbn [length]; lia. }
    split; [|split].
    - intros I. unfold seen, of_bin in I. apply in_map_iff in I. destruct I as ([x w] & Ew & I). cbn in Ew. subst w. apply filter_In in I. destruct I as [I U]. cbn [fst] in U.
      rewrite (C114_nan prec emax p0 p1 block sort xs bins k x Hb Hs Hk I U) in Ev. injection Ev as <-. rewrite Ea. cbn [widen]. unfold fdiv. destruct (f64_of_Z _); reflexivity.
    - intros F1 F2 F3. destruct (C114_error prec emax p0 p1 block sort xs bins k Hb Hs He Hk F1 F2 F3) as (v' & Ev' & Fv & Bv). rewrite Ev in Ev'. injection Ev' as <-.
      destruct (quotient_ok prec emax block Hb v (Z.of_nat (count k)) P E Fv (conj C C2)) as [Q1 Q2]. rewrite <- Ea in Q1, Q2. split; [exact Q1|]. exists (B2R v). rewrite INR_IZR_INZ. split; [exact Q2|exact Bv].
    - intros F1 F2. destruct (C114_integers prec emax p0 p1 block sort xs bins k Hb Hs He Hk F1 F2) as (v' & Ev' & Fv & Bv). rewrite Ev in Ev'. injection Ev' as <-.
      destruct (quotient_ok prec emax block Hb v (Z.of_nat (count k)) P E Fv (conj C C2)) as [Q1 Q2]. rewrite <- Ea in Q1, Q2. rewrite Bv in Q2. rewrite INR_IZR_INZ. split; assumption. }
  apply G; [|exact A]. intros k I. apply filter_In in I. destruct I as [I C]. apply in_seq in I. apply Z.ltb_lt in C. split; [lia|]. exact (Z.le_lt_trans _ _ _ T C).
Qed.
Print Assumptions C114_averages.

(** ** What is lost: for every way of sorting and every block length *)
Local Notation f32 := (binary_float 24 128).
Local Instance p24 : Prec_gt_0 24. Proof. reflexivity. Qed.
Local Instance l24 : Prec_lt_emax 24 128. Proof. reflexivity. Qed.
Definition single (m : Z) : f32 := binary_normalize 24 128 _ _ mode_NE m 0 false.
Local Notation q n := (Q2Qc (inject_Z n)).

Lemma two_sorted {A} (sort : list (Qc * A) -> list (Qc * A)) a b : sorts sort -> Qc_ltb (fst a) (fst b) = true -> sort [a; b] = [a; b] /\ sort [a] = [a] /\ sort [b] = [b].
Proof.
  intros Hs L. split; [|split]; [|apply Permutation_length_1_inv, Hs|apply Permutation_length_1_inv, Hs].
  destruct (Hs [a; b]) as [P O]. apply Permutation_length_2_inv in P. destruct P as [P|P]; rewrite P in *; [reflexivity|].
  apply StronglySorted_inv in O. destruct O as [_ F]. apply Forall_inv in F. exfalso. destruct (Qc_ltb_spec (fst a) (fst b)) as [L2|]; [|discriminate L]. exact (Qclt_not_le _ _ L2 F).
Qed.
Lemma two_pixels {prec emax} {p0 : Prec_gt_0 prec} {p1 : Prec_lt_emax prec emax} block (sort : list (Qc * binary_float prec emax) -> _) a b bins : (0 < block)%nat -> sorts sort -> Qc_ltb (fst a) (fst b) = true ->
  histogram_float prec emax block sort [a; b] bins = histogram_float prec emax 2 (fun l => l) [a; b] bins \/ histogram_float prec emax block sort [a; b] bins = histogram_float prec emax 1 (fun l => l) [a; b] bins.
Proof.
  intros Hb Hs L. destruct (two_sorted sort a b Hs L) as (S1 & S2 & S3). destruct block as [|[|n]]; [lia|right|left]; unfold histogram_float; cbn [length blocks firstn skipn fold_left]; unfold hist_step, block_cum.
  - rewrite S2, S3. reflexivity.
  - rewrite firstn_nil, skipn_nil, S1. reflexivity.
Qed.
(** a pixel of 1 in the outer bin disappears behind one of 2^24 in the inner bin *)
Theorem C114_outer_lost_refuted block (sort : list (Qc * f32) -> _) : (0 < block)%nat -> sorts sort ->
  option_map B2SF (nth_error (histogram_float 24 128 block sort [(q 0, single 16777216); (q 1, single 1)] [q 0; q 1; q 2]) 1) = Some (SpecFloat.S754_zero false) /\
  ~ (rsum (map B2R (of_bin (inside [q 0; q 1; q 2] 1) [(q 0, single 16777216); (q 1, single 1)])) = 0).
Proof.
  intros Hb Hs. split.
  - destruct (two_pixels block sort (q 0, single 16777216) (q 1, single 1) [q 0; q 1; q 2] Hb Hs eq_refl) as [->| ->]; vm_compute; reflexivity.
  - change (of_bin _ _) with [single 1]. cbn [map rsum fold_right]. assert (E : B2R (single 1) = 1).
    { pose proof (binary_normalize_correct 24 128 _ _ mode_NE 1 0 false) as C. cbv zeta in C. change (F2R (Float radix2 1 0)) with (1 * 1) in C. rewrite Rmult_1_r in C.
      assert (R1 : round radix2 (SpecFloat.fexp 24 128) (round_mode mode_NE) 1 = 1) by (apply (rd_id 24 128 1), (Z_fmt 24 128 1); cbn; lia). rewrite R1 in C. rewrite Rlt_bool_true in C; [apply C|]. rewrite Rabs_R1. apply (bpow_lt radix2 0 128). lia. }
    rewrite E. lra.
Qed.
Print Assumptions C114_outer_lost_refuted.

(** the outer of two pixels comes out larger than the brightest pixel there: 2^24 inside, 3 outside gives 4 *)
Theorem C114_outer_grown_refuted block (sort : list (Qc * f32) -> _) : (0 < block)%nat -> sorts sort ->
  let xs := [(q 0, single 16777216); (q 1, single 3)] in
  of_bin (inside [q 0; q 1; q 2] 1) xs = [single 3] /\
  option_map B2SF (nth_error (histogram_float 24 128 block sort xs [q 0; q 1; q 2]) 1) = Some (B2SF (single 4)).
Proof.
  intros Hb Hs xs. split; [reflexivity|]. unfold xs. destruct (two_pixels block sort (q 0, single 16777216) (q 1, single 3) [q 0; q 1; q 2] Hb Hs eq_refl) as [->| ->]; vm_compute; reflexivity.
Qed.
Print Assumptions C114_outer_grown_refuted.

(** the same in double precision at 2^53 *)
Theorem C114_double_lost_refuted block (sort : list (Qc * f64) -> _) : (0 < block)%nat -> sorts sort ->
  let xs := [(q 0, f64_of_Z (2 ^ 53)); (q 1, f64_of_Z 1)] in
  of_bin (inside [q 0; q 1; q 2] 1) xs = [f64_of_Z 1] /\
  option_map B2SF (nth_error (histogram_float 53 1024 block sort xs [q 0; q 1; q 2]) 1) = Some (SpecFloat.S754_zero false).
Proof.
  intros Hb Hs xs. split; [reflexivity|]. unfold xs. destruct (two_pixels block sort (q 0, f64_of_Z (2 ^ 53)) (q 1, f64_of_Z 1) [q 0; q 1; q 2] Hb Hs eq_refl) as [->| ->]; vm_compute; reflexivity.
Qed.
Print Assumptions C114_double_lost_refuted.

(** an infinite pixel: its own ring is infinite, the rings outside it are not a number *)
Theorem C114_infinite_refuted block (sort : list (Qc * f32) -> _) : (0 < block)%nat -> sorts sort ->
  let xs := [(q 0, B754_infinity false); (q 1, single 1)] in
  map B2SF (histogram_float 24 128 block sort xs [q 0; q 1; q 2]) = [SpecFloat.S754_infinity false; SpecFloat.S754_nan].
Proof.
  intros Hb Hs xs. unfold xs. destruct (two_pixels block sort (q 0, B754_infinity false) (q 1, single 1) [q 0; q 1; q 2] Hb Hs eq_refl) as [->| ->]; vm_compute; reflexivity.
Qed.
Print Assumptions C114_infinite_refuted.

(** ** A way of sorting, and a run of everything *)
Fixpoint insert {A} (p : Qc * A) (l : list (Qc * A)) : list (Qc * A) :=
  match l with [] => [p] | h :: t => if Qc_leb (fst p) (fst h) then p :: l else h :: insert p t end.
Definition isort {A} (l : list (Qc * A)) : list (Qc * A) := fold_right insert [] l.
Example isort_sorts {A} : sorts (@isort A).
Proof.
  assert (P : forall (p : Qc * A) l, Permutation (p :: l) (insert p l)). { intros p. induction l as [|h t IH]; cbn [insert]; [reflexivity|]. destruct (Qc_leb (fst p) (fst h)); [reflexivity|]. rewrite perm_swap. apply perm_skip, IH. }
  intros l. induction l as [|p l [I1 I2]]; [split; constructor|]. cbn [isort fold_right]. fold (isort l). split; [rewrite <- P; apply perm_skip, I1|].
  clear I1. induction (isort l) as [|h t IH]; cbn [insert]; [repeat constructor|]. apply StronglySorted_inv in I2. destruct I2 as [I2 F]. destruct (Qc_leb (fst p) (fst h)) eqn:E.
  - destruct (Qc_leb_spec (fst p) (fst h)) as [E2|]; [|discriminate E]. constructor; [constructor; assumption|]. constructor; [exact E2|]. eapply Forall_impl; [|exact F]. cbn. intros a Ha. eapply Qcle_trans; eassumption.
  - constructor; [apply IH, I2|]. assert (H : (fst h <= fst p)%Qc). { apply Qclt_le_weak. apply Qcnot_le_lt. intros C. destruct (Qc_leb_spec (fst p) (fst h)); [discriminate E|contradiction]. }
    rewrite <- P. constructor; assumption.
Qed.
(** five pixels in three rings, blocks of two, the last ring with its upper edge; the second ring holds a NaN in the second run *)
Example totals_run : map B2SF (histogram_float 24 128 2 isort [(q 5, single 7); (q 0, single 2); (q 2, single 4); (q 1, single 3); (q 6, single 9)] [q 0; q 2; q 4; q 6])
  = [B2SF (single 5); B2SF (single 4); B2SF (single 16)].
Proof. vm_compute. reflexivity. Qed.
Example nan_run : map B2SF (histogram_float 24 128 2 isort [(q 5, single 7); (q 0, single 2); (q 2, B754_nan); (q 1, single 3); (q 6, single 9)] [q 0; q 2; q 4; q 6])
  = [B2SF (single 5); SpecFloat.S754_nan; SpecFloat.S754_nan].
Proof. vm_compute. reflexivity. Qed.
(** averages of rings of more than one pixel *)
Example averages_run : option_map (map B2SF) (ring_averages 24 128 2 isort [q 5; q 0; q 2; q 1; q 6] [single 7; single 2; single 4; single 3; single 9] [q 0; q 2; q 4; q 6] 1)
  = Some [B2SF (fdiv (f64_of_Z 5) (f64_of_Z 2)); B2SF (f64_of_Z 8)].
Proof. vm_compute. reflexivity. Qed.
Example edges_run : edges_ok [q 0; q 2; q 4; q 6].
Proof. intros i Hi. cbn in Hi. destruct i as [|[|[|i]]]; [..|lia]; cbn [nth]; match goal with |- (?a <= ?b)%Qc => destruct (Qc_leb_spec a b) as [H|H]; [exact H|] end; exfalso; apply H; unfold Qcle; vm_compute; discriminate. Qed.
