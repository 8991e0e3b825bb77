From Coq Require Import Permutation Sorted Reals.
From Flocq Require Import Core IEEE754.BinarySingleNaN.
From Verif Require Import Common QcArith F64 HistF_Model HistF_Spec HistF_Proofs.
From Coq Require Import Lra.
Import ListNotations.
Local Open Scope R_scope.

Section Fmt.
Context (prec emax : Z) {p0 : Prec_gt_0 prec} {p1 : Prec_lt_emax prec emax}.
Local Notation fl := (binary_float prec emax).
Local Notation fe := (SpecFloat.fexp prec emax).
Local Notation fin x := (is_finite x = true).
Local Notation fsum := (fsum prec emax).
Local Notation sum_of := (sum_of prec emax).
Local Notation sum_abs := (sum_abs prec emax).
Context (block : nat) (sort : list (Qc * fl) -> list (Qc * fl)).
Hypothesis Hb : (0 < block)%nat.
Hypothesis Hs : sorts sort.
Local Notation cum_of := (cum_of prec emax sort).

(** ** NaN *)
Lemma add_nan_l (x : fl) : add prec emax B754_nan x = B754_nan. Proof. destruct x; reflexivity. Qed.
Lemma add_nan_r (x : fl) : add prec emax x B754_nan = B754_nan. Proof. destruct x; reflexivity. Qed.
Lemma fold_nan vs : forall s, s = B754_nan \/ In B754_nan vs -> fold_left (add prec emax) vs s = B754_nan.
Proof.
  induction vs as [|v vs IH]; intros s [->|I]; try reflexivity; try destruct I; cbn [fold_left]; apply IH.
  - left. apply add_nan_l.
  - left. subst v. apply add_nan_r.
  - right. assumption.
Qed.
Lemma fsum_nan vs : In B754_nan vs -> fsum vs = B754_nan.
Proof. destruct vs as [|v vs]; intros []; cbn [HistF_Proofs.fsum]; apply fold_nan; [left|right]; assumption. Qed.
Lemma cum_nan bins j bs b x : In b bs -> In (x, B754_nan) b -> below bins j x = true -> forall v, cum_of bins j bs v = B754_nan.
Proof.
  intros I J B. induction bs as [|b' bs IH]; [destruct I|]. intros v. unfold HistF_Proofs.cum_of. cbn [fold_left]. destruct I as [->|I]; [|apply IH, I].
  rewrite (fsum_nan (of_bin (below bins j) (sort b))), add_nan_r.
  - clear. induction bs as [|b bs IH]; [reflexivity|]. cbn [fold_left]. rewrite add_nan_l. exact IH.
  - unfold of_bin. apply in_map_iff. exists (x, B754_nan). split; [reflexivity|]. apply filter_In. split; [|exact B]. eapply Permutation_in; [apply Hs|exact J].
Qed.
Theorem hist_nan xs bins k x : (S k < length bins)%nat -> In (x, B754_nan) xs -> up_to bins k x = true ->
  nth_error (histogram_float prec emax block sort xs bins) k = Some B754_nan.
Proof.
  intros Hk I U. rewrite hist_nth by assumption. rewrite <- (blocks_concat block Hb (length xs) xs (le_n _)) in I. apply in_concat in I. destruct I as (b & Ib & Ix).
  rewrite (cum_nan bins (S k) _ b x Ib Ix) by (rewrite below_up; exact U). reflexivity.
Qed.

(** ** Integers *)
Definition int_val (x : fl) : Prop := fin x /\ exists z, B2R x = IZR z.
Lemma fits x y : int_val x -> int_val y -> Rabs (B2R x + B2R y) <= bpow radix2 prec -> int_val (add prec emax x y) /\ B2R (add prec emax x y) = B2R x + B2R y.
Proof.
  intros [Fx [a Ea]] [Fy [b Eb]] B. destruct (add_ok prec emax x y Fx Fy) as [G F].
  { apply Rle_trans with (1 := B). apply bpow_le. unfold Prec_lt_emax in *. lia. }
  assert (Q : B2R (add prec emax x y) = B2R x + B2R y).
  { rewrite G. apply rd_id. rewrite Ea, Eb, <- plus_IZR in *. refine (Z_fmt prec emax _ _). apply le_IZR. rewrite abs_IZR. rewrite bpow_IZR in B by (unfold Prec_gt_0 in *; lia). exact B. }
  split; [|exact Q]. split; [exact F|]. exists (a + b)%Z. rewrite Q, plus_IZR, Ea, Eb. reflexivity.
Qed.
Lemma fits_sub x y : int_val x -> int_val y -> Rabs (B2R x - B2R y) <= bpow radix2 prec -> int_val (sub prec emax x y) /\ B2R (sub prec emax x y) = B2R x - B2R y.
Proof.
  intros [Fx [a Ea]] [Fy [b Eb]] B. destruct (sub_ok prec emax x y Fx Fy) as [G F].
  { apply Rle_trans with (1 := B). apply bpow_le. unfold Prec_lt_emax in *. lia. }
  assert (Q : B2R (sub prec emax x y) = B2R x - B2R y).
  { rewrite G. apply rd_id. rewrite Ea, Eb, <- minus_IZR in *. refine (Z_fmt prec emax _ _). apply le_IZR. rewrite abs_IZR. rewrite bpow_IZR in B by (unfold Prec_gt_0 in *; lia). exact B. }
  split; [|exact Q]. split; [exact F|]. exists (a - b)%Z. rewrite Q, minus_IZR, Ea, Eb. reflexivity.
Qed.
Lemma fold_int vs : forall s, int_val s -> Forall int_val vs -> Rabs (B2R s) + sum_abs vs <= bpow radix2 prec ->
  int_val (fold_left (add prec emax) vs s) /\ B2R (fold_left (add prec emax) vs s) = B2R s + sum_of vs.
Proof.
  induction vs as [|x vs IH]; intros s I F B; [unfold HistF_Proofs.sum_of; cbn; split; [exact I|lra]|]. inversion F; subst. change (x :: vs) with ([x] ++ vs) in B. rewrite sum_abs_app in B. unfold HistF_Proofs.sum_abs at 1 in B. cbn [map rsum fold_right] in B. rewrite Rplus_0_r in B.
  pose proof (sum_abs_pos prec emax vs). pose proof (Rabs_triang (B2R s) (B2R x)). destruct (fits s x) as [J E]; try assumption; [lra|]. cbn [fold_left].
  destruct (IH _ J) as [K E2]; [assumption|rewrite E; lra|]. split; [exact K|]. rewrite E2, E. change (x :: vs) with ([x] ++ vs). rewrite sum_of_app. unfold HistF_Proofs.sum_of at 2. cbn. lra.
Qed.
Lemma fsum_int vs : Forall int_val vs -> sum_abs vs <= bpow radix2 prec -> int_val (fsum vs) /\ B2R (fsum vs) = sum_of vs.
Proof.
  intros F B. destruct vs as [|x vs]; [split; [split; [reflexivity|exists 0%Z; reflexivity]|reflexivity]|]. inversion F; subst. change (x :: vs) with ([x] ++ vs) in B. rewrite sum_abs_app in B. unfold HistF_Proofs.sum_abs at 1 in B. cbn [map rsum fold_right] in B. rewrite Rplus_0_r in B.
  cbn [HistF_Proofs.fsum]. destruct (fold_int vs x) as [I E]; try assumption. split; [exact I|]. rewrite E. change (x :: vs) with ([x] ++ vs). rewrite sum_of_app. unfold HistF_Proofs.sum_of at 2. cbn. lra.
Qed.
Lemma cum_int bins j : forall bs v, int_val v -> let V := concat (map (fun blk => of_bin (below bins j) (sort blk)) bs) in Forall int_val V -> Rabs (B2R v) + sum_abs V <= bpow radix2 prec ->
  int_val (cum_of bins j bs v) /\ B2R (cum_of bins j bs v) = B2R v + sum_of V.
Proof.
  induction bs as [|b bs IH]; intros v I V F B; cbn [map concat] in V; [unfold V, HistF_Proofs.sum_of; cbn; split; [exact I|lra]|].
  set (V1 := of_bin (below bins j) (sort b)) in *. set (V2 := concat (map (fun blk => of_bin (below bins j) (sort blk)) bs)) in *. unfold V in *. clear V. apply Forall_app in F as [F1 F2]. rewrite sum_abs_app in B.
  pose proof (sum_abs_pos prec emax V1). pose proof (sum_abs_pos prec emax V2). pose proof (Rabs_pos (B2R v)). pose proof (sum_le_abs prec emax V1). pose proof (Rabs_triang (B2R v) (sum_of V1)).
  destruct (fsum_int V1 F1) as [J E]; [lra|]. destruct (fits v (fsum V1) I J) as [K E2]; [rewrite E; lra|].
  change (cum_of bins j (b :: bs) v) with (cum_of bins j bs (add prec emax v (fsum V1))). destruct (IH _ K F2) as [G E3]; [fold V2; rewrite E2, E; lra|]. split; [exact G|]. rewrite E3. fold V2. rewrite E2, E, sum_of_app. lra.
Qed.
Theorem hist_int xs bins k : edges_ok bins -> (S k < length bins)%nat -> let W := of_bin (up_to bins k) xs in (forall w, In w W -> int_val w) -> sum_abs W <= bpow radix2 prec ->
  exists v, nth_error (histogram_float prec emax block sort xs bins) k = Some v /\ int_val v /\ B2R v = sum_of (of_bin (inside bins k) xs).
Proof.
  intros He Hk W Iw B. rewrite hist_nth by assumption. eexists. split; [reflexivity|].
  assert (C : forall j, j = k \/ j = S k -> int_val (cum_of bins j (blocks block (length xs) xs) (B754_zero false)) /\ B2R (cum_of bins j (blocks block (length xs) xs) (B754_zero false)) = sum_of (of_bin (below bins j) xs)).
  { intros j J. set (bs := blocks block (length xs) xs). set (V := concat (map (fun blk => of_bin (below bins j) (sort blk)) bs)).
    assert (P : Permutation (of_bin (below bins j) xs) V). { pose proof (parts_perm prec emax sort Hs (below bins j) bs) as P. unfold bs in P at 1. rewrite blocks_concat in P by (exact Hb || lia). exact P. }
    assert (I : forall w, In w (of_bin (below bins j) xs) -> In w W). { intros w I. destruct J as [->| ->]; [exact (below_in prec emax block Hb bins k xs w He Hk I)|]. unfold W. rewrite (of_bin_ext _ _ xs (below_up bins k)) in I. exact I. }
    destruct (cum_int bins j bs (B754_zero false)) as [G E].
    - split; [reflexivity|exists 0%Z; reflexivity].
    - fold V. apply Forall_forall. intros w Iv. apply Iw, I. eapply Permutation_in; [symmetry; exact P|exact Iv].
    - fold V. rewrite <- (sum_abs_perm prec emax _ _ P). cbn [B2R]. rewrite Rabs_R0, Rplus_0_l. refine (Rle_trans _ _ _ _ B). destruct J as [->| ->]; [apply (below_abs prec emax block Hb); assumption|]. rewrite (of_bin_ext _ _ xs (below_up bins k)). apply Rle_refl.
    - split; [exact G|]. rewrite E. fold V. rewrite <- (sum_of_perm prec emax _ _ P). cbn [B2R]. lra. }
  destruct (C k (or_introl eq_refl)) as [I0 E0]. destruct (C (S k) (or_intror eq_refl)) as [I1 E1].
  assert (S1 : sum_of (of_bin (below bins (S k)) xs) - sum_of (of_bin (below bins k) xs) = sum_of (of_bin (inside bins k) xs)). { rewrite (of_bin_ext _ _ xs (below_up bins k)), (bin_sum prec emax block Hb bins k xs He Hk). lra. }
  destruct (fits_sub _ _ I1 I0) as [G E].
  - rewrite E1, E0, S1. refine (Rle_trans _ _ _ (sum_le_abs _ _ _) _). refine (Rle_trans _ _ _ _ B). unfold W. clear -He Hk Hb. unfold HistF_Proofs.sum_abs, of_bin, rsum. induction xs as [|[x w] xs IH]; [cbn; lra|]. cbn [filter fst].
    destruct (below_split block Hb bins k x He Hk) as [I _]. rewrite I. pose proof (Rabs_pos (B2R w)). destruct (up_to bins k x), (below bins k x); cbn [andb negb map snd fold_right]; lra.
  - split; [exact G|]. rewrite E, E1, E0. exact S1.
Qed.

(** ** Averages *)
Lemma count_nth xs bins k : edges_ok bins -> (S k < length bins)%nat -> nth_error (histogram_count xs bins) k = Some (Z.of_nat (length (filter (inside bins k) xs))).
Proof.
  intros He Hk. unfold histogram_count. rewrite nth_error_map_seq by lia. cbn [Nat.add]. f_equal.
  assert (N : forall j, (j < length bins)%nat -> nth j (map (fun k => Z.of_nat (searchsorted (S k =? length bins)%nat xs (nth k bins 0%Qc))) (seq 0 (length bins))) 0%Z = Z.of_nat (length (filter (below bins j) xs))).
  { intros j Hj. apply nth_error_nth. rewrite nth_error_map_seq by exact Hj. cbn [Nat.add]. f_equal. }
  rewrite !N by lia. clear N. rewrite (filter_ext _ _ (below_up bins k)).
  enough (length (filter (up_to bins k) xs) = length (filter (below bins k) xs) + length (filter (inside bins k) xs))%nat by lia.
  induction xs as [|x xs IH]; [reflexivity|]. cbn [filter]. destruct (below_split block Hb bins k x He Hk) as [I B]. rewrite I. destruct (below bins k x) eqn:Q; [rewrite B by reflexivity|]; destruct (up_to bins k x); cbn [andb negb length]; lia.
Qed.
Lemma widen_ok (x : fl) : (prec <= 53)%Z -> (emax <= 1024)%Z -> fin x -> B2R (widen prec emax x) = B2R x /\ is_finite (widen prec emax x) = true.
Proof.
  intros P E F. destruct x as [s|s| |s m e H]; try discriminate F; [split; reflexivity|]. cbn [widen].
  assert (G : F64.F64 (B2R (B754_finite s m e H))).
  { apply (generic_inclusion_mag radix2 fe fmt). 2: apply generic_format_B2R. intros N. unfold SpecFloat.fexp, SpecFloat.emin, FLT_exp in *.
    (* the exponent of the narrower format is never below that of binary64 *)
    lia. }
  set (r := B2R (B754_finite s m e H)) in *. set (z := if s then Zneg m else Zpos m). assert (V : F2R (Float radix2 z e) = r) by (unfold r, z; cbn; destruct s; reflexivity).
  pose proof (binary_normalize_correct 53 1024 _ _ mode_NE z e false) as C. cbv zeta in C. rewrite V in C. change (round radix2 (SpecFloat.fexp 53 1024) (round_mode mode_NE)) with rnd in C. rewrite (rnd_id r G) in C.
  rewrite Rlt_bool_true in C.
  - destruct C as (C1 & C2 & _). split; assumption.
  - apply Rlt_le_trans with (bpow radix2 emax); [apply abs_B2R_lt_emax|apply bpow_le; exact E].
Qed.
Lemma combine_nth {A B} (a : list A) (b : list B) d e : length a = length b -> combine a b = map (fun k => (nth k a d, nth k b e)) (seq 0 (length a)).
Proof. revert b. induction a as [|x a IH]; intros [|y b] L; cbn in *; try lia; [reflexivity|]. f_equal. rewrite (IH b) by lia. rewrite <- seq_shift, map_map. reflexivity. Qed.
Lemma filter_map {A B} (f : A -> B) p l : filter p (map f l) = map f (filter (fun x => p (f x)) l).
Proof. induction l as [|x l IH]; [reflexivity|]. cbn. destruct (p (f x)); cbn; rewrite IH; reflexivity. Qed.
Lemma hist_len xs bins : length (histogram_float prec emax block sort xs bins) = (length bins - 1)%nat.
Proof. unfold histogram_float. rewrite map_length, seq_length. reflexivity. Qed.
Lemma count_len xs bins : length (histogram_count xs bins) = (length bins - 1)%nat.
Proof. unfold histogram_count. rewrite map_length, seq_length. reflexivity. Qed.
Lemma combine_fst {A B} (a : list A) (b : list B) : length a = length b -> map fst (combine a b) = a.
Proof. revert b. induction a as [|x a IH]; intros [|y b] L; cbn in *; try lia; [reflexivity|]. f_equal. apply IH. lia. Qed.
Theorem averages radial image bins threshold : length radial = length image -> exists l, ring_averages prec emax block sort radial image bins threshold = Some l /\
  let count k := Z.of_nat (length (filter (inside bins k) radial)) in (edges_ok bins ->
  Forall2 (fun k a => exists v, nth_error (histogram_float prec emax block sort (combine radial image) bins) k = Some v /\ a = fdiv (widen prec emax v) (f64_of_Z (count k)))
    (filter (fun k => (threshold <? count k)%Z) (seq 0 (length bins - 1))) l).
Proof.
  intros L. unfold ring_averages, bin_1D_float. rewrite L, Nat.eqb_refl. cbn [negb bind fst snd]. eexists. split; [reflexivity|]. intros He. set (count := fun k => Z.of_nat (length (filter (inside bins k) radial))) in *.
  rewrite (combine_nth _ _ B754_nan 0%Z) by (rewrite hist_len, count_len; reflexivity). rewrite hist_len, filter_map, map_map. cbn [fst snd].
  assert (C : forall k, In k (seq 0 (length bins - 1)) -> nth k (histogram_count radial bins) 0%Z = count k). { intros k I. apply in_seq in I. apply nth_error_nth, count_nth; [exact He|lia]. }
  rewrite (filter_ext_in (fun k => (threshold <? nth k (histogram_count radial bins) 0)%Z) (fun k => (threshold <? count k)%Z)) by (intros k I; rewrite (C k I); reflexivity).
  assert (G : forall ks, (forall k, In k ks -> In k (seq 0 (length bins - 1))) -> Forall2 (fun k a => exists v, nth_error (histogram_float prec emax block sort (combine radial image) bins) k = Some v /\ a = fdiv (widen prec emax v) (f64_of_Z (count k)))
    ks (map (fun x => fdiv (widen prec emax (nth x (histogram_float prec emax block sort (combine radial image) bins) B754_nan)) (f64_of_Z (nth x (histogram_count radial bins) 0%Z))) ks)).
  { induction ks as [|k ks IH]; intros I; [constructor|]. constructor; [|apply IH; intros; apply I; right; assumption]. pose proof (I k (or_introl eq_refl)) as Ik. rewrite (C k Ik).
    destruct (nth_error (histogram_float prec emax block sort (combine radial image) bins) k) as [v|] eqn:Ev.
    - exists v. split; [reflexivity|]. rewrite (nth_error_nth _ _ B754_nan Ev). reflexivity.
    - apply nth_error_None in Ev. rewrite hist_len in Ev. apply in_seq in Ik. lia. }
  apply G. intros k I. apply filter_In in I. apply I.
Qed.
(** the quotient *)
Lemma quotient_ok (v : fl) n : (prec <= 53)%Z -> (emax <= 1024)%Z -> fin v -> (0 < n <= 2 ^ 53)%Z -> is_finite (fdiv (widen prec emax v) (f64_of_Z n)) = true /\ B2R (fdiv (widen prec emax v) (f64_of_Z n)) = rnd (B2R v / IZR n).
Proof.
  intros P E F N. destruct (widen_ok v P E F) as [W1 W2]. destruct (f64_of_Z_ok n) as [Z1 Z2]; [lia|]. assert (N1 : 1 <= IZR n) by (apply IZR_le; lia).
  destruct (fdiv_ok (widen prec emax v) (f64_of_Z n) W2) as [D1 D2]; [rewrite Z1; lra| |rewrite D1, Z1, W1; split; [exact D2|reflexivity]].
  rewrite Z1, W1. assert (V : Rabs (B2R v) < bpow radix2 1024) by (apply Rlt_le_trans with (bpow radix2 emax); [apply abs_B2R_lt_emax|apply bpow_le; exact E]).
  assert (Q : Rabs (B2R v / IZR n) <= Rabs (B2R v)). { unfold Rdiv. rewrite Rabs_mult, (Rabs_pos_eq (/ IZR n)) by (left; apply Rinv_0_lt_compat; lra). rewrite <- (Rmult_1_r (Rabs (B2R v))) at 2. apply Rmult_le_compat_l; [apply Rabs_pos|]. rewrite <- Rinv_1. apply Rinv_le; lra. }
  assert (Fv : F64.F64 (Rabs (B2R v))). { apply generic_format_abs. rewrite <- W1. apply B2R_format. }
  apply Rle_lt_trans with (2 := V). apply Rabs_le_inv in Q. apply Rabs_le. split; [apply rnd_ge; [apply generic_format_opp, Fv|lra]|apply rnd_le_g; [exact Fv|lra]].
Qed.
End Fmt.
