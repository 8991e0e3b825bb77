(* C117: two-time correlation in double precision.
   /repo/skbeam/core/correlation.py 483-499, 502-656, 659-676, 679-754, 757-817, 820-906. *)
From Coq Require Import Reals.
From Flocq Require Import Core IEEE754.BinarySingleNaN.
From Verif Require Import Common F64 RunMean_Spec MultiTau_Spec MTauF_Spec TTimeF_Model TTimeF_Spec TTimeF_Main TTimeF_Acc TTimeF_Same.
From Coq Require Import ZifyNat Lra Lia.
Local Open Scope R_scope.

(** The array, for all images of doubles: shape, symmetry to the bit, which double at which pair of frames, 0.0 elsewhere;
    more images than num_frames raise. *)
Theorem C117_values (nb L nf : nat) labels images :
  (nb mod 2 = 0)%nat -> (2 <= nb)%nat -> (1 <= L)%nat -> (forall im, In im images -> length im = length labels) ->
  ((length images <= nf)%nat -> images <> [] -> (1 <= n_rois labels)%nat ->
    exists g, two_time_corr labels images nf nb L = Some g /\ float_two_time nb L nf labels images g) /\
  ((nf < length images)%nat -> two_time_corr labels images nf nb L = None).
Proof. intros He Hb HL Hi. split; [exact (tt_main nb L nf labels images He Hb HL Hi)|exact (tt_overflow nb L nf labels images He Hb HL Hi)]. Qed.
Print Assumptions C117_values.

Lemma the_entry (nb L nf : nat) labels images g q a b l k i :
  (nb mod 2 = 0)%nat -> (2 <= nb)%nat -> (1 <= L)%nat -> (forall im, In im images -> length im = length labels) ->
  two_time_corr labels images nf nb L = Some g -> (q < n_rois labels)%nat -> on_lag nb L (length images) a b l k i ->
  fentry g q a b = Some (shown a b (float_tt labels images l (k - i) k (q + 1))) /\ fentry g q b a = fentry g q a b.
Proof.
  intros He Hb HL Hi E Hq Ho. destruct (C117_values nb L nf labels images He Hb HL Hi) as [A B].
  destruct (Nat.le_gt_cases (length images) nf) as [Hn|Hn]; [|rewrite B in E by exact Hn; discriminate].
  pose proof Ho as (_ & Hik & Hk & s & Hs & Ea & Eb).
  assert (Hne : images <> []) by (intros ->; cbn in Hk; nia).
  destruct (A Hn Hne ltac:(lia)) as (g' & E' & _ & _ & _ & Hsym & Hval & _). rewrite E in E'. injection E' as <-.
  split; [apply Hval; assumption|]. apply Hsym; [exact Hq| |]; subst; nia.
Qed.

(** Frames less than num_bufs apart: the correlation of the two frames themselves. *)
Theorem C117_near (nb L nf : nat) labels images g q a b :
  (nb mod 2 = 0)%nat -> (2 <= nb)%nat -> (1 <= L)%nat -> (forall im, In im images -> length im = length labels) ->
  two_time_corr labels images nf nb L = Some g -> (q < n_rois labels)%nat ->
  (a < length images)%nat -> (b < length images)%nat -> (a < b + nb)%nat -> (b < a + nb)%nat ->
  fentry g q a b = Some (shown a b (float_tt labels images 0 (Nat.min a b) (Nat.max a b) (q + 1))).
Proof.
  intros He Hb HL Hi E Hq Ha Hbb H1 H2. destruct (C117_values nb L nf labels images He Hb HL Hi) as [A B].
  destruct (Nat.le_gt_cases (length images) nf) as [Hn|Hn]; [|rewrite B in E by exact Hn; discriminate].
  assert (Hne : images <> []) by (intros ->; cbn in Ha; lia).
  destruct (A Hn Hne ltac:(lia)) as (g' & E' & G). rewrite E in E'. injection E' as <-. eapply tt_level0; eassumption.
Qed.
Print Assumptions C117_near.

(** The last step adds the diagonal to itself and takes it off again: no harm below 2^1023, NaN for an infinite value
    (which stays infinite off the diagonal). *)
Theorem C117_diagonal a (x : f64) :
  (is_finite x = true -> Rabs (B2R x) < bpow radix2 1023 -> shown a a x = plain_zero x /\ B2R (shown a a x) = B2R x) /\
  (forall s, x = B754_infinity s -> shown a a x = B754_nan) /\ (forall b, a <> b -> shown a b x = plain_zero x).
Proof.
  split; [|split].
  - intros F B. rewrite shown_fin by assumption. split; [reflexivity|apply plain_R].
  - intros s ->. unfold shown. rewrite Nat.eqb_refl. apply diag_inf.
  - intros b Hb. unfold shown. destruct (Nat.eqb_spec a b); [contradiction|reflexivity].
Qed.
Print Assumptions C117_diagonal.

(** One NaN or infinite pixel of a ROI: nothing is skipped; every entry of that ROI whose blocks contain the frame is NaN. *)
Theorem C117_bad_pixel_refuted (nb L nf : nat) labels images g q a b l k i t p :
  (nb mod 2 = 0)%nat -> (2 <= nb)%nat -> (1 <= L)%nat -> (forall im, In im images -> length im = length labels) ->
  two_time_corr labels images nf nb L = Some g -> (q < n_rois labels)%nat -> on_lag nb L (length images) a b l k i ->
  In p (roi_positions labels (q + 1)) -> is_finite (nth p (nth t images []) fzero) = false ->
  ((k - i) * 2 ^ l <= t < (k - i + 1) * 2 ^ l \/ k * 2 ^ l <= t < (k + 1) * 2 ^ l)%nat ->
  fentry g q a b = Some B754_nan /\ fentry g q b a = Some B754_nan.
Proof.
  intros He Hb HL Hi E Hq Ho Hp Hn Ht. destruct (the_entry nb L nf labels images g q a b l k i He Hb HL Hi E Hq Ho) as [A B].
  rewrite B, A, (tt_bad labels images l (k - i) k (q + 1) t p Hp Ht Hn). unfold shown. destruct (a =? b)%nat; auto.
Qed.
Print Assumptions C117_bad_pixel_refuted.

Lemma len_img (labels : list Z) (z : list (list Z)) : (forall im, In im z -> length im = length labels) ->
  forall im, In im (map (map f64_of_Z) z) -> length im = length labels.
Proof. intros Hlen im Him. apply in_map_iff in Him as (im' & <- & Him). rewrite map_length. apply Hlen. exact Him. Qed.

(** Counts 0..M, ROI of N pixels, N * M^2 * 4^l <= 2^53, light in both blocks: within a relative 2^-51 of the exact value. *)
Theorem C117_error (nb L nf : nat) labels z M g q a b l k i :
  (nb mod 2 = 0)%nat -> (2 <= nb)%nat -> (1 <= L)%nat ->
  (forall im, In im z -> length im = length labels) -> (forall im x, In im z -> In x im -> (0 <= x <= M)%Z) -> (1 <= M)%Z ->
  (Z.of_nat (length (roi_positions labels (q + 1))) * (M * M * 4 ^ Z.of_nat l) <= 2 ^ 53)%Z ->
  two_time_corr labels (map (map f64_of_Z) z) nf nb L = Some g -> (q < n_rois labels)%nat -> on_lag nb L (length z) a b l k i ->
  0 < exact_roi labels (exact_block z l (k - i)) (q + 1) -> 0 < exact_roi labels (exact_block z l k) (q + 1) ->
  exists x, fentry g q a b = Some x /\ fentry g q b a = Some x /\ is_finite x = true /\
    Rabs (B2R x - exact_tt labels z l (k - i) k (q + 1)) <= bpow radix2 (-51) * exact_tt labels z l (k - i) k (q + 1).
Proof.
  intros He Hb HL Hlen HM HM1 HN E Hq Ho P1 P2.
  assert (Ho' : on_lag nb L (length (map (map f64_of_Z) z)) a b l k i) by (rewrite map_length; exact Ho).
  destruct (the_entry nb L nf labels _ g q a b l k i He Hb HL (len_img labels z Hlen) E Hq Ho') as [A B].
  destruct Ho as (_ & Hik & Hk & _). assert (Hk2 : ((k - i + 1) * 2 ^ l <= length z)%nat) by nia.
  destruct (tt_close labels z M l (q + 1) Hlen HM HM1 ltac:(lia) HN (k - i) k Hk2 Hk P1 P2) as (F & C & R).
  set (x := float_tt labels (map (map f64_of_Z) z) l (k - i) k (q + 1)) in *.
  assert (Bx : Rabs (B2R x) < bpow radix2 1023).
  { apply Rle_lt_trans with (bpow radix2 107); [|apply bpow_lt; lia]. apply Rabs_le_inv in C.
    assert (bpow radix2 (-51) <= 1 / 2) by (replace (1 / 2) with (bpow radix2 (-1)) by (change (bpow radix2 (-1)) with (/ 2); lra); apply bpow_le; lia).
    assert (0 < bpow radix2 (-51)) by apply bpow_gt_0. set (v := exact_tt labels z l (k - i) k (q + 1)) in *.
    assert (bpow radix2 (-51) * v <= 1 / 2 * v) by (apply Rmult_le_compat_r; lra).
    change 107%Z with (1 + 106)%Z. rewrite bpow_plus. change (bpow radix2 1) with 2. apply Rabs_le. lra. }
  exists (plain_zero x). rewrite B, A, shown_fin by assumption. destruct (plain_R x) as [E1 E2]. rewrite E1, E2. auto.
Qed.
Print Assumptions C117_error.

(** A dark ROI in either block: NaN. *)
Theorem C117_dark (nb L nf : nat) labels z M g q a b l k i :
  (nb mod 2 = 0)%nat -> (2 <= nb)%nat -> (1 <= L)%nat ->
  (forall im, In im z -> length im = length labels) -> (forall im x, In im z -> In x im -> (0 <= x <= M)%Z) -> (1 <= M)%Z ->
  (Z.of_nat (length (roi_positions labels (q + 1))) * (M * M * 4 ^ Z.of_nat l) <= 2 ^ 53)%Z ->
  two_time_corr labels (map (map f64_of_Z) z) nf nb L = Some g -> (q < n_rois labels)%nat -> on_lag nb L (length z) a b l k i ->
  exact_roi labels (exact_block z l (k - i)) (q + 1) = 0 \/ exact_roi labels (exact_block z l k) (q + 1) = 0 ->
  fentry g q a b = Some B754_nan /\ fentry g q b a = Some B754_nan.
Proof.
  intros He Hb HL Hlen HM HM1 HN E Hq Ho D.
  assert (Ho' : on_lag nb L (length (map (map f64_of_Z) z)) a b l k i) by (rewrite map_length; exact Ho).
  destruct (the_entry nb L nf labels _ g q a b l k i He Hb HL (len_img labels z Hlen) E Hq Ho') as [A B].
  destruct Ho as (_ & Hik & Hk & _). assert (Hk2 : ((k - i + 1) * 2 ^ l <= length z)%nat) by nia.
  rewrite B, A, (tt_dark labels z M l (q + 1) Hlen HM HM1 ltac:(lia) HN (k - i) k Hk2 Hk D). unfold shown. destruct (a =? b)%nat; auto.
Qed.
Print Assumptions C117_dark.

(** Static counts: every entry on a reported lag, at every level, is the same double. *)
Theorem C117_static (nb L nf n : nat) labels im M g q :
  (nb mod 2 = 0)%nat -> (2 <= nb)%nat -> (1 <= L)%nat -> (1 <= n)%nat ->
  length im = length labels -> (forall x, In x im -> (0 <= x <= M)%Z) -> (1 <= M)%Z ->
  (Z.of_nat (length (roi_positions labels (q + 1))) * (M * M) <= 2 ^ 53)%Z ->
  two_time_corr labels (map (map f64_of_Z) (repeat im n)) nf nb L = Some g -> (q < n_rois labels)%nat ->
  0 < exact_roi labels (fun p => IZR (nth p im 0%Z)) (q + 1) ->
  exists c, is_finite c = true /\
    forall a b l k i, on_lag nb L n a b l k i -> fentry g q a b = Some c /\ fentry g q b a = Some c.
Proof.
  intros He Hb HL Hn Hlen HM HM1 HN E Hq P.
  assert (Hin : forall x, In x (repeat im n) -> x = im) by (intros x Hx; apply repeat_spec in Hx; exact Hx).
  assert (Hlen' : forall x, In x (repeat im n) -> length x = length labels) by (intros x Hx; rewrite (Hin x Hx); exact Hlen).
  assert (HM' : forall f x, In f (repeat im n) -> In x f -> (0 <= x <= M)%Z) by (intros f x Hf Hx; rewrite (Hin f Hf) in Hx; auto).
  assert (HN' : (Z.of_nat (length (roi_positions labels (q + 1))) * (M * M * 4 ^ Z.of_nat 0) <= 2 ^ 53)%Z) by (cbn [Z.of_nat Z.pow]; rewrite Z.mul_1_r; exact HN).
  assert (P' : 0 < exact_roi labels (exact_block (repeat im n) 0 0) (q + 1)).
  { replace (exact_roi labels (exact_block (repeat im n) 0 0) (q + 1)) with (exact_roi labels (fun p => IZR (nth p im 0%Z)) (q + 1)); [exact P|].
    unfold exact_roi. f_equal. apply map_ext. intros p. unfold exact_block, block_frames. cbn [Nat.pow Nat.mul skipn].
    destruct n as [|n']; [lia|]. cbn [repeat firstn map]. unfold exact_mean. cbn [fold_right length INR]. field. }
  assert (H0 : ((0 + 1) * 2 ^ 0 <= length (repeat im n))%nat) by (rewrite repeat_length; cbn; lia).
  destruct (tt_close labels (repeat im n) M 0 (q + 1) Hlen' HM' HM1 ltac:(lia) HN' 0 0 H0 H0 P' P') as (F & C & R).
  set (x := float_tt labels (map (map f64_of_Z) (repeat im n)) 0 0 0 (q + 1)) in *.
  assert (Bx : Rabs (B2R x) < bpow radix2 1023).
  { apply Rle_lt_trans with (bpow radix2 107); [|apply bpow_lt; lia]. apply Rabs_le_inv in C.
    assert (bpow radix2 (-51) <= 1 / 2) by (replace (1 / 2) with (bpow radix2 (-1)) by (change (bpow radix2 (-1)) with (/ 2); lra); apply bpow_le; lia).
    assert (0 < bpow radix2 (-51)) by apply bpow_gt_0. set (v := exact_tt labels (repeat im n) 0 0 0 (q + 1)) in *.
    assert (bpow radix2 (-51) * v <= 1 / 2 * v) by (apply Rmult_le_compat_r; lra).
    change 107%Z with (1 + 106)%Z. rewrite bpow_plus. change (bpow radix2 1) with 2. apply Rabs_le. lra. }
  exists (plain_zero x). split; [rewrite (proj2 (plain_R x)); exact F|]. intros a b l k i Ho.
  assert (Ho' : on_lag nb L (length (map (map f64_of_Z) (repeat im n))) a b l k i) by (rewrite map_length, repeat_length; exact Ho).
  destruct (the_entry nb L nf labels _ g q a b l k i He Hb HL (len_img labels _ Hlen') E Hq Ho') as [A B].
  destruct Ho as (_ & Hik & Hk & _). assert (Hk2 : ((k - i + 1) * 2 ^ l <= n)%nat) by nia.
  assert (HM53 : (M <= 2 ^ 53)%Z).
  { assert (1 <= length (roi_positions labels (q + 1)))%nat by (apply MTauF_Acc.roi_inhabited; lia).
    assert (M <= M * M)%Z by nia. assert (M * M <= Z.of_nat (length (roi_positions labels (q + 1))) * (M * M))%Z by nia. lia. }
  rewrite (tt_static labels im M n Hlen HM HM53 l (k - i) k (q + 1) Hk2 Hk) in A. fold x in A.
  rewrite shown_fin in A by assumption. rewrite B, A. auto.
Qed.
Print Assumptions C117_static.

(** Frames of uniform counts in a ROI of N pixels (the exact value is 1): the entry is (1 / N) * N in doubles, which is
    1 or one unit (2^-53) below. *)
Theorem C117_uniform (nb L nf : nat) labels z M g q a b l k i :
  let N := Z.of_nat (length (roi_positions labels (q + 1))) in
  (nb mod 2 = 0)%nat -> (2 <= nb)%nat -> (1 <= L)%nat ->
  (forall im, In im z -> length im = length labels) -> (forall im x, In im z -> In x im -> (0 <= x <= M)%Z) -> (1 <= M)%Z ->
  (N * N * (M * M * 4 ^ Z.of_nat l) <= 2 ^ 53)%Z ->
  (forall im p p', In im z -> In p (roi_positions labels (q + 1)) -> In p' (roi_positions labels (q + 1)) -> nth p im 0%Z = nth p' im 0%Z) ->
  two_time_corr labels (map (map f64_of_Z) z) nf nb L = Some g -> (q < n_rois labels)%nat -> on_lag nb L (length z) a b l k i ->
  0 < exact_roi labels (exact_block z l (k - i)) (q + 1) -> 0 < exact_roi labels (exact_block z l k) (q + 1) ->
  exists x, fentry g q a b = Some x /\ fentry g q b a = Some x /\
    x = fmul (fdiv fone (f64_of_Z N)) (f64_of_Z N) /\ 1 - bpow radix2 (-53) <= B2R x <= 1.
Proof.
  intros N He Hb HL Hlen HM HM1 HN Hu E Hq Ho P1 P2.
  assert (Ho' : on_lag nb L (length (map (map f64_of_Z) z)) a b l k i) by (rewrite map_length; exact Ho).
  destruct (the_entry nb L nf labels _ g q a b l k i He Hb HL (len_img labels z Hlen) E Hq Ho') as [A B].
  destruct Ho as (_ & Hik & Hk & _). assert (Hk2 : ((k - i + 1) * 2 ^ l <= length z)%nat) by nia.
  assert (N1 : (1 <= N)%Z) by (assert (1 <= length (roi_positions labels (q + 1)))%nat by (apply MTauF_Acc.roi_inhabited; lia); unfold N; lia).
  assert (W : (1 <= M * M * 4 ^ Z.of_nat l)%Z) by (pose proof (Z.pow_pos_nonneg 4 (Z.of_nat l) ltac:(lia) ltac:(lia)); nia).
  assert (HN1 : (N * (M * M * 4 ^ Z.of_nat l) <= 2 ^ 53)%Z) by nia.
  assert (N53 : (N <= 2 ^ 53)%Z) by nia.
  rewrite (tt_uniform labels z M l (q + 1) Hlen HM HM1 ltac:(lia) HN1 HN Hu (k - i) k Hk2 Hk P1 P2) in A. fold N in A.
  destruct (recip_range N ltac:(lia)) as [F R].
  assert (U : bpow radix2 (-53) <= 1 / 2) by (replace (1 / 2) with (bpow radix2 (-1)) by (change (bpow radix2 (-1)) with (/ 2); lra); apply bpow_le; lia).
  rewrite shown_fin in A; [|exact F|rewrite Rabs_pos_eq by lra; apply Rle_lt_trans with (bpow radix2 0); [change (bpow radix2 0) with 1; lra|apply bpow_lt; lia]].
  exists (recip N). unfold plain_zero in A. destruct (recip N) as [s|s| |s m e bb] eqn:ER; try discriminate F.
  - exfalso. cbn [B2R] in R. lra.
  - rewrite B, A. rewrite <- ER in *. split; [reflexivity|]. split; [reflexivity|]. split; [reflexivity|exact R].
Qed.
Print Assumptions C117_uniform.

(** ... so a perfectly uniform ROI of 49 pixels never shows the exact 1. *)
Theorem C117_uniform_refuted (nb L nf : nat) labels z M g q a b l k i :
  (length (roi_positions labels (q + 1)) = 49)%nat ->
  (nb mod 2 = 0)%nat -> (2 <= nb)%nat -> (1 <= L)%nat ->
  (forall im, In im z -> length im = length labels) -> (forall im x, In im z -> In x im -> (0 <= x <= M)%Z) -> (1 <= M)%Z ->
  (49 * 49 * (M * M * 4 ^ Z.of_nat l) <= 2 ^ 53)%Z ->
  (forall im p p', In im z -> In p (roi_positions labels (q + 1)) -> In p' (roi_positions labels (q + 1)) -> nth p im 0%Z = nth p' im 0%Z) ->
  two_time_corr labels (map (map f64_of_Z) z) nf nb L = Some g -> (q < n_rois labels)%nat -> on_lag nb L (length z) a b l k i ->
  0 < exact_roi labels (exact_block z l (k - i)) (q + 1) -> 0 < exact_roi labels (exact_block z l k) (q + 1) ->
  exists x, fentry g q a b = Some x /\ B2R x = 1 - bpow radix2 (-53).
Proof.
  intros H49 He Hb HL Hlen HM HM1 HN Hu E Hq Ho P1 P2.
  destruct (C117_uniform nb L nf labels z M g q a b l k i He Hb HL Hlen HM HM1 ltac:(rewrite H49; exact HN) Hu E Hq Ho P1 P2) as (x & A & _ & Ex & _).
  exists x. split; [exact A|]. rewrite H49 in Ex.
  assert (S : B2SF x = SpecFloat.S754_finite false 9007199254740991 (-53)) by (rewrite Ex; vm_compute; reflexivity).
  clear - S. destruct x as [s|s| |s m e bb]; try discriminate. cbn [B2SF] in S. injection S as -> -> ->.
  cbn [B2R]. unfold F2R. cbn [Fnum Fexp cond_Zopp].
  change (Z.pos 9007199254740991) with (2 ^ 53 - 1)%Z. rewrite minus_IZR, <- bpow_IZR, Rmult_minus_distr_r, <- bpow_plus, Rmult_1_l by lia. reflexivity.
Qed.
Print Assumptions C117_uniform_refuted.

(** ** Runs *)
Definition fl (l : list Z) : list f64 := map f64_of_Z l.
Definition see (g : option (list (list (list f64)))) := option_map (map (map (map B2SF))) g.
(** four frames, one ROI of two pixels and one of one, two buffers, two levels: lags 0, 1 and (blocks of two frames) 2 *)
Definition frames : list (list f64) := [fl [1; 2; 9; 4]; fl [3; 2; 9; 5]; fl [2; 1; 9; 4]; fl [1; 1; 9; 7]]%Z.
Definition tt l k k' : list f64 := map (float_tt [1; 1; 0; 2]%Z frames l k k') [1; 2]%nat.
Definition o2 : list f64 := [fzero; fzero].
Example run : see (two_time_corr [1; 1; 0; 2]%Z frames 4 2 2)
  = see (Some [[tt 0 0 0; tt 0 0 1; tt 1 0 1; o2]; [tt 0 0 1; tt 0 1 1; tt 0 1 2; tt 1 0 1];
               [tt 1 0 1; tt 0 1 2; tt 0 2 2; tt 0 2 3]; [o2; tt 1 0 1; tt 0 2 3; tt 0 3 3]]).
Proof. vm_compute. reflexivity. Qed.
(** frames 0 and 1: (1*3 + 2*2) / (3 * 5) * 2 *)
Example cell01 : map B2SF (tt 0 0 1) = map B2SF [fmul (fdiv (f64_of_Z 7) (f64_of_Z 15)) (f64_of_Z 2); fone].
Proof. vm_compute. reflexivity. Qed.
(** a NaN in frame 2 of ROI 1 *)
Definition hot : list (list f64) := [fl [1; 2; 9; 4]; fl [3; 2; 9; 5]; [B754_nan; f64_of_Z 1; f64_of_Z 9; f64_of_Z 4]; fl [1; 1; 9; 7]]%Z.
Example hot_run : option_map (map (map (map is_nan))) (two_time_corr [1; 1; 0; 2]%Z hot 4 2 2)
  = Some (map (map (fun b => [b; false])) [[false; false; true; false]; [false; false; true; true]; [true; true; true; true]; [false; true; true; false]]).
Proof. vm_compute. reflexivity. Qed.
(** background-subtracted pixels summing to zero: inf off the diagonal, NaN on it *)
Example cancel_run : see (two_time_corr [1; 1]%Z (repeat [f64_of_Z 1; f64_of_Z (-1)] 2) 2 2 1)
  = see (Some [[[B754_nan]; [B754_infinity false]]; [[B754_infinity false]; [B754_nan]]]).
Proof. vm_compute. reflexivity. Qed.
(** 49 pixels of 3 counts and then 5 counts *)
Example uniform_run : see (two_time_corr (repeat 1%Z 49) [repeat (f64_of_Z 3) 49; repeat (f64_of_Z 5) 49] 2 2 1)
  = Some (repeat (repeat [SpecFloat.S754_finite false 9007199254740991 (-53)] 2) 2).
Proof. vm_compute. reflexivity. Qed.
Example lag_inhabited : on_lag 2 2 4 3 1 1 1 1.
Proof. split; [vm_compute; lia|]. split; [lia|]. split; [cbn; lia|]. exists 1%nat. cbn. lia. Qed.
Example light : 0 < exact_roi [1; 1]%Z (exact_block [[1; 2]; [3; 2]; [2; 1]; [1; 1]]%Z 1 1) 1.
Proof. unfold exact_roi. change (roi_positions [1; 1]%Z 1) with [0; 1]%nat. cbn [map]. unfold exact_block, block_frames, exact_mean. cbn. lra. Qed.
