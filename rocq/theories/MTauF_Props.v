(* C115: the one-time multi-tau correlator in double precision.
   /repo/skbeam/core/correlation.py 69-157, 202-256, 259-410, 413-429. *)
From Coq Require Import Reals.
From Flocq Require Import Core IEEE754.BinarySingleNaN.
From Verif Require Import Common F64 RunMean_Model RunMean_Spec MultiTau_Spec MTauF_Model MTauF_Spec MTauF_Main MTauF_Acc MTauF_G2.
From Coq Require Import Lra Lia.
Local Open Scope R_scope.

(** Every reported number is the double obtained by averaging blocks pairwise, pixels in raster order and pairs stepwise,
    and rows stop exactly at the first lag where some ROI's past average is zero. *)
Theorem C115_values (nb L : nat) labels images :
  (nb mod 2 = 0)%nat -> (2 <= nb)%nat -> (1 <= L)%nat -> images <> [] -> (forall im, In im images -> length im = length labels) ->
  exists g2 lags, multi_tau_auto_corr nb L labels images = Some (g2, lags) /\ float_result nb L labels images g2 lags.
Proof. exact (corr_ok nb L labels images). Qed.
Print Assumptions C115_values.

Lemma entry (nb L : nat) labels images g2 lags l i r row x :
  (nb mod 2 = 0)%nat -> (2 <= nb)%nat -> (1 <= L)%nat -> images <> [] -> (forall im, In im images -> length im = length labels) ->
  multi_tau_auto_corr nb L labels images = Some (g2, lags) -> is_lag nb L l i -> (1 <= r)%nat ->
  nth_error g2 (lag_pos nb l i) = Some row -> nth_error row (r - 1) = Some x -> (r <= n_rois labels)%nat /\ x = float_g2 labels images l i r.
Proof.
  intros He Hb HL Hne Hlen E Hi Hr Hrow Hx. destruct (corr_ok nb L labels images He Hb HL Hne Hlen) as (g & ls & E' & _ & _ & A & _).
  rewrite E in E'. injection E' as <- <-. destruct (A l i Hi) as (_ & B & _); [apply nth_error_Some; congruence|].
  rewrite B in Hrow. injection Hrow as <-. assert (Hlt : (r - 1 < n_rois labels)%nat).
  { rewrite <- (seq_length (n_rois labels) 1), <- (map_length (float_g2 labels images l i)). apply nth_error_Some. congruence. }
  split; [lia|]. rewrite <- seq_shift, map_map, nth_error_map_seq in Hx by exact Hlt. injection Hx as <-. f_equal. lia.
Qed.

(** One infinite pixel: unlike NaN it is not skipped, and the lag's entry for that ROI is not a finite number. *)
Theorem C115_infinite_refuted (nb L : nat) labels images g2 lags l i r row x k t p :
  (nb mod 2 = 0)%nat -> (2 <= nb)%nat -> (1 <= L)%nat -> images <> [] -> (forall im, In im images -> length im = length labels) ->
  multi_tau_auto_corr nb L labels images = Some (g2, lags) -> is_lag nb L l i -> (1 <= r)%nat ->
  nth_error g2 (lag_pos nb l i) = Some row -> nth_error row (r - 1) = Some x ->
  (k + i < length images / 2 ^ l)%nat -> fgood labels images l k = true -> fgood labels images l (k + i) = true ->
  (k * 2 ^ l <= t < (k + 1) * 2 ^ l \/ (k + i) * 2 ^ l <= t < (k + i + 1) * 2 ^ l)%nat ->
  In p (roi_positions labels r) -> is_finite (nth p (nth t images []) fzero) = false ->
  is_finite x = false.
Proof.
  intros He Hb HL Hne Hlen E Hi Hr Hrow Hx Hk G1 G2 Ht Hp Hn. destruct (entry _ _ _ _ _ _ _ _ _ _ _ He Hb HL Hne Hlen E Hi Hr Hrow Hx) as [_ ->].
  apply (g2_nf labels images l i r k t p); auto. unfold fgood_pairs. apply filter_In. split; [apply in_seq; lia|]. rewrite G1, G2. reflexivity.
Qed.
Print Assumptions C115_infinite_refuted.

(** Images of counts 0..M, ROI of N pixels, level l with N * M^2 * 4^l <= 2^53: the three averages over n pairs of blocks
    are within (n + 14)/2 units of 2^-53 (relative to M^2, M, M) of the exact ones. *)
Theorem C115_averages labels z M l i r :
  (forall im, In im z -> length im = length labels) -> (forall im x, In im z -> In x im -> (0 <= x <= M)%Z) -> (1 <= M)%Z ->
  (1 <= r <= n_rois labels)%nat -> (Z.of_nat (length (roi_positions labels r)) * (M * M * 4 ^ Z.of_nat l) <= 2 ^ 53)%Z ->
  ((i + 1) * 2 ^ l <= length z)%nat -> (Z.of_nat (length z) < 2 ^ 53)%Z ->
  let images := map (map f64_of_Z) z in let d := (INR (length z / 2 ^ l - i) + 14) / 2 * bpow radix2 (-53) in
  is_finite (float_G labels images l i r) = true /\ is_finite (float_past labels images l i r) = true /\ is_finite (float_fut labels images l i r) = true /\
  Rabs (B2R (float_G labels images l i r) - exact_G labels z l i r) <= d * IZR (M * M) /\
  Rabs (B2R (float_past labels images l i r) - exact_past labels z l i r) <= d * IZR M /\
  Rabs (B2R (float_fut labels images l i r) - exact_fut labels z l i r) <= d * IZR M.
Proof.
  intros Hlen HM HM1 Hr HN Hreach Hshort images d.
  pose proof (counts_close labels z M l Hlen HM HM1 ltac:(eapply HB_of; eassumption) r Hr HN i Hreach Hshort) as H.
  unfold block_pairs in H. rewrite seq_length in H. exact H.
Qed.
Print Assumptions C115_averages.

(** ... and the reported g2, as long as the exact averages are not themselves as small as those errors. *)
Theorem C115_g2_error (nb L : nat) labels z M l i r g2 lags row x :
  (nb mod 2 = 0)%nat -> (2 <= nb)%nat -> (1 <= L)%nat ->
  (forall im, In im z -> length im = length labels) -> (forall im x, In im z -> In x im -> (0 <= x <= M)%Z) -> (1 <= M)%Z ->
  (Z.of_nat (length (roi_positions labels r)) * (M * M * 4 ^ Z.of_nat l) <= 2 ^ 53)%Z ->
  ((i + 1) * 2 ^ l <= length z)%nat -> (Z.of_nat (length z) < 2 ^ 53)%Z ->
  multi_tau_auto_corr nb L labels (map (map f64_of_Z) z) = Some (g2, lags) -> is_lag nb L l i -> (1 <= r)%nat ->
  nth_error g2 (lag_pos nb l i) = Some row -> nth_error row (r - 1) = Some x ->
  let d := (INR (length z / 2 ^ l - i) + 14) / 2 * bpow radix2 (-53) in
  let P := exact_past labels z l i r in let F := exact_fut labels z l i r in
  2 * d * IZR M <= P -> 2 * d * IZR M <= F ->
  is_finite x = true /\
  Rabs (B2R x - exact_g2 labels z l i r) <= 10 * d * (IZR M * IZR M) / (P * F) * (IZR M / P + IZR M / F).
Proof.
  intros He Hb HL Hlen HM HM1 HN Hreach Hshort E Hi Hr Hrow Hx.
  destruct (entry nb L labels (map (map f64_of_Z) z) g2 lags l i r row x) as [Hr2 ->]; auto.
  { destruct z; [|discriminate]. pose proof (Nat.pow_nonzero 2 l ltac:(lia)). cbn [length] in Hreach. nia. }
  { intros im Him. apply in_map_iff in Him as (im' & <- & Him). rewrite map_length. apply Hlen. exact Him. }
  pose proof (g2_close labels z M l i r Hlen HM HM1 (conj Hr Hr2) HN Hreach Hshort) as H.
  unfold block_pairs in H. rewrite seq_length in H. exact H.
Qed.
Print Assumptions C115_g2_error.

(** Static images (every frame the same; ROI pixels positive, neither huge nor tiny): exactly the lags with a complete pair
    of blocks are reported, and all of them carry the same doubles - no drift with lag, level or number of frames. *)
Theorem C115_static (nb L : nat) labels im (n : nat) :
  (nb mod 2 = 0)%nat -> (2 <= nb)%nat -> (1 <= L)%nat -> (1 <= n)%nat -> (Z.of_nat n < 2 ^ 53)%Z ->
  length im = length labels -> (Z.of_nat (length labels) <= 2 ^ 53)%Z -> (1 <= n_rois labels)%nat ->
  (forall p, In p (all_positions labels) -> is_finite (nth p im fzero) = true /\ bpow radix2 (-450) <= B2R (nth p im fzero) <= bpow radix2 450) ->
  exists g2 lags, multi_tau_auto_corr nb L labels (repeat im n) = Some (g2, lags) /\ length g2 = length lags /\
    (forall l i, is_lag nb L l i -> ((lag_pos nb l i < length g2)%nat <-> ((i + 1) * 2 ^ l <= n)%nat)) /\
    (forall l i, is_lag nb L l i -> ((i + 1) * 2 ^ l <= n)%nat ->
       nth_error lags (lag_pos nb l i) = Some (i * 2 ^ l)%nat /\
       nth_error g2 (lag_pos nb l i) = Some (map (fun r =>
         fdiv (froi labels (fun p => fmul (nth p im fzero) (nth p im fzero)) r)
              (fmul (froi labels (fun p => nth p im fzero) r) (froi labels (fun p => nth p im fzero) r))) (seq 1 (n_rois labels)))).
Proof. intros He Hb HL Hn1 Hn Hlen Hs HK Hp. exact (static_result labels im n Hp Hs Hn nb L He Hb HL Hn1 Hlen HK). Qed.
Print Assumptions C115_static.

(** A static ROI of equal counts a has g2 = 1.0 exactly. *)
Theorem C115_uniform labels im r a :
  (Z.of_nat (length labels) <= 2 ^ 53)%Z ->
  (1 <= r <= n_rois labels)%nat -> (1 <= a)%Z -> (Z.of_nat (length (roi_positions labels r)) * (a * a) <= 2 ^ 53)%Z ->
  (forall p, In p (roi_positions labels r) -> nth p im fzero = f64_of_Z a) ->
  fdiv (froi labels (fun p => fmul (nth p im fzero) (nth p im fzero)) r)
       (fmul (froi labels (fun p => nth p im fzero) r) (froi labels (fun p => nth p im fzero) r)) = fone.
Proof. intros Hs. exact (uniform_one labels im Hs r a). Qed.
Print Assumptions C115_uniform.

(** ... but not of equal fractions: three pixels of 0.1 *)
Definition tenth : f64 := fdiv (f64_of_Z 1) (f64_of_Z 10).
Theorem C115_uniform_refuted (n : nat) : (1 <= n)%nat -> (Z.of_nat n < 2 ^ 53)%Z ->
  exists g2 lags, multi_tau_auto_corr 4 3 [1; 1; 1]%Z (repeat [tenth; tenth; tenth] n) = Some (g2, lags) /\
    forall l i row, is_lag 4 3 l i -> nth_error g2 (lag_pos 4 l i) = Some row -> map B2SF row <> [B2SF fone].
Proof.
  intros Hn1 Hn. destruct (C115_static 4 3 [1; 1; 1]%Z [tenth; tenth; tenth] n) as (g2 & lags & E & _ & A & B); [reflexivity|lia|lia|exact Hn1|exact Hn|reflexivity|vm_compute; discriminate|vm_compute; lia| |].
  - assert (T : B2R tenth = IZR 7205759403792794 * bpow radix2 (-56)).
    { assert (S : B2SF tenth = SpecFloat.S754_finite false 7205759403792794 (-56)) by (vm_compute; reflexivity).
      clear - S. generalize dependent tenth. intros x S. destruct x; try discriminate. cbn [B2SF] in S. injection S as -> -> ->. reflexivity. }
    assert (F : is_finite tenth = true) by (vm_compute; reflexivity).
    assert (R1 : bpow radix2 (-450) <= B2R tenth <= bpow radix2 450).
    { rewrite T. split.
      - apply Rle_trans with (1 * bpow radix2 (-56)); [rewrite Rmult_1_l; apply bpow_le; lia|]. apply Rmult_le_compat_r; [apply bpow_ge_0|]. apply IZR_le. lia.
      - apply Rle_trans with (bpow radix2 53 * bpow radix2 (-56)); [|rewrite <- bpow_plus; apply bpow_le; lia]. apply Rmult_le_compat_r; [apply bpow_ge_0|].
        rewrite bpow_IZR by lia. apply IZR_le. lia. }
    intros p Hp. cbn in Hp. destruct Hp as [<-|[<-|[<-|[]]]]; cbn [nth]; split; assumption.
  - exists g2, lags. split; [exact E|]. intros l i row Hi Hrow.
    assert (Hr : ((i + 1) * 2 ^ l <= n)%nat) by (apply (A l i Hi), nth_error_Some; congruence).
    destruct (B l i Hi Hr) as [_ B2]. apply (f_equal (option_map (map B2SF))) in B2. rewrite Hrow in B2. cbn [option_map] in B2.
    intros C. rewrite C in B2. clear - B2. vm_compute in B2. discriminate B2.
Qed.
Print Assumptions C115_uniform_refuted.

(** ** Runs *)
Definition fl (l : list Z) : list f64 := map f64_of_Z l.
(** five frames of four pixels, two ROIs, two buffers, two levels: lags 0, 1, 2; the last frame has a NaN outside the ROIs *)
Definition frames : list (list f64) := [fl [1; 2; 9; 4]; fl [3; 2; 9; 5]; fl [2; 1; 9; 4]; fl [1; 1; 9; 7]; [f64_of_Z 2; f64_of_Z 3; B754_nan; f64_of_Z 1]]%Z.
Example run : option_map (fun p => (map (map B2SF) (fst p), snd p)) (multi_tau_auto_corr 2 2 [1; 1; 0; 2]%Z frames)
  = Some (map (map B2SF) (map (fun i => map (float_g2 [1; 1; 0; 2]%Z frames 0 i) [1; 2]%nat) [0; 1]%nat ++ [map (float_g2 [1; 1; 0; 2]%Z frames 1 1) [1; 2]%nat]), [0; 1; 2]%nat).
Proof. vm_compute. reflexivity. Qed.
(** lag 0 of ROI 1: products 2.5, 6.5, 2.5, 1, 6.5 on average 3.8, past and future 1.5, 2.5, 1.5, 1, 2.5 on average 1.8 *)
Example lag0 : B2SF (float_past [1; 1; 0; 2]%Z frames 0 0 1) = B2SF (fdiv (f64_of_Z 18) (f64_of_Z 10)).
Proof. vm_compute. reflexivity. Qed.
(** an infinite pixel in the third frame spoils every lag of its ROI and no other *)
Definition hot : list (list f64) := [fl [1; 2; 9; 4]; fl [3; 2; 9; 5]; [B754_infinity false; f64_of_Z 1; f64_of_Z 9; f64_of_Z 4]; fl [1; 1; 9; 7]]%Z.
Example hot_run : option_map (fun p => map (map is_finite) (fst p)) (multi_tau_auto_corr 2 2 [1; 1; 0; 2]%Z hot)
  = Some [[false; true]; [false; true]; [false; true]].
Proof. vm_compute. reflexivity. Qed.
(** hypotheses of the error bound: two-pixel ROI, counts up to 3, level 1 *)
Example error_hyps : let z := [[1; 2]; [3; 2]; [2; 1]; [1; 1]]%Z in
  (Z.of_nat (length (roi_positions [1; 1]%Z 1)) * (3 * 3 * 4 ^ Z.of_nat 1) <= 2 ^ 53)%Z /\ ((1 + 1) * 2 ^ 1 <= length z)%nat /\
  exact_past [1; 1]%Z z 1 1 1 = 2.
Proof.
  cbn zeta. split; [vm_compute; discriminate|]. split; [cbn; lia|]. unfold exact_past, block_pairs. cbn [length]. change (4 / 2 ^ 1 - 1)%nat with 1%nat. cbn [seq map].
  unfold exact_roi. change (roi_positions [1; 1]%Z 1) with [0; 1]%nat. cbn [map]. unfold exact_block, block_frames, exact_mean. cbn. field.
Qed.
(** static image, non-uniform: g2 = 2.5 / 2.25 at lags 0, 1, 2 of four frames *)
Example static_run : option_map (fun p => (map (map B2SF) (fst p), snd p)) (multi_tau_auto_corr 2 2 [1; 1; 0]%Z (repeat (fl [1; 2; 5]%Z) 4))
  = Some (repeat [B2SF (fdiv (fdiv (f64_of_Z 5) (f64_of_Z 2)) (fdiv (f64_of_Z 9) (f64_of_Z 4)))] 3, [0; 1; 2]%nat).
Proof. vm_compute. reflexivity. Qed.
