(* C110: speckle visibility of images of an integer type. *)
From Verif Require Import Common QcArith IntType_Model IntType_Spec IntType_Proofs Xsvs_Model Xsvs_Spec Xsvs_Proofs.

(** C110: speckle visibility: the images of the longer integration times are sums reduced to the type of the pixels. *)
Lemma mixed_as_ext f g npix imgs l n : (forall z, f z = g z) -> mixed_as f npix imgs l n = mixed_as g npix imgs l n.
Proof. intros H. unfold mixed_as. destruct (existsb _ _); [reflexivity|]. f_equal. apply map_ext. intros p. apply H. Qed.
Lemma mean_good_ext f g h n : (forall m, f m = g m) -> mean_good f h n = mean_good g h n.
Proof.
  intros H. unfold mean_good. assert (E : filter (fun m => is_good (f m)) (seq 0 n) = filter (fun m => is_good (g m)) (seq 0 n)) by (apply filter_ext; intros m; now rewrite H).
  rewrite E. destruct (_ =? 0); [reflexivity|]. do 2 f_equal. apply map_ext. intros m. now rewrite H.
Qed.
Theorem C110_xsvs t red T num_times labels max_cts imgs : numpy_int t -> (forall z, reduced t z (red z)) -> 2 <= T -> 1 <= num_times ->
  (forall x, In (Some x) imgs -> length x = length labels /\ Forall (of_type t) x) ->
  exists p v, xsvs (store t) T num_times labels max_cts [imgs] = Some (p, v) /\ forall l j b, l < num_times ->
    let h := fun px => density max_cts l (roi_data labels px j) b in
    p l j b = mean_good (mixed_as red (length labels) imgs l) h (length imgs) /\
    v l j b = (mean_good (mixed_as red (length labels) imgs l) (fun px => h px * h px) (length imgs) - p l j b * p l j b)%Qc.
Proof.
  intros Ty R HT Hn W. assert (Tb : (1 <= bits t)%Z) by (pose proof (numpy_bits t Ty); lia).
  destruct (xsvs_one_set (store t) T num_times labels max_cts (store_0 t Tb) (store_add t Tb) HT Hn imgs) as (p & v & E & H).
  - intros x I. destruct (W x I) as [L O]. split; [exact L|]. eapply Forall_impl; [|exact O]. intros a Oa. apply store_id; assumption.
  - exists p, v. split; [exact E|]. intros l j b Hl h. destruct (H l j b Hl) as [H1 H2]. unfold set_mean, set_mean2 in *. rewrite H2, H1.
    assert (X : forall n, mixed_as (store t) (length labels) imgs l n = mixed_as red (length labels) imgs l n).
    { intros n. apply mixed_as_ext. intros z. apply (reduced_unique t Tb z); [apply store_reduced, Tb|apply R]. }
    split; [exact (mean_good_ext _ _ _ _ X)|]. f_equal. exact (mean_good_ext _ _ _ _ X).
Qed.
Print Assumptions C110_xsvs.
(** C110: 8-bit frames with 200 and 60 counts: the doubled exposure is entered as one with 4 counts, although 260 is far
    beyond the 8 counts the histogram starts from. *)
Theorem C110_xsvs_refuted :
  match xsvs (store uint8) 2 2 [1]%Z 8 [[Some [200]; Some [60]]]%Z, xsvs exactly 2 2 [1]%Z 8 [[Some [200]; Some [60]]]%Z with
  | Some (p, _), Some (q, _) => this (p 1 0 4) = (1 # 2)%Q /\ this (q 1 0 4) = 0%Q
  | _, _ => False
  end.
Proof. vm_compute. auto. Qed.
Print Assumptions C110_xsvs_refuted.
(** C110: the sums are right, and with them the result, if no pixel exceeds M counts and M 2^l, the weights of level l
    adding up to 2^l, is a value of the type. *)
Lemma zsum_bounds n f g M : (forall k, k < n -> (0 <= g k)%Z /\ (0 <= f k <= M * g k)%Z) -> (0 <= zsum n f <= M * zsum n g)%Z.
Proof. induction n as [|n IH]; intros H; cbn [zsum]; [lia|]. pose proof (IH (fun k Hk => H k ltac:(lia))). pose proof (H n ltac:(lia)). lia. Qed.
Lemma binom_nonneg n : forall k, (0 <= binom n k)%Z.
Proof. induction n as [|n IH]; intros [|k]; cbn; try lia. pose proof (IH k). pose proof (IH (S k)). lia. Qed.
Theorem C110_xsvs_exact t npix imgs l n M : numpy_int t -> (0 <= M)%Z -> of_type t (M * 2 ^ Z.of_nat l) ->
  (forall m p, (0 <= pixel imgs m p <= M)%Z) ->
  mixed_as (store t) npix imgs l n = mixed npix imgs l n.
Proof.
  intros Ty HM O H. assert (Tb : (1 <= bits t)%Z) by (pose proof (numpy_bits t Ty); lia). unfold mixed_as.
  destruct (existsb _ _); [reflexivity|]. f_equal. apply map_ext_in. intros p I. apply store_id; [exact Tb|].
  rewrite <- binom_total in O.
  assert (B := zsum_bounds (l + 1) (fun k => if k <=? n then (binom l k * pixel imgs (n - k) p)%Z else 0%Z) (binom l) M).
  match type of B with ?P -> _ => assert (P) as K end.
  { intros k _. pose proof (binom_nonneg l k). pose proof (H (n - k) p). split; [lia|]. assert (0 <= M * binom l k)%Z by (apply Z.mul_nonneg_nonneg; lia).
    destruct (k <=? n); [|lia]. split; [apply Z.mul_nonneg_nonneg; lia|]. rewrite (Z.mul_comm M). apply Z.mul_le_mono_nonneg_l; lia. }
  specialize (B K). unfold of_type in *. pose proof (Z.pow_nonneg 2 (bits t - 1) ltac:(lia)). cbv beta in B.
  set (w := zsum _ (fun k => _)) in *. set (W := (M * _)%Z) in *. clearbody w W. unfold exactly. destruct (signed t); lia.
Qed.
Print Assumptions C110_xsvs_exact.
Example C110_xsvs_exact_ex : of_type uint8 (15 * 2 ^ Z.of_nat 4) /\
  mixed_as (store uint8) 1 [Some [15]; Some [14]; Some [15]; Some [15]; Some [15]]%Z 4 4 = Some [236]%Z /\
  mixed_as (store uint8) 1 [Some [15]; Some [14]; Some [15]; Some [15]; Some [255]]%Z 4 4 = Some [220]%Z.
Proof. split; [cbn; lia|]. split; reflexivity. Qed.
