(* C110: images whose pixels are of an integer type. *)
From Coq Require Import Permutation Sorted.
From Verif Require Import Common QcArith Utils_Model Utils_Spec Utils_Proofs CircAvg_Model CircAvg_Spec CircAvg_Proofs
  IntType_Model IntType_Spec IntType_Proofs BinStat_Model Roi_Spec BinStat_Spec IntImg_Model IntImg_Spec IntImg_Proofs.

Lemma st_red t z : numpy_int t -> reduced t z (store t z).
Proof. intros T. apply store_reduced. pose proof (numpy_bits t T). lia. Qed.

(** C110: bin_1D gives for every bin the sum of its values reduced to the range of their type, the number of samples being
    right; however numpy breaks the samples into blocks and orders equal ones. *)
Theorem C110_bins t block sort x y n lo hi : numpy_int t -> 0 < block -> sorts_samples sort ->
  length x = length y -> (0 < n)%Z -> (lo <= hi)%Qc -> let N := Z.to_nat n in
  exists bins val count, bin_1D_int t block sort x y (Some n) (Some lo) (Some hi) = Some (bins, val, count) /\
    length bins = S N /\ length val = N /\ length count = N /\
    (forall k, k <= N -> nth_error bins k = Some (bin_edge lo hi N k)) /\
    forall k, k < N -> exists v s c, nth_error val k = Some v /\ nth_error count k = Some c /\
      weight (in_bin lo hi N k) (combine x (map qz y)) (qz s) /\ reduced t s v /\
      weight (in_bin lo hi N k) (map (fun r => (r, 1%Qc)) x) c.
Proof.
  intros T B S L Hn Hle N. pose proof (numpy_bits t T) as Tb.
  destruct (bin_1D_int_ok t block sort Tb B S x y n lo hi L Hn Hle) as (bins & val & cnt & E & L1 & L2 & L3 & Be & Bv).
  exists bins, val, cnt. do 5 (split; [assumption|]). intros k Hk. destruct (Bv k Hk) as (s & c & V1 & V2 & V3 & V4).
  exists (store t s), s, c. repeat (split; [assumption|]). split; [apply st_red, T|exact V4].
Qed.
Print Assumptions C110_bins.
(** C110: circular_average of an integer image: ring totals are reduced before the division. *)
Theorem C110_rings t block sort radial image threshold n lo hi mask rs vs : numpy_int t -> 0 < block -> sorts_samples sort ->
  length radial = length image -> usedz mask radial image rs vs -> (0 < n)%Z -> (lo <= hi)%Qc -> (0 <= threshold)%Qc ->
  let N := Z.to_nat n in let px := combine rs (map qz vs) in
  exists centers averages ks, circular_average_int t block sort radial image threshold n (Some lo) (Some hi) mask = Some (centers, map Some averages) /\
    StronglySorted lt ks /\
    (forall k, In k ks <-> k < N /\ exists c s, ring lo hi N k px c (qz s) /\ (threshold < c)%Qc) /\
    Forall2 (fun k c => (c - bin_edge lo hi N k = bin_edge lo hi N (S k) - c)%Qc) ks centers /\
    Forall2 (fun k a => exists c s v, ring lo hi N k px c (qz s) /\ (0 < c)%Qc /\ reduced t s v /\ (a * c = qz v)%Qc) ks averages.
Proof.
  intros T B S L U Hn Hle Ht N px. pose proof (numpy_bits t T) as Tb.
  destruct (circular_int_ok t block sort Tb B S radial image threshold n lo hi mask rs vs L U Hn Hle Ht) as (cs & avs & ks & E & So & K & C & A).
  exists cs, avs, ks. do 4 (split; [assumption|]). clear -A T. induction A as [|k a ks avs (c & s & R & C & Ea) _ IH]; constructor; [|exact IH].
  exists c, s, (store t s). do 2 (split; [assumption|]). split; [apply st_red, T|exact Ea].
Qed.
Print Assumptions C110_rings.
(** C110: it is the average exactly if the ring's total is a value of the type. *)
Theorem C110_average_exact t s v (c a : Qc) : numpy_int t -> reduced t s v -> (0 < c)%Qc -> (a * c = qz v)%Qc -> ((a * c = qz s)%Qc <-> of_type t s).
Proof.
  intros T [O [m E]] C A. assert (Tb : (1 <= bits t)%Z) by (pose proof (numpy_bits t T); lia). rewrite A. split.
  - intros Q. apply qz_inj in Q. rewrite <- Q. exact O.
  - intros O'. f_equal. apply (reduced_unique t Tb s); [split; [exact O|exists m; exact E]|split; [exact O'|exists 0%Z; lia]].
Qed.
Print Assumptions C110_average_exact.
(** C110: what the eight types hold. *)
Theorem C110_types v :
  (store uint8 v = v <-> (0 <= v <= 255)%Z) /\ (store uint16 v = v <-> (0 <= v <= 65535)%Z) /\
  (store uint32 v = v <-> (0 <= v <= 4294967295)%Z) /\ (store uint64 v = v <-> (0 <= v <= 18446744073709551615)%Z) /\
  (store int8 v = v <-> (-128 <= v <= 127)%Z) /\ (store int16 v = v <-> (-32768 <= v <= 32767)%Z) /\
  (store int32 v = v <-> (-2147483648 <= v <= 2147483647)%Z) /\ (store int64 v = v <-> (-9223372036854775808 <= v <= 9223372036854775807)%Z).
Proof.
  assert (U : forall b, (0 < 2 ^ b)%Z -> store (IntType false b) v = v <-> (0 <= v <= 2 ^ b - 1)%Z).
  { intros b Hb. unfold store; cbn [signed bits]. pose proof (Z.mod_pos_bound v (2 ^ b) Hb). split; [lia|]. intros. apply Z.mod_small. lia. }
  assert (S : forall b, (0 < 2 ^ b)%Z -> (2 ^ b = 2 * 2 ^ (b - 1))%Z -> store (IntType true b) v = v <-> (- 2 ^ (b - 1) <= v <= 2 ^ (b - 1) - 1)%Z).
  { intros b Hb Hh. unfold store; cbn [signed bits]. pose proof (Z.mod_pos_bound (v + 2 ^ (b - 1)) (2 ^ b) Hb). split; [lia|]. intros. rewrite Z.mod_small; lia. }
  split; [exact (U 8%Z eq_refl)|]. split; [exact (U 16%Z eq_refl)|]. split; [exact (U 32%Z eq_refl)|]. split; [exact (U 64%Z eq_refl)|].
  split; [exact (S 8%Z eq_refl eq_refl)|]. split; [exact (S 16%Z eq_refl eq_refl)|]. split; [exact (S 32%Z eq_refl eq_refl)|exact (S 64%Z eq_refl eq_refl)].
Qed.
Print Assumptions C110_types.
Example C110_types_ex : store int16 40000 = (-25536)%Z /\ store uint16 70000 = 4464%Z /\ store int16 (-32768) = (-32768)%Z.
Proof. vm_compute. auto. Qed.
(** C110: so the average of a constant image need not be that constant: two pixels of 40000 counts held as uint16. *)
Definition by_position : list (Qc * Z) -> list (Qc * Z) :=
  fold_right (fun p => (fix ins l := match l with [] => [p] | q :: r => if Qc_leb (fst p) (fst q) then p :: l else q :: ins r end)) [].
Theorem C110_constant_image_refuted :
  option_map (fun r => (map this (fst r), map (option_map this) (snd r)))
    (circular_average_int uint16 3 by_position (map qz [0; 1; 1; 3]%Z) [40000; 40000; 40000; 40000]%Z 0%Qc 3 (Some (qz 0)) (Some (qz 3)) None) =
  Some ([1 # 2; 3 # 2; 5 # 2]%Q, map Some [40000; 7232; 40000]%Q).
Proof. vm_compute. reflexivity. Qed.
Print Assumptions C110_constant_image_refuted.
Lemma by_position_sorts : sorts_samples by_position.
Proof.
  intros l. induction l as [|p l [P S]]; [split; constructor|]. unfold by_position in *. cbn [fold_right].
  set (s := fold_right _ [] l) in *. clearbody s.
  set (ins := fix ins l := match l with [] => [p] | q :: r => if Qc_leb (fst p) (fst q) then p :: l else q :: ins r end).
  assert (I : Permutation (p :: s) (ins s) /\ StronglySorted (fun a b : Qc * Z => (fst a <= fst b)%Qc) (ins s)).
  { clear P l. induction s as [|q r IH]; [split; [reflexivity|repeat constructor]|]. cbn [ins]. fold ins. inversion S as [|? ? Sr Fr]; subst.
    destruct (Qc_leb_spec (fst p) (fst q)) as [H|H].
    - split; [reflexivity|]. constructor; [exact S|]. constructor; [exact H|]. eapply Forall_impl; [|exact Fr]. cbn. intros a Ha. qclra.
    - destruct (IH Sr) as [P' S']. split; [rewrite perm_swap; constructor; exact P'|]. constructor; [exact S'|].
      apply (Permutation_Forall P'). constructor; [qclra|exact Fr]. }
  destruct I as [I1 I2]. split; [rewrite <- I1; constructor; exact P|exact I2].
Qed.
(** the hypotheses of C110_bins and C110_rings are met by uint16 and the order above; 130000 counts in the second bin become 64464 *)
Example C110_bins_ex : numpy_int uint16 /\ sorts_samples by_position /\
  option_map (fun r => snd (fst r)) (bin_1D_int uint16 2 by_position (map qz [3; 0; 2; 3]%Z) [60000; 7; 60000; 10000]%Z (Some 2%Z) (Some (qz 0)) (Some (qz 4)))
  = Some [7; 64464]%Z /\ reduced uint16 130000 64464.
Proof.
  split; [unfold numpy_int; cbn; auto|]. split; [exact by_position_sorts|]. split; [vm_compute; reflexivity|].
  split; [cbn; lia|]. exists (-1)%Z. reflexivity.
Qed.

(** C110: reference subtraction: pixels darker than the reference come out wrong for unsigned types, by 2^bits. *)
Theorem C110_reference t imgs refs outs : numpy_int t ->
  (forall im, In im imgs -> Forall (of_type t) im) ->
  subtract_reference_ints t imgs refs = Some outs ->
  forall i im, nth_error imgs i = Some im -> nth_error refs i = Some false ->
    exists r ir out, last_ref_before refs i r /\ nth_error imgs r = Some ir /\
      nth_error outs (count_false (firstn i refs)) = Some out /\
      forall p a b, nth_error im p = Some a -> nth_error ir p = Some b ->
        exists v, nth_error out p = Some v /\ reduced t (a - b) v /\
          (signed t = false -> (a < b)%Z -> v = (a - b + 2 ^ bits t)%Z) /\ (signed t = false -> (b <= a)%Z -> v = (a - b)%Z).
Proof.
  intros T W E i im Hi Hr. destruct (subref_ok (sub_img t) imgs refs) as [_ H]. destruct (H outs E) as [_ H'].
  destruct (H' i im Hi Hr) as (r & ir & R1 & R2 & R3). exists r, ir, (sub_img t im ir). do 3 (split; [assumption|]).
  intros p a b Ha Hb. exists (store t (a - b)). split.
  { unfold sub_img. rewrite nth_error_map, (nth_combine _ _ _ _ _ Ha Hb). reflexivity. }
  split; [apply st_red, T|]. assert (Tb : (1 <= bits t)%Z) by (pose proof (numpy_bits t T); lia).
  assert (Oa : of_type t a). { pose proof (W im (nth_error_In _ _ Hi)) as F. rewrite Forall_forall in F. apply F, (nth_error_In _ _ Ha). }
  assert (Ob : of_type t b). { pose proof (W ir (nth_error_In _ _ R2)) as F. rewrite Forall_forall in F. apply F, (nth_error_In _ _ Hb). }
  unfold of_type in Oa, Ob. split; intros U C; rewrite U in Oa, Ob; apply (reduced_unique t Tb (a - b)%Z); try apply st_red, T; unfold reduced, of_type; rewrite U.
  - split; [lia|]. exists 1%Z. lia.
  - split; [lia|]. exists 0%Z. lia.
Qed.
Print Assumptions C110_reference.
Example C110_reference_ex : subtract_reference_ints uint8 [[10; 20]; [12; 19]]%Z [true; false] = Some [[2; 255]]%Z /\
  subtract_reference_ints int8 [[10; 20]; [12; 19]]%Z [true; false] = Some [[2; -1]]%Z.
Proof. split; reflexivity. Qed.

(** C110: the standard deviation of BinnedStatistic objects: squares are reduced to the type of the values before they are averaged. *)
Theorem C110_std t edges points mask values : numpy_int t ->
  edges <> [] -> Forall strictly_increasing edges -> Forall (fun e => 2 <= length e) edges ->
  length values = length points -> (forall m, mask = Some m -> length m = length points) ->
  Forall (Forall2 clear_of_edge edges) points ->
  exists f, binned_std2_int t edges points mask values = Some f /\
    forall idx, valid_index edges idx -> exists vs sq,
      picked (fun p => (forall m, mask = Some m -> nth_error m p = Some true) /\
                       exists pt, nth_error points p = Some pt /\ in_cell edges idx pt) 0 values vs /\
      Forall2 (fun v s => reduced t (v * v) s) vs sq /\
      (vs = [] /\ f idx = Some 0%Qc \/ vs <> [] /\ f idx = Some (mean_of sq - mean_of vs * mean_of vs)%Qc) /\
      (Forall (fun v => of_type t (v * v)) vs -> is_stat SStd2 (map qz vs) (f idx)).
Proof.
  intros T H1 H2 H3 H4 H5 H6. destruct (binned_std2_ok t edges points mask values H1 H2 H3 H4 H5 H6) as (f & E & F). exists f. split; [exact E|].
  intros idx V. destruct (F idx V) as (vs & P & S). exists vs, (map (fun v => store t (v * v)) vs). split; [exact P|]. split.
  { clear -T. induction vs as [|v vs IH]; constructor; [apply st_red, T|exact IH]. }
  split; [exact S|]. intros O. destruct S as [[-> S]|[N S]]; [left; split; [reflexivity|exact S]|right]. split; [destruct vs; [contradiction|discriminate]|].
  rewrite S. f_equal. assert (Tb : (1 <= bits t)%Z) by (pose proof (numpy_bits t T); lia).
  assert (Em : map (fun v => store t (v * v)) vs = map (fun v => (v * v)%Z) vs).
  { clear -O Tb. induction O as [|v vs Ov _ IH]; [reflexivity|]. cbn [map]. rewrite IH, (store_id t Tb _ Ov). reflexivity. }
  rewrite Em. unfold mean_of. rewrite !map_map, !map_length. set (m := (qsum (map qz vs) / qn (length vs))%Qc).
  assert (Nz : qn (length vs) <> 0%Qc) by (apply qn_neq0; destruct vs; [contradiction|discriminate]).
  assert (Q : forall l, (qsum (map (fun x => (qz x - m) * (qz x - m)) l) = qsum (map (fun x => qz (x * x)) l) - (m + m) * qsum (map qz l) + m * m * qn (length l))%Qc).
  { induction l as [|x l IH]; [cbn; change (qn 0) with 0%Qc; ring|]. cbn [map qsum length]. rewrite IH, qn_S, qz_mul. ring. }
  rewrite Q. assert (M : qsum (map qz vs) = (m * qn (length vs))%Qc) by (unfold m; field; exact Nz). rewrite M. field. exact Nz.
Qed.
Print Assumptions C110_std.
(** C110: 16-bit counts of 300, all alike: the number under the square root is negative, the deviation nan instead of 0. *)
Theorem C110_std_refuted : exists f, binned_std2_int uint16 [map qn [0; 1; 2]] [[qn 0]; [qn 0]; [qn 1]] None [300; 300; 255]%Z = Some f /\
  f [0] = Some (qz (-65536)) /\ f [1] = Some 0%Qc.
Proof. eexists. split; [reflexivity|]. split; vm_compute; reflexivity. Qed.
Print Assumptions C110_std_refuted.

