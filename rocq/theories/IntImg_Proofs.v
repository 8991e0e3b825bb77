From Coq Require Import Permutation Sorted.
From Verif Require Import Common QcArith Utils_Model Utils_Spec Utils_Proofs Edges_Proofs CircAvg_Model CircAvg_Spec CircAvg_Proofs
  IntType_Model IntType_Spec IntType_Proofs BinStat_Model Roi_Spec BinStat_Spec BinStat_Proofs BinStat_Main BinStat_More IntImg_Model IntImg_Spec.

(** ** Sums of integer weights *)
Definition zsum (l : list Z) : Z := fold_right Z.add 0%Z l.
Definition below (incl : bool) (xs : list (Qc * Z)) (e : Qc) : Z :=
  zsum (map snd (filter (fun p => if incl then Qc_leb (fst p) e else Qc_ltb (fst p) e) xs)).
Lemma zsum_app a b : zsum (a ++ b) = (zsum a + zsum b)%Z.
Proof. unfold zsum. induction a as [|x a IH]; cbn; lia. Qed.
Lemma zsum_perm a b : Permutation a b -> zsum a = zsum b.
Proof. unfold zsum. induction 1; cbn; lia. Qed.
Lemma filter_perm {A} (f : A -> bool) a b : Permutation a b -> Permutation (filter f a) (filter f b).
Proof.
  induction 1; cbn; [constructor| | |econstructor; eassumption].
  - destruct (f x); [constructor|]; assumption.
  - destruct (f x), (f y); try constructor; try apply Permutation_refl.
Qed.
Lemma below_perm incl a b e : Permutation a b -> below incl a e = below incl b e.
Proof. intros P. apply zsum_perm, Permutation_map, filter_perm, P. Qed.
Lemma below_app incl a b e : below incl (a ++ b) e = (below incl a e + below incl b e)%Z.
Proof. unfold below. rewrite filter_app, map_app. apply zsum_app. Qed.
(** on sorted samples those below an edge come first *)
Lemma sorted_prefix (incl : bool) e : forall s, StronglySorted (fun a b : Qc * Z => (fst a <= fst b)%Qc) s ->
  let f := fun x : Qc => if incl then Qc_leb x e else Qc_ltb x e in
  filter (fun p => f (fst p)) s = firstn (length (filter f (map fst s))) s.
Proof.
  intros s S f. induction S as [|p s S IH F]; [reflexivity|]. cbn [map filter]. destruct (f (fst p)) eqn:E.
  - cbn [length firstn]. f_equal. exact IH.
  - assert (N : forall q, In q s -> f (fst q) = false).
    { intros q I. rewrite Forall_forall in F. specialize (F q I). unfold f in *. destruct incl.
      - destruct (Qc_leb_spec (fst p) e); [discriminate|]. destruct (Qc_leb_spec (fst q) e); [|reflexivity]. exfalso. qclra.
      - destruct (Qc_ltb_spec (fst p) e); [discriminate|]. destruct (Qc_ltb_spec (fst q) e); [|reflexivity]. exfalso. qclra. }
    assert (L : forall l : list (Qc * Z), (forall q, In q l -> f (fst q) = false) -> filter f (map fst l) = [] /\ filter (fun q => f (fst q)) l = []).
    { induction l as [|q l IHl]; intros H; [split; reflexivity|]. cbn [map filter]. rewrite (H q (or_introl eq_refl)). apply IHl. intros r I. apply H. right. exact I. }
    destruct (L s N) as [-> ->]. reflexivity.
Qed.

Section Hist.
Context (t : int_type) (block : nat) (sort : list (Qc * Z) -> list (Qc * Z)).
Hypothesis Ht : (1 <= bits t <= 64)%Z.
Hypothesis Hb : 0 < block.
Hypothesis Hs : sorts_samples sort.
Local Notation st := (store t).
Lemma st_add a b : st (st a + st b) = st (a + b). Proof. apply store_add. lia. Qed.
Lemma st_idem a : st (st a) = st a. Proof. apply store_id; [lia|]. apply store_of. lia. Qed.
Lemma st_l a b : st (st a + b) = st (a + b). Proof. rewrite <- (st_add (st a) b), st_idem. apply st_add. Qed.
Lemma st_wide a : st (store (wide t) a) = st a. Proof. apply store_wider; cbn; lia. Qed.
Lemma cumsum_nth : forall l acc c, c < length l -> st (nth c (cumsum t acc l) 0%Z) = st (acc + zsum (firstn (S c) l)).
Proof.
  induction l as [|w l IH]; intros acc c H; [cbn in H; lia|]. cbn [cumsum]. destruct c as [|c].
  - cbn [nth firstn zsum fold_right]. rewrite st_wide. f_equal. lia.
  - cbn [nth]. rewrite IH by (cbn in H; lia). change (firstn (S (S c)) (w :: l)) with (w :: firstn (S c) l). cbn [zsum fold_right].
    fold (zsum (firstn (S c) l)). rewrite <- st_add, st_wide, st_add. f_equal. lia.
Qed.
Lemma cumsum_len : forall l acc, length (cumsum t acc l) = length l. Proof. induction l as [|w l IH]; intros acc; cbn; [reflexivity|]. now rewrite IH. Qed.
Lemma cw_nth l c : c <= length l -> st (nth c (0%Z :: cumsum t 0 l) 0%Z) = st (zsum (firstn c l)).
Proof. intros H. destruct c as [|c]; [reflexivity|]. cbn [nth]. rewrite cumsum_nth by lia. reflexivity. Qed.
Lemma block_nth bins blk k : k < length bins -> exists v, nth_error (block_cum t sort bins blk) k = Some v /\
  st v = st (below (S k =? length bins) blk (nth k bins 0%Qc)).
Proof.
  intros H. unfold block_cum. rewrite nth_error_map_seq by exact H. eexists. split; [reflexivity|]. destruct (Hs blk) as [P S].
  unfold searchsorted. set (incl := Datatypes.S k =? length bins). set (e := nth k bins 0%Qc).
  pose proof (sorted_prefix incl e (sort blk) S) as Q. cbv zeta in Q.
  rewrite cw_nth.
  - rewrite firstn_map, <- Q. rewrite (below_perm incl blk (sort blk) e P). reflexivity.
  - rewrite map_length, <- (map_length fst). clear. induction (map fst (sort blk)) as [|x l IH]; [cbn; lia|].
    cbn [filter length]. destruct (if incl then Qc_leb x e else Qc_ltb x e); cbn [length]; lia.
Qed.
Lemma block_len bins blk : length (block_cum t sort bins blk) = length bins.
Proof. unfold block_cum. now rewrite map_length, seq_length. Qed.
Lemma step_len bins cum blk : length cum = length bins -> length (hist_step t sort bins cum blk) = length bins.
Proof. intros L. unfold hist_step. rewrite map_length, combine_length, block_len, L. lia. Qed.
Lemma nth_combine {A B} (a : list A) (b : list B) k x y : nth_error a k = Some x -> nth_error b k = Some y -> nth_error (combine a b) k = Some (x, y).
Proof. revert b k. induction a as [|a0 a IH]; intros [|b0 b] [|k] H1 H2; cbn in *; try discriminate; [congruence|apply IH; assumption]. Qed.
Lemma step_nth bins cum blk k v : k < length bins -> nth_error cum k = Some v ->
  exists w, nth_error (hist_step t sort bins cum blk) k = Some w /\ w = st (v + below (S k =? length bins) blk (nth k bins 0%Qc)).
Proof.
  intros H E. destruct (block_nth bins blk k H) as (b & Eb & Sb). unfold hist_step. rewrite nth_error_map, (nth_combine _ _ _ _ _ E Eb). cbn [option_map fst snd].
  eexists. split; [reflexivity|]. rewrite <- st_add, Sb, st_add. reflexivity.
Qed.
Lemma fold_nth bins : forall bs cum k v, k < length bins -> length cum = length bins -> nth_error cum k = Some v -> st v = v ->
  nth_error (fold_left (hist_step t sort bins) bs cum) k = Some (st (v + below (S k =? length bins) (concat bs) (nth k bins 0%Qc))).
Proof.
  induction bs as [|blk bs IH]; intros cum k v H L E V.
  - cbn [fold_left concat]. unfold below. cbn. rewrite Z.add_0_r, V. exact E.
  - cbn [fold_left concat]. destruct (step_nth bins cum blk k v H E) as (w & Ew & ->).
    rewrite (IH _ k _ H (step_len bins cum blk L) Ew (st_idem _)). f_equal. rewrite below_app.
    rewrite st_l. f_equal. lia.
Qed.
Lemma blocks_concat : forall fuel l, length l <= fuel -> concat (blocks block fuel l) = l.
Proof.
  induction fuel as [|fuel IH]; intros l L; [destruct l; [reflexivity|cbn in L; lia]|]. destruct l as [|x l]; [reflexivity|].
  cbn [blocks concat]. rewrite IH; [apply firstn_skipn|]. rewrite skipn_length. cbn [length] in *. lia.
Qed.
Lemma nth_error_repeat' {A} (x : A) n k : k < n -> nth_error (repeat x n) k = Some x.
Proof. revert k. induction n as [|n IH]; intros [|k] H; cbn; try lia; [reflexivity|apply IH; lia]. Qed.
Lemma cum_nth xs bins k : k < length bins ->
  nth k (fold_left (hist_step t sort bins) (blocks block (length xs) xs) (repeat 0%Z (length bins))) 0%Z = st (below (S k =? length bins) xs (nth k bins 0%Qc)).
Proof.
  intros H. apply nth_error_nth. rewrite (fold_nth bins _ _ k 0%Z H).
  - rewrite blocks_concat by lia. reflexivity.
  - apply repeat_length.
  - apply nth_error_repeat', H.
  - apply store_0. lia.
Qed.
Definition zcum (xs : list (Qc * Z)) (bins : list Qc) (k : nat) : Z := below (S k =? length bins) xs (nth k bins 0%Qc).
Theorem histogram_int_nth xs bins k : k < length bins - 1 ->
  nth_error (histogram_int t block sort xs bins) k = Some (st (zcum xs bins (S k) - zcum xs bins k)).
Proof.
  intros H. unfold histogram_int. rewrite nth_error_map_seq by exact H. f_equal. rewrite !cum_nth by lia. apply store_sub. lia.
Qed.
Lemma histogram_int_len xs bins : length (histogram_int t block sort xs bins) = length bins - 1.
Proof. unfold histogram_int. now rewrite map_length, seq_length. Qed.
(** the exact sums *)
Definition lift (xs : list (Qc * Z)) : list (Qc * Qc) := map (fun p => (fst p, qz (snd p))) xs.
Lemma below_w_lift incl xs e : below_w incl (lift xs) e = qz (below incl xs e).
Proof.
  unfold below_w, below, lift. induction xs as [|[x w] xs IH]; [reflexivity|]. cbn [map filter fst snd].
  destruct (if incl then Qc_leb x e else Qc_ltb x e); cbn [map qsum zsum fold_right snd]; [|exact IH]. rewrite IH. symmetry. apply qz_add.
Qed.
Lemma combine_lift x : forall y, combine x (map qz y) = lift (combine x y).
Proof. induction x as [|a x IH]; intros [|b y]; cbn; try reflexivity. f_equal. apply IH. Qed.
Lemma histogram_w_lift xs bins k : k < length bins - 1 -> nth_error (histogram_w (lift xs) bins) k = Some (qz (zcum xs bins (S k) - zcum xs bins k)).
Proof.
  intros H. unfold histogram_w. rewrite nth_error_map_seq by exact H. f_equal. unfold cum_at, zcum. rewrite !below_w_lift. symmetry. apply qz_sub.
Qed.
Theorem bin_1D_int_ok x y n lo hi : length x = length y -> (0 < n)%Z -> (lo <= hi)%Qc ->
  let N := Z.to_nat n in
  exists bins val count, bin_1D_int t block sort x y (Some n) (Some lo) (Some hi) = Some (bins, val, count) /\
    length bins = S N /\ length val = N /\ length count = N /\
    (forall k, k <= N -> nth_error bins k = Some (bin_edge lo hi N k)) /\
    (forall k, k < N -> exists s c, nth_error val k = Some (st s) /\ nth_error count k = Some c /\
       weight (in_bin lo hi N k) (combine x (map qz y)) (qz s) /\
       weight (in_bin lo hi N k) (map (fun r => (r, 1%Qc)) x) c).
Proof.
  intros L Hn Hle N. destruct (bin_1D_ok x (map qz y) n lo hi) as (bins & val & cnt & B & L1 & L2 & L3 & Be & Bv & _); [rewrite map_length; exact L|exact Hn|exact Hle|].
  fold N in L1, L2, L3, Be, Bv. unfold bin_1D in B. unfold bin_1D_int. cbn [bind] in *. rewrite map_length in B.
  destruct (n <? 0)%Z; [discriminate|]. destruct (negb (length x =? length y)); [discriminate|]. destruct (negb (non_decreasing _)); [discriminate|].
  injection B as <- <- <-. fold N in L1, L2, L3, Be, Bv |- *. set (bins := linspace lo hi N) in *.
  do 3 eexists. split; [reflexivity|]. split; [exact L1|]. split; [rewrite histogram_int_len, L1; lia|]. split; [exact L3|]. split; [exact Be|].
  intros k Hk. destruct (Bv k Hk) as (v & c & V1 & V2 & V3 & V4). rewrite combine_lift in V1, V3 |- *.
  rewrite histogram_w_lift in V1 by lia. injection V1 as <-. exists (zcum (combine x y) bins (S k) - zcum (combine x y) bins k)%Z, c.
  split; [apply histogram_int_nth; lia|]. split; [exact V2|]. split; [exact V3|exact V4].
Qed.
Lemma picks_map {A B} (f : A -> B) m l k : picks m l k -> picks m (map f l) (map f k).
Proof. induction 1; cbn; constructor; assumption. Qed.
Theorem circular_int_ok radial image threshold n lo hi mask rs vs :
  length radial = length image -> usedz mask radial image rs vs -> (0 < n)%Z -> (lo <= hi)%Qc -> (0 <= threshold)%Qc ->
  let N := Z.to_nat n in let px := combine rs (map qz vs) in
  exists centers averages ks, circular_average_int t block sort radial image threshold n (Some lo) (Some hi) mask = Some (centers, map Some averages) /\
    StronglySorted lt ks /\
    (forall k, In k ks <-> k < N /\ exists c s, ring lo hi N k px c (qz s) /\ (threshold < c)%Qc) /\
    Forall2 (fun k c => (c - bin_edge lo hi N k = bin_edge lo hi N (S k) - c)%Qc) ks centers /\
    Forall2 (fun k a => exists c s, ring lo hi N k px c (qz s) /\ (0 < c)%Qc /\ (a * c = qz (st s))%Qc) ks averages.
Proof.
  intros L U Hn Hle Ht0 N px.
  assert (E : CircAvg_Model.select mask radial = rs /\ CircAvg_Model.select mask image = vs /\ length rs = length vs).
  { destruct mask as [m|]; cbn [usedz] in U.
    - destruct U as [U1 U2]. assert (Lm : length m = length radial) by (clear -U1; induction U1; cbn; congruence).
      split; [|split].
      + exact (picks_fun m radial _ _ (picks_select m radial Lm) U1).
      + rewrite L in Lm. exact (picks_fun m image _ _ (picks_select m image Lm) U2).
      + exact (picks_length m radial image rs vs U1 U2).
    - destruct U as [-> ->]. auto. }
  destruct E as (E1 & E2 & L').
  destruct (bin_1D_int_ok rs vs n lo hi L' Hn Hle) as (bins & val & cnt & B & L1 & L2 & L3 & Be & Bv).
  fold N in L1, L2, L3, Be, Bv. fold px in Bv.
  unfold circular_average_int. rewrite E1, E2, B. cbn [bind].
  assert (Lq : length rs = length (map qz vs)) by (rewrite map_length; exact L').
  set (m := map (fun c => Qc_ltb threshold c) cnt).
  assert (Lmm : length m = N) by (unfold m; rewrite map_length; exact L3).
  assert (KI : forall k, In k (kept 0 m) <-> k < N /\ exists c s, ring lo hi N k px c (qz s) /\ (threshold < c)%Qc).
  { intros k. rewrite kept_in. split.
    - intros (i & Ei & H). cbn in Ei. subst i. unfold m in H. rewrite nth_error_map in H. destruct (nth_error cnt k) as [c|] eqn:Ec; [|discriminate].
      assert (Hk : k < N) by (rewrite <- L3; apply nth_error_Some; congruence). split; [exact Hk|]. destruct (Bv k Hk) as (v & c' & V1 & V2 & V3 & V4).
      rewrite Ec in V2. apply some_inj in V2. subst c'. exists c, v. split.
      + split; [exact V3|]. unfold px. rewrite map_combine_fst by exact Lq. exact V4.
      + cbn in H. injection H as H. now destruct (Qc_ltb_spec threshold c).
    - intros (Hk & c & s & [R1 R2] & Hth). exists k. split; [reflexivity|]. destruct (Bv k Hk) as (v & c' & V1 & V2 & V3 & V4). unfold m. rewrite nth_error_map, V2. cbn.
      unfold px in R2. rewrite map_combine_fst in R2 by exact Lq. rewrite (weight_fun _ _ _ _ V4 R2). now destruct (Qc_ltb_spec threshold c). }
  assert (X : exists avs, map (fun p => np_div (qz (fst p)) (snd p)) (combine (take_mask m val) (take_mask m cnt)) = map Some avs /\
    Forall2 (fun k a => exists c s, ring lo hi N k px c (qz s) /\ (0 < c)%Qc /\ (a * c = qz (st s))%Qc) (kept 0 m) avs).
  { assert (F : Forall2 (fun k o => exists c s, ring lo hi N k px c (qz s) /\ (0 < c)%Qc /\ o = Some (qz (st s) / c)%Qc)
                  (kept 0 m) (map (fun p => np_div (qz (fst p)) (snd p)) (combine (take_mask m val) (take_mask m cnt)))).
    { apply (F2_impl_in (fun k o => exists v c, nth_error val k = Some v /\ nth_error cnt k = Some c /\ o = np_div (qz v) c)).
      - intros k o Ik (v & c & H1 & H2 & ->). apply KI in Ik as (Hk & c' & s' & [R1 R2] & C). destruct (Bv k Hk) as (s & c2 & V1 & V2 & V3 & V4).
        rewrite H1 in V1. apply some_inj in V1. subst v. rewrite H2 in V2. apply some_inj in V2. subst c2.
        unfold px in R2. rewrite map_combine_fst in R2 by exact Lq. rewrite (weight_fun _ _ _ _ R2 V4) in C.
        exists c, s. split; [split; [exact V3|unfold px; rewrite map_combine_fst by exact Lq; exact V4]|].
        assert (C0 : (0 < c)%Qc) by qclra. split; [exact C0|]. unfold np_div. destruct (Qc_eqb_spec c 0%Qc) as [->|_]; [|reflexivity].
        exfalso. exact (Qclt_not_eq _ _ C0 eq_refl).
      - apply (F2_map_combine (fun k v => nth_error val k = Some v) (fun k c => nth_error cnt k = Some c)).
        + intros k v c H1 H2. exists v, c. auto.
        + apply take_kept0. rewrite Lmm. now rewrite L2.
        + apply take_kept0. rewrite Lmm. now rewrite L3. }
    clear -F. induction F as [|k o ks os (c & s & R & C & ->) _ (avs & E & IH)]; [exists []; split; [reflexivity|constructor]|].
    exists ((qz (st s) / c)%Qc :: avs). split; [cbn [map]; congruence|]. constructor; [|exact IH]. exists c, s. split; [exact R|]. split; [exact C|].
    field. intros ->. exact (Qclt_not_eq _ _ C eq_refl). }
  destruct X as (avs & EX & FX). rewrite EX.
  eexists. exists avs, (kept 0 m). split; [reflexivity|]. split; [apply kept_sorted|]. split; [exact KI|]. split; [|exact FX].
  eapply F2_impl_in; [|apply take_kept0; rewrite Lmm, centers_length, L1; lia]. intros k c Ik Hc. cbn beta in Hc.
  apply KI in Ik as (Hk & _). destruct (centers_nth bins k _ _ (Be k ltac:(lia)) (Be (S k) ltac:(lia))) as (c' & C1 & C2). rewrite C1 in Hc. apply some_inj in Hc. subst c'. exact C2.
Qed.
End Hist.

(** ** The standard deviation *)
Lemma picked_map {A B} (f : A -> B) P : forall l i vs, picked P i (map f l) vs -> exists us, vs = map f us /\ picked P i l us.
Proof.
  induction l as [|x l IH]; intros i vs H; cbn [map] in H; inversion H; subst.
  - exists []. split; [reflexivity|constructor].
  - destruct (IH _ _ ltac:(eassumption)) as (us & -> & Q). exists (x :: us). split; [reflexivity|]. constructor; assumption.
  - destruct (IH _ _ ltac:(eassumption)) as (us & -> & Q). exists us. split; [reflexivity|]. apply picked_no; assumption.
Qed.
Lemma picked_fun' {A} P : forall (l : list A) i u v, picked P i l u -> picked P i l v -> u = v.
Proof. intros l i u v H. revert v. induction H; intros v H2; inversion H2; subst; auto; try contradiction. f_equal. auto. Qed.
Definition std_of (m2 m1 : option Qc) : option Qc := match m2, m1 with Some a, Some b => Some (a - b * b)%Qc | _, _ => Some 0%Qc end.
Lemma std2_means t xy values order order' j : std2_int t xy values j =
  std_of (flat_stat SMean xy (map (fun v => qz (store t (v * v))) values) order j) (flat_stat SMean xy (map qz values) order' j).
Proof. unfold std2_int. cbn [flat_stat]. destruct (flatcount xy j =? 0); reflexivity. Qed.
Theorem binned_std2_ok t edges points mask values :
  edges <> [] -> Forall strictly_increasing edges -> Forall (fun e => 2 <= length e) edges ->
  length values = length points -> (forall m, mask = Some m -> length m = length points) ->
  Forall (Forall2 clear_of_edge edges) points ->
  exists f, binned_std2_int t edges points mask values = Some f /\
    forall idx, valid_index edges idx -> exists vs,
      picked (fun p => (forall m, mask = Some m -> nth_error m p = Some true) /\
                       exists pt, nth_error points p = Some pt /\ in_cell edges idx pt) 0 values vs /\
      (vs = [] /\ f idx = Some 0%Qc \/
       vs <> [] /\ f idx = Some (mean_of (map (fun v => store t (v * v)) vs) - mean_of vs * mean_of vs)%Qc).
Proof.
  intros H1 H2 H3 H4 H5 H6.
  destruct (binned_statistic_ok edges points mask argsort SMean (map (fun v => qz (store t (v * v))) values) argsort_sorts H1 H2 H3 ltac:(rewrite map_length; exact H4) H5 H6) as (f2 & E2 & F2).
  destruct (binned_statistic_ok edges points mask argsort SMean (map qz values) argsort_sorts H1 H2 H3 ltac:(rewrite map_length; exact H4) H5 H6) as (f1 & E1 & F1).
  unfold binned_statistic in E1, E2. unfold binned_std2_int. cbv zeta in *. rewrite map_length in E1, E2.
  destruct (negb _); [discriminate|]. injection E1 as <-. injection E2 as <-. eexists. split; [reflexivity|]. intros idx V.
  destruct (F1 idx V) as (v1 & P1 & S1). destruct (F2 idx V) as (v2 & P2 & S2). cbv beta in S1, S2.
  apply picked_map in P1 as (vs & -> & P1). apply picked_map in P2 as (vs' & -> & P2). rewrite (picked_fun' _ _ _ _ _ P2 P1) in S2. clear P2 vs'.
  exists vs. split; [exact P1|]. rewrite unsort_eq in S1, S2 |- *.
  2-4: rewrite !map_length; clear -V; unfold valid_index in V; induction V; cbn; congruence.
  rewrite (std2_means t _ values (argsort (map (fun p : list Qc * bool => flat_xy (map (fun e : list Qc => S (length e)) edges) (BinStat_Model.counts edges (fst p) (snd p)) (argsort (map (fun e : list Qc => S (length e)) edges))) (combine points match mask with Some m => m | None => map (fun _ : list Qc => true) points end)))
             (argsort (map (fun p : list Qc * bool => flat_xy (map (fun e : list Qc => S (length e)) edges) (BinStat_Model.counts edges (fst p) (snd p)) (argsort (map (fun e : list Qc => S (length e)) edges))) (combine points match mask with Some m => m | None => map (fun _ : list Qc => true) points end)))).
  destruct S1 as [[Z1 S1]|[N1 S1]], S2 as [[Z2 S2]|[N2 S2]]; rewrite S1, S2.
  - left. split; [destruct vs; [reflexivity|discriminate]|reflexivity].
  - exfalso. destruct vs; [apply N2; reflexivity|discriminate].
  - exfalso. destruct vs; [apply N1; reflexivity|discriminate].
  - right. split; [intros ->; apply N1; reflexivity|]. cbn [std_of]. unfold mean_of. rewrite !map_length, map_map. reflexivity.
Qed.
