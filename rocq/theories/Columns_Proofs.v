From Coq Require Import Sorted.
From Verif Require Import Common QcArith MultiTau_Model MultiTau_Spec MultiTau_Labels MultiTau_Main MultiTau_Out
  TwoTime_Model TwoTime_Spec TwoTime_Main Columns_Spec.
From Verif Require Roi_Model Roi_Spec Roi_Stats Xsvs_Model Xsvs_Spec Xsvs_Proofs.

Lemma regions_unique labels us : regions labels us -> us = unique (map snd (sel labels)).
Proof.
  intros [S H]. apply Xsvs_Proofs.sorted_same; [exact S|apply unique_sorted|]. intros z. rewrite H, unique_In, map_snd_sel_In. reflexivity.
Qed.
Lemma regions_length labels us : regions labels us -> length us = n_rois labels.
Proof. intros R. rewrite (regions_unique _ _ R). apply n_rois_unique. Qed.
Lemma filter_none {A} (f : A -> bool) l : (forall x, In x l -> f x = false) -> filter f l = [].
Proof. induction l as [|a l IH]; intros H; [reflexivity|]. cbn. rewrite (H a) by (left; reflexivity). apply IH. intros x I. apply H. right. exact I. Qed.
Lemma rank_nth us : StronglySorted Z.lt us -> forall j z, nth_error us j = Some z -> length (filter (fun y => (y <=? z)%Z) us) = j + 1.
Proof.
  induction 1 as [|u us S IH F]; intros j z E; [destruct j; discriminate|]. rewrite Forall_forall in F. destruct j as [|j]; cbn [nth_error] in E.
  - injection E as ->. cbn [filter]. rewrite Z.leb_refl. cbn [length]. rewrite filter_none; [reflexivity|]. intros x I. specialize (F x I). lia.
  - pose proof (F z (nth_error_In _ _ E)). cbn [filter]. replace (u <=? z)%Z with true by lia. cbn [length]. rewrite (IH j z E). reflexivity.
Qed.
Lemma region_positions labels us j z : regions labels us -> nth_error us j = Some z -> roi_positions labels (j + 1) = where_label labels z.
Proof.
  intros R E. pose proof (regions_unique _ _ R) as U. destruct R as [S H]. pose proof (proj1 (H z) (nth_error_In _ _ E)) as [Iz Pz].
  assert (N : roi_no labels z = j + 1) by (rewrite <- roi_no_unique, <- U; apply rank_nth; assumption).
  unfold roi_positions, where_label. apply filter_ext_in. intros p Hp. apply in_seq in Hp. set (x := nth p labels 0%Z).
  assert (Ix : In x labels) by (apply nth_In; lia). destruct (Z.eqb_spec x z) as [->|D].
  - rewrite N, Nat.eqb_refl. lia.
  - destruct (Z.ltb_spec 0 x) as [Px|Px]; [|reflexivity]. cbn [andb]. apply Nat.eqb_neq. intros Q.
    destruct (Z.lt_trichotomy x z) as [L|[L|L]]; [|contradiction|].
    + pose proof (roi_no_mono labels x z Iz Pz L). lia.
    + pose proof (roi_no_mono labels z x Ix Px L). lia.
Qed.
Lemma where_nonempty labels z : In z labels -> where_label labels z <> [].
Proof.
  intros I E. apply In_nth with (d := 0%Z) in I as (p & Lp & Ep).
  assert (J : In p (where_label labels z)) by (apply filter_In; split; [apply in_seq; lia|lia]). rewrite E in J. exact J.
Qed.
Lemma mean_average l : mean l = average l.
Proof.
  destruct l; [|reflexivity]. unfold mean, average. cbn. apply Qc_is_canon. reflexivity.
Qed.
Lemma mean_one x : mean [x] = x.
Proof. unfold mean. cbn. replace (x + 0)%Qc with x by ring. change (qn 1) with 1%Qc. field. discriminate. Qed.

(** Frames of numbers *)
Section Frames.
Context (labels us : list Z) (fs : list (list Qc)).
Hypothesis HR : regions labels us.
Hypothesis HL : forall im, In im fs -> length im = length labels.
Notation fq := (numbers_of fs).
Lemma fq_length : length fq = length fs.
Proof. apply map_length. Qed.
Lemma fq_sized im : In im fq -> length im = length labels.
Proof. intros I. apply in_map_iff in I as (x & <- & I). rewrite map_length. apply HL, I. Qed.
Lemma fq_num k p : k < length fs -> p < length labels -> nth p (nth k fq []) None = Some (nth p (nth k fs []) 0%Qc).
Proof.
  intros K P. unfold numbers_of. change (@nil (option Qc)) with (map (@Some Qc) []). rewrite map_nth.
  rewrite nth_indep with (d' := Some 0%Qc) by (rewrite map_length, HL by (apply nth_In; exact K); exact P). apply map_nth.
Qed.
Lemma block_one k : k < length fs -> block_frames fq 0 k = [nth k fq []].
Proof.
  intros K. unfold block_frames. change (2 ^ 0) with 1. rewrite Nat.mul_1_r.
  assert (G : forall (l : list (list (option Qc))) k, k < length l -> firstn 1 (skipn k l) = [nth k l []]).
  { intros l. induction l as [|x l IH]; intros [|m] Hm; cbn in Hm; try lia; [reflexivity|]. cbn [skipn nth]. apply IH. lia. }
  apply G. rewrite fq_length. exact K.
Qed.
Lemma block_pix0 k p : k < length fs -> p < length labels -> block_pix fq 0 k p = nth p (nth k fs []) 0%Qc.
Proof. intros K P. unfold block_pix. rewrite (block_one k K). cbn [map]. rewrite mean_one, (fq_num k p K P). reflexivity. Qed.
Lemma good0 k : k < length fs -> good labels fq 0 k = true.
Proof.
  intros K. unfold good. rewrite (block_one k K). cbn [forallb]. rewrite andb_true_r. apply forallb_forall. intros p Hp.
  apply filter_In in Hp as [Hp _]. apply in_seq in Hp. rewrite (fq_num k p K) by lia. reflexivity.
Qed.
Lemma good_pairs0 i : good_pairs labels fq 0 i = seq 0 (length fs - i).
Proof.
  unfold good_pairs. change (2 ^ 0) with 1. rewrite fq_length, Nat.div_1_r.
  assert (A : forall (f : nat -> bool) l, (forall x, In x l -> f x = true) -> filter f l = l).
  { intros f l. induction l as [|a l IH]; intros H; [reflexivity|]. cbn. rewrite (H a) by (left; reflexivity). f_equal. apply IH. intros x I. apply H. right. exact I. }
  apply A. intros k Hk. apply in_seq in Hk. rewrite !good0 by lia. reflexivity.
Qed.
Lemma where_lt z p : In p (where_label labels z) -> p < length labels.
Proof. intros I. apply filter_In in I as [I _]. apply in_seq in I. lia. Qed.
Lemma roi_avg0 j z k : nth_error us j = Some z -> k < length fs ->
  roi_avg labels (block_pix fq 0 k) (j + 1) = average (values_at 0%Qc labels z (nth k fs [])).
Proof.
  intros E K. unfold roi_avg, values_at. rewrite (region_positions labels us j z HR E), mean_average. f_equal. apply map_ext_in.
  intros p Hp. apply block_pix0; [exact K|apply (where_lt z), Hp].
Qed.
Lemma combine_values z (a b : list Qc) : combine (values_at 0%Qc labels z a) (values_at 0%Qc labels z b) = map (fun p => (nth p a 0%Qc, nth p b 0%Qc)) (where_label labels z).
Proof. unfold values_at. induction (where_label labels z) as [|p l IH]; [reflexivity|]. cbn. rewrite IH. reflexivity. Qed.
Lemma roi_avg2 j z k k' : nth_error us j = Some z -> k < length fs -> k' < length fs ->
  roi_avg labels (fun p => (block_pix fq 0 k p * block_pix fq 0 k' p)%Qc) (j + 1)
  = average (map (fun p => (fst p * snd p)%Qc) (combine (values_at 0%Qc labels z (nth k fs [])) (values_at 0%Qc labels z (nth k' fs [])))).
Proof.
  intros E K K'. unfold roi_avg. rewrite combine_values, map_map, (region_positions labels us j z HR E), mean_average. f_equal. apply map_ext_in.
  intros p Hp. apply where_lt in Hp. rewrite !block_pix0 by assumption. reflexivity.
Qed.
Lemma past0 j z i : nth_error us j = Some z ->
  spec_past labels fq 0 i (j + 1) = average (map (fun k => average (values_at 0%Qc labels z (nth k fs []))) (seq 0 (length fs - i))).
Proof.
  intros E. unfold spec_past. rewrite good_pairs0, mean_average. f_equal. apply map_ext_in. intros k Hk. apply in_seq in Hk. apply roi_avg0; [exact E|lia].
Qed.
Lemma g2_label j z i : nth_error us j = Some z -> spec_g2 labels fq 0 i (j + 1) = label_g2 labels fs z i.
Proof.
  intros E. unfold spec_g2, label_g2. cbv zeta. rewrite (past0 j z i E).
  assert (F : spec_fut labels fq 0 i (j + 1) = average (map (fun k => average (values_at 0%Qc labels z (nth (k + i) fs []))) (seq 0 (length fs - i)))).
  { unfold spec_fut. rewrite good_pairs0, mean_average. f_equal. apply map_ext_in. intros k Hk. apply in_seq in Hk. apply roi_avg0; [exact E|lia]. }
  assert (P : spec_G labels fq 0 i (j + 1) = average (map (fun k => average (map (fun p => (fst p * snd p)%Qc)
      (combine (values_at 0%Qc labels z (nth k fs [])) (values_at 0%Qc labels z (nth (k + i) fs []))))) (seq 0 (length fs - i)))).
  { unfold spec_G. rewrite good_pairs0, mean_average. f_equal. apply map_ext_in. intros k Hk. apply in_seq in Hk. apply roi_avg2; [exact E|lia|lia]. }
  rewrite F, P. reflexivity.
Qed.
Lemma map_regions {A} (f : nat -> A) (g : Z -> A) : (forall j z, nth_error us j = Some z -> f (j + 1) = g z) ->
  map f (seq 1 (n_rois labels)) = map g us.
Proof.
  rewrite <- (regions_length labels us HR). clear. intros H. rewrite <- seq_shift, map_map.
  assert (G : forall (l : list Z) s, (forall j z, nth_error l j = Some z -> f (S (s + j)) = g z) -> map (fun x => f (S x)) (seq s (length l)) = map g l).
  { intros l. induction l as [|z l IH]; intros s K; [reflexivity|]. cbn [length seq map]. f_equal.
    - rewrite <- (K 0 z eq_refl). f_equal. lia.
    - apply IH. intros j y E. rewrite <- (K (S j) y E). f_equal. lia. }
  apply (G us 0). intros j z E. rewrite <- (H j z E). f_equal. lia.
Qed.
Lemma g2_columns nb L : nb mod 2 = 0 -> 2 <= nb -> 1 <= L -> fs <> [] ->
  exists g2 lags, multi_tau_auto_corr nb L labels fq = Some (g2, lags) /\
    (forall row, In row g2 -> length row = length us) /\
    forall i, i < nb -> i < length g2 -> nth_error lags i = Some i /\ nth_error g2 i = Some (map (fun z => label_g2 labels fs z i) us).
Proof.
  intros Hb H2 HL1 Hn. destruct (corr_ok nb L labels fq Hb H2 HL1) as (g2 & lags & E & Len & Bound & Vals & _).
  - intros Q. apply Hn. apply map_eq_nil in Q. exact Q.
  - exact fq_sized.
  - exists g2, lags. split; [exact E|]. split.
    + intros row I. apply In_nth_error in I as (t & Et). assert (Lt : t < length g2) by (apply nth_error_Some; congruence).
      destruct (pos_lag nb L t Hb H2 HL1) as (l & i & Hl & ->).
      { apply Nat.div_le_lower_bound; [lia|]. lia. }
      destruct (Vals l i Hl Lt) as (_ & V & _). rewrite V in Et. injection Et as <-. rewrite map_length, seq_length, (regions_length labels us HR). reflexivity.
    + intros i Hi Lt. destruct (Vals 0 i) as (A & B & _); [repeat split; [lia|exact Hi|left; reflexivity]|exact Lt|].
      change (lag_pos nb 0 i) with i in *. change (2 ^ 0) with 1 in A. rewrite Nat.mul_1_r in A. split; [exact A|]. rewrite B. f_equal.
      apply map_regions. intros j z Ez. apply g2_label, Ez.
Qed.
Lemma past_columns nb L : nb mod 2 = 0 -> 2 <= nb -> 1 <= L ->
  exists c outs s, init_cfg nb L labels = Some c /\ lazy_one_time c (init_state c) fq = Some (outs, s) /\
    nth_error (past s) 0 = Some (map (fun z => average (map (fun im => average (values_at 0%Qc labels z im)) fs)) us).
Proof.
  intros Hb H2 HL1. destruct (accumulators nb L labels fq Hb H2 HL1 fq_sized) as (c & outs & s & E1 & E2 & _ & _ & _ & _ & V).
  exists c, outs, s. split; [exact E1|]. split; [exact E2|]. destruct (V 0 0) as (_ & P & _); [repeat split; [lia|lia|left; reflexivity]|].
  change (lag_pos nb 0 0) with 0 in P. rewrite P. f_equal. apply map_regions. intros j z Ez. rewrite (past0 j z 0 Ez). f_equal. rewrite Nat.sub_0_r.
  clear. induction fs as [|im l IH]; [reflexivity|]. cbn [length seq map]. f_equal. rewrite <- seq_shift, map_map. exact IH.
Qed.
Lemma tt_columns nb L nf : nb mod 2 = 0 -> 2 <= nb -> 1 <= L -> fs <> [] -> length fs <= nf -> us <> [] ->
  exists g, two_time_corr labels fq nf nb L = Some g /\
    (forall row v, In row g -> In v row -> length v = length us) /\
    forall j z a b, nth_error us j = Some z -> b <= a -> a < length fs -> a < b + nb ->
      entry g j a b = Some (label_corr labels fs z b a) /\ entry g j b a = Some (label_corr labels fs z b a).
Proof.
  intros Hb H2 HL1 Hn Hf Hu.
  assert (N1 : 1 <= n_rois labels) by (rewrite <- (regions_length labels us HR); destruct us; [congruence|cbn; lia]).
  assert (Fn : fq <> []) by (intros Q; apply Hn; apply map_eq_nil in Q; exact Q).
  assert (Lf : length fq <= nf) by (rewrite fq_length; exact Hf).
  destruct (tt_main nb L nf labels fq Hb H2 HL1 fq_sized Lf Fn N1) as (g & E & _ & _ & W & Sy & _).
  destruct (tt_near nb L nf labels fq Hb H2 HL1 fq_sized Lf Fn N1) as (g' & E' & V). assert (g' = g) by congruence. subst g'.
  exists g. split; [exact E|]. split; [intros row v I J; rewrite (W row v I J); symmetry; apply regions_length, HR|].
  intros j z a b Ez Hab Ha Hnb. assert (Hj : j < n_rois labels) by (rewrite <- (regions_length labels us HR); apply nth_error_Some; congruence).
  assert (C : entry g j b a = Some (label_corr labels fs z b a)).
  { rewrite (V j b a Hj) by (rewrite ?fq_length; lia). rewrite Nat.min_l, Nat.max_r by lia. f_equal. unfold spec_tt, label_corr. cbv zeta.
    assert (Rn : forall k, k < length fs -> roi_numeric labels fq 0 k (j + 1) = true).
    { intros k K. unfold roi_numeric. apply forallb_forall. intros p Hp. rewrite (region_positions labels us j z HR Ez) in Hp. apply where_lt in Hp.
      rewrite (block_one k K). cbn [forallb]. rewrite (fq_num k p K Hp). reflexivity. }
    rewrite !Rn by lia. cbn [andb]. rewrite !(roi_avg0 j z) by (assumption || lia). rewrite (roi_avg2 j z) by (assumption || lia). reflexivity. }
  split; [|exact C]. rewrite Sy by lia. exact C.
Qed.
End Frames.

(** Selection by label *)
Lemma select_values {A} (d : A) labels z im : length im = length labels ->
  Roi_Model.select (Z.eqb z) labels im = values_at d labels z im.
Proof.
  intros L. unfold Roi_Model.select, values_at, where_label.
  assert (G : forall (labs : list Z) (l : list A), length l = length labs -> forall s (lf : nat -> Z) (vf : nat -> A),
      (forall p, p < length labs -> lf (s + p) = nth p labs 0%Z /\ vf (s + p) = nth p l d) ->
      map snd (filter (fun p => (z =? fst p)%Z) (combine labs l)) = map vf (filter (fun p => (lf p =? z)%Z) (seq s (length labs)))).
  { induction labs as [|y labs IH]; intros [|v l] Hl s lf vf Hf; cbn in Hl; try lia; [reflexivity|]. cbn [combine filter length seq fst].
    destruct (Hf 0 ltac:(cbn; lia)) as [F1 F2]. rewrite Nat.add_0_r in F1, F2. cbn in F1, F2. rewrite F1, (Z.eqb_sym y z).
    assert (R : map snd (filter (fun p => (z =? fst p)%Z) (combine labs l)) = map vf (filter (fun p => (lf p =? z)%Z) (seq (S s) (length labs)))).
    { apply IH; [lia|]. intros p Hp. destruct (Hf (S p) ltac:(cbn; lia)) as [G1 G2]. rewrite <- Nat.add_succ_comm in G1, G2. split; assumption. }
    destruct (z =? y)%Z; cbn [map snd]; [rewrite F2, R|rewrite R]; reflexivity. }
  apply G; [exact L|]. intros p Hp. split; reflexivity.
Qed.
Lemma mean_columns labels us images : regions labels us -> images <> [] -> (forall im, In im images -> length im = length labels) ->
  In 0%Z labels -> (forall z, In z labels -> (0 <= z)%Z) ->
  Roi_Model.mean_intensity images labels Roi_Model.IxAll
  = Some (map (fun im => map (fun z => Some (average (values_at 0%Qc labels z im))) us) images, us).
Proof.
  intros [S H] Hn HL H0 Hp. assert (HF : Forall (fun im => length im = length labels) images) by (apply Forall_forall; exact HL).
  destruct (Roi_Stats.mean_intensity_ok images labels Hn HF) as [K _]. destruct (K H0) as (out & idx & E & Si & Hi & _).
  assert (idx = us).
  { apply Xsvs_Proofs.sorted_same; [exact Si|exact S|]. intros z. rewrite Hi, H. split; intros [I J]; (split; [exact I|]); pose proof (Hp z I); lia. }
  subst idx. rewrite E. f_equal. f_equal. revert E. unfold Roi_Model.mean_intensity. destruct images as [|im0 rest] eqn:Ei; [congruence|]. rewrite <- Ei in *.
  destruct (negb _); [discriminate|]. destruct (Roi_Model.remove_first _ _) as [l|]; [|discriminate]. cbn [bind]. intros E. injection E as <- ->.
  apply map_ext_in. intros im I. apply map_ext_in. intros z Iz. unfold Roi_Model.nd_mean. rewrite (select_values 0%Qc) by (apply HL, I).
  assert (N : values_at 0%Qc labels z im <> []).
  { intros Q. apply map_eq_nil in Q. apply (where_nonempty labels z); [apply H, Iz|exact Q]. }
  unfold average. destruct (values_at 0%Qc labels z im); [congruence|reflexivity].
Qed.
(** roi_pixel_values *)
Lemma sorted_map_seq s n : StronglySorted Z.lt (map Z.of_nat (seq s n)).
Proof.
  revert s. induction n as [|n IH]; intros s; cbn; constructor; [apply IH|]. apply Forall_forall. intros x I. apply in_map_iff in I as (k & <- & I). apply in_seq in I. lia.
Qed.
Lemma pixel_columns {A} (d : A) labels us (im : list A) : regions labels us -> labels <> [] -> length im = length labels ->
  exists vs idx, Roi_Model.roi_pixel_values im labels None = Some (vs, idx) /\
    length vs = length idx /\
    (forall k, k < length vs -> nth_error idx k = Some (Z.of_nat k + 1)%Z /\ nth_error vs k = Some (values_at d labels (Z.of_nat k + 1)%Z im)) /\
    (idx = us <-> forall y z, In y labels -> (0 < z <= y)%Z -> In z labels).
Proof.
  intros [S H] Hn HL. unfold Roi_Model.roi_pixel_values. rewrite (proj2 (Nat.eqb_eq _ _) (eq_sym HL)). cbn [negb].
  unfold Roi_Model.index_default. destruct (Roi_Model.zmax labels) as [m|] eqn:Em; [|destruct labels; [congruence|discriminate]]. cbn [bind].
  destruct (Roi_Stats.zmax_ge _ _ Em) as [M1 M2]. do 2 eexists. split; [reflexivity|]. split; [apply map_length|]. split.
  - intros k Hk. rewrite !map_length, seq_length in Hk. rewrite !nth_error_map, nth_error_seq by lia. cbn [option_map]. replace (Z.of_nat (1 + k)) with (Z.of_nat k + 1)%Z by lia. split; [reflexivity|].
    f_equal. apply select_values. exact HL.
  - split.
    + intros E y z Iy Hz. assert (Iz : In z us).
      { rewrite <- E. apply in_map_iff. exists (Z.to_nat z). split; [lia|]. apply in_seq. pose proof (M1 y Iy). lia. }
      apply H, Iz.
    + intros G. apply Xsvs_Proofs.sorted_same; [apply sorted_map_seq|exact S|]. intros z. rewrite H. split.
      * intros I. apply in_map_iff in I as (k & <- & I). apply in_seq in I. split; [|lia]. apply (G m); [exact M2|lia].
      * intros [I P]. pose proof (M1 z I). apply in_map_iff. exists (Z.to_nat z). split; [lia|]. apply in_seq. lia.
Qed.
