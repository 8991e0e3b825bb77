(* C118: which region stands in which column of the tables by region. *)
From Coq Require Import Sorted Reals.
From Coq Require Lra.
From Verif Require Import Common QcArith MultiTau_Model TwoTime_Model TwoTime_Spec Columns_Spec Columns_Proofs.
From Verif Require Roi_Model Xsvs_Model Xsvs_Spec RoiPolar_Model RoiPolar_Spec Columns_Xsvs Columns_Rings.

(** C118: g2.  One column for every positive label that occurs, in ascending order of the labels; the value at
    a lag below num_bufs is the correlation of the pixels with that label, over all pairs of frames. *)
Theorem C118_g2 : forall labels us fs nb L, regions labels us -> (forall im, In im fs -> length im = length labels) ->
  nb mod 2 = 0 -> 2 <= nb -> 1 <= L -> fs <> [] ->
  exists g2 lags, multi_tau_auto_corr nb L labels (numbers_of fs) = Some (g2, lags) /\
    (forall row, In row g2 -> length row = length us) /\
    forall i, i < nb -> i < length g2 -> nth_error lags i = Some i /\ nth_error g2 i = Some (map (fun z => label_g2 labels fs z i) us).
Proof. exact (fun labels us fs nb L R H => g2_columns labels us fs R H nb L). Qed.
Print Assumptions C118_g2.
Definition col_labels : list Z := [0; 7; 3; 7]%Z.
Definition col_images : list (list Qc) := map (map qz) [[9; 1; 5; 3]; [9; 2; 6; 4]; [8; 5; 1; 1]]%Z.
Example C118_ex : regions col_labels [3; 7]%Z /\
  option_map (fun r => map (map (option_map this)) (fst r)) (multi_tau_auto_corr 2 1 col_labels (numbers_of col_images))
  = Some [[Some (31 # 24); Some (21 # 16)]; [Some (72 # 77); Some (14 # 15)]]%Q.
Proof. split; [split; [repeat constructor|unfold col_labels; intros z; cbn; lia]|]. vm_compute. reflexivity. Qed.

(** C118: the two-time matrices are stacked in the same order. *)
Theorem C118_two_time : forall labels us fs nb L nf, regions labels us -> (forall im, In im fs -> length im = length labels) ->
  nb mod 2 = 0 -> 2 <= nb -> 1 <= L -> fs <> [] -> length fs <= nf -> us <> [] ->
  exists g, two_time_corr labels (numbers_of fs) nf nb L = Some g /\
    (forall row v, In row g -> In v row -> length v = length us) /\
    forall j z a b, nth_error us j = Some z -> b <= a -> a < length fs -> a < b + nb ->
      entry g j a b = Some (label_corr labels fs z b a) /\ entry g j b a = Some (label_corr labels fs z b a).
Proof. exact (fun labels us fs nb L nf R H => tt_columns labels us fs R H nb L nf). Qed.
Print Assumptions C118_two_time.
Example C118_two_time_ex : option_map (fun g => map (fun q => option_map (option_map this) (entry g q 1 0)) [0; 1; 2]) (two_time_corr col_labels (numbers_of col_images) 3 2 1)
  = Some [Some (Some 1); Some (Some (7 # 6)); None]%Q /\
  option_map this (label_corr col_labels col_images 7 0 1) = Some (7 # 6)%Q.
Proof. split; vm_compute; reflexivity. Qed.

(** C118: xsvs has the same columns: at every level the photon histogram of column j is taken over the pixels
    with the (j+1)-th smallest positive label.  (What xsvs keeps of an image is its pixels with positive label.) *)
Theorem C118_xsvs : forall T num_times labels us max_cts (ims : list (option (list Z))), regions labels us -> 2 <= T -> 1 <= num_times ->
  (forall x, In (Some x) ims -> length x = length labels) ->
  exists p v, Xsvs_Model.xsvs Xsvs_Spec.exactly T num_times (filter (fun z => (0 <? z)%Z) labels) max_cts
      [map (option_map (Roi_Model.select (fun z => (0 <? z)%Z) labels)) ims] = Some (p, v) /\
  forall l j z b, l < num_times -> nth_error us j = Some z -> b + 2 <= max_cts * 2 ^ l ->
    p l j b = Xsvs_Spec.mean_good (Xsvs_Spec.mixed_as Xsvs_Spec.exactly (length labels) ims l)
                (fun im => fraction (max_cts * 2 ^ l) (values_at 0%Z labels z im) b) (length ims).
Proof. exact Columns_Xsvs.xsvs_columns. Qed.
Print Assumptions C118_xsvs.
Example C118_xsvs_ex : Roi_Model.select (fun z => (0 <? z)%Z) col_labels [9; 1; 5; 3]%Z = [1; 5; 3]%Z /\
  map (fun b => this (fraction 5 (values_at 0%Z col_labels 7 [9; 1; 5; 3]%Z) b)) [0; 1; 2; 3] = [0; 1 # 2; 0; 1 # 2]%Q.
Proof. split; vm_compute; reflexivity. Qed.

(** C118: mean_intensity has the same columns when there is background and no negative label. *)
Theorem C118_mean_intensity : forall labels us images, regions labels us -> images <> [] -> (forall im, In im images -> length im = length labels) ->
  In 0%Z labels -> (forall z, In z labels -> (0 <= z)%Z) ->
  Roi_Model.mean_intensity images labels Roi_Model.IxAll
  = Some (map (fun im => map (fun z => Some (average (values_at 0%Qc labels z im))) us) images, us).
Proof. exact mean_columns. Qed.
Print Assumptions C118_mean_intensity.
Example C118_mean_ex : option_map (fun r => (map (map (option_map this)) (fst r), snd r)) (Roi_Model.mean_intensity col_images col_labels Roi_Model.IxAll)
  = Some ([[Some 5; Some 2]; [Some 6; Some 3]; [Some 1; Some 3]]%Q, [3; 7]%Z).
Proof. vm_compute. reflexivity. Qed.

(** C118: so the intensity g2 is normalised by at lag 0 is the time average of the columns of mean_intensity. *)
Theorem C118_normalisation : forall labels us fs nb L, regions labels us -> (forall im, In im fs -> length im = length labels) ->
  nb mod 2 = 0 -> 2 <= nb -> 1 <= L -> fs <> [] -> In 0%Z labels -> (forall z, In z labels -> (0 <= z)%Z) ->
  exists c outs s table, init_cfg nb L labels = Some c /\ lazy_one_time c (init_state c) (numbers_of fs) = Some (outs, s) /\
    Roi_Model.mean_intensity fs labels Roi_Model.IxAll = Some (map (map Some) table, us) /\
    nth_error (past s) 0 = Some (map (fun j => average (map (fun row => nth j row 0%Qc) table)) (seq 0 (length us))).
Proof.
  intros labels us fs nb L R H Hb H2 HL Hn H0 Hp. destruct (past_columns labels us fs R H nb L Hb H2 HL) as (c & outs & s & E1 & E2 & E3).
  exists c, outs, s, (map (fun im => map (fun z => average (values_at 0%Qc labels z im)) us) fs). split; [exact E1|]. split; [exact E2|]. split.
  - rewrite (mean_columns labels us fs R Hn H H0 Hp), map_map. f_equal. f_equal. apply map_ext. intros im. rewrite map_map. reflexivity.
  - rewrite E3. f_equal. rewrite <- (map_id us) at 1. rewrite <- (Columns_Xsvs.map_nth_seq us 0%Z) at 1. rewrite map_id, map_map. apply map_ext_in. intros j Hj. apply in_seq in Hj.
    f_equal. rewrite map_map. apply map_ext. intros im.
    rewrite nth_indep with (d' := average (values_at 0%Qc labels 0%Z im)) by (rewrite map_length; lia). symmetry. apply (map_nth (fun z => average (values_at 0%Qc labels z im))).
Qed.
Print Assumptions C118_normalisation.

(** C118: not otherwise.  A negative label is a region for mean_intensity only, and comes first; without
    background mean_intensity raises although g2 is computed. *)
Theorem C118_mean_intensity_refuted : 
  (exists labels us images out idx, regions labels us /\ In 0%Z labels /\ (forall im, In im images -> length im = length labels) /\
     Roi_Model.mean_intensity images labels Roi_Model.IxAll = Some (out, idx) /\ length us = 1 /\ length idx = 2 /\ nth_error idx 0 <> nth_error us 0) /\
  (exists labels us images, regions labels us /\ us <> [] /\ images <> [] /\ (forall im, In im images -> length im = length labels) /\
     Roi_Model.mean_intensity images labels Roi_Model.IxAll = None).
Proof.
  split.
  - exists [0; -1; 4]%Z, [4]%Z, [map qz [1; 2; 3]%Z]. do 2 eexists. split; [split; [repeat constructor|intros z; cbn; lia]|]. split; [left; reflexivity|].
    split; [intros im [<-|[]]; reflexivity|]. split; [reflexivity|]. split; [reflexivity|]. split; [reflexivity|]. cbn. discriminate.
  - exists [2; 1]%Z, [1; 2]%Z, [map qz [1; 2]%Z]. split; [split; [repeat constructor|intros z; cbn; lia]|]. split; [discriminate|]. split; [discriminate|].
    split; [intros im [<-|[]]; reflexivity|]. reflexivity.
Qed.
Print Assumptions C118_mean_intensity_refuted.

(** C118: roi_pixel_values goes by label number: entry k holds the pixels labelled k + 1, so its entries are the
    columns of the other tables exactly when no number below the largest label is missing. *)
Theorem C118_pixel_values : forall A (d : A) labels us (im : list A), regions labels us -> labels <> [] -> length im = length labels ->
  exists vs idx, Roi_Model.roi_pixel_values im labels None = Some (vs, idx) /\
    length vs = length idx /\
    (forall k, k < length vs -> nth_error idx k = Some (Z.of_nat k + 1)%Z /\ nth_error vs k = Some (values_at d labels (Z.of_nat k + 1)%Z im)) /\
    (idx = us <-> forall y z, In y labels -> (0 < z <= y)%Z -> In z labels).
Proof. exact (fun A => @pixel_columns A). Qed.
Print Assumptions C118_pixel_values.
Example C118_pixel_ex : Roi_Model.roi_pixel_values [10; 20; 30; 40] [0; 3; 1; 3]%Z None = Some ([[30]; []; [20; 40]], [1; 2; 3]%Z) /\ regions [0; 3; 1; 3]%Z [1; 3]%Z.
Proof. split; [reflexivity|]. split; [repeat constructor|intros z; cbn; lia]. Qed.

(** C118: rings.  The columns are the rings that hold a pixel, in order, and the pixels of a column are those of
    its ring. *)
Theorem C118_rings : forall edges c h w out, Nat.even (length edges) = true -> RoiPolar_Spec.increasing edges ->
  RoiPolar_Model.rings edges c h w = Some out ->
  (forall us, regions (map Z.of_nat out) us <->
     StronglySorted Z.lt us /\ forall z, In z us <-> exists m, z = (Z.of_nat m + 1)%Z /\ ring_seen edges c h w m) /\
  (forall m i j r, i < h -> j < w -> RoiPolar_Spec.is_radius c i j r ->
     (In (i * w + j) (where_label (map Z.of_nat out) (Z.of_nat m + 1)) <-> RoiPolar_Spec.in_ring edges m r)) /\
  ((forall m, 2 * m + 1 < length edges -> ring_seen edges c h w m) ->
     regions (map Z.of_nat out) (map Z.of_nat (seq 1 (length edges / 2)))).
Proof.
  intros edges c h w out He Hi Ho. split; [|split].
  - exact (Columns_Rings.ring_regions edges c h w out He Hi Ho).
  - intros m i j r. exact (Columns_Rings.ring_members edges c h w out He Hi Ho m i j r).
  - exact (Columns_Rings.all_rings_seen edges c h w out He Hi Ho).
Qed.
Print Assumptions C118_rings.
Example C118_rings_ex : RoiPolar_Spec.in_ring [1; 2; 3; 4]%R 1 (7 / 2)%R.
Proof. exists 3%R, 4%R. split; [reflexivity|]. split; [reflexivity|]. split; Lra.lra. Qed.

(** C118: a ring without pixels has no column: all later rings move up by one. *)
Theorem C118_ring_number_refuted : exists edges c h w out us, Nat.even (length edges) = true /\ RoiPolar_Spec.increasing edges /\
  RoiPolar_Model.rings edges c h w = Some out /\ regions (map Z.of_nat out) us /\
  nth_error us 0 = Some 2%Z /\ length us = 1 /\
  ~ ring_seen edges c h w 0 /\ ring_seen edges c h w 1 /\
  exists g2 lags, multi_tau_auto_corr 2 1 (map Z.of_nat out) (numbers_of (map (map qz) [[5; 1; 5]; [5; 2; 5]; [5; 4; 5]]%Z)) = Some (g2, lags) /\
    map (map (option_map this)) g2 = [[Some (9 # 7)]; [Some (10 # 9)]]%Q.
Proof.
  destruct Columns_Rings.narrow_ring as (He & Hi & out & Ho & Eo & N0 & S1). do 4 eexists. exists out, [2]%Z. split; [exact He|]. split; [exact Hi|]. split; [exact Ho|].
  rewrite Eo. split; [split; [repeat constructor|intros z; cbn; lia]|]. split; [reflexivity|]. split; [reflexivity|]. split; [exact N0|]. split; [exact S1|].
  do 2 eexists. split; [vm_compute; reflexivity|]. reflexivity.
Qed.
Print Assumptions C118_ring_number_refuted.
