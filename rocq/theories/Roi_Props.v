(* C24, C26, C28, C29, C30, C69: regions of interest. *)
From Coq Require Import Sorted.
From Verif Require Import Common QcArith Roi_Model Roi_Spec Roi_Proofs Roi_Stats.

(** C24: rectangles that do not end before the image: an error exactly when two of
    them share a pixel of the image; otherwise every pixel carries the number of the
    rectangle it lies in, 0 if none. *)
Theorem C24_rectangles : forall coords h w, Forall reaches_image coords ->
  (rectangles coords h w = None <->
     overlapping (fun r s => exists i j, i < h /\ j < w /\ in_rect r i j /\ in_rect s i j) coords) /\
  (forall g, rectangles coords h w = Some g -> (length g = h /\ Forall (fun row => length row = w) g) /\
     forall i j, i < h -> j < w -> exists k, get2 g i j = Some (Z.of_nat k) /\
       right_label (fun r => in_rect r i j) coords k).
Proof. exact rectangles_ok. Qed.
Print Assumptions C24_rectangles.
Example C24_ex : Forall reaches_image [(-1, 0, 2, 2); (1, 1, 9, 1)]%Z /\
  rectangles [(-1, 0, 2, 2); (1, 1, 9, 1)]%Z 3 3 = Some [[1; 1; 0]; [0; 2; 0]; [0; 2; 0]]%Z /\
  rectangles [(0, 0, 2, 2); (1, 1, 2, 2)]%Z 3 3 = None.
Proof. split; [repeat constructor; cbn; lia|split; reflexivity]. Qed.
(** C24: a rectangle that ends above the image (by less than the image height)
    labels pixels although it contains none of them. *)
Theorem C24_wraps : forall x y wd ht h w, (0 <= wd)%Z -> (- Z.of_nat h < x + wd < 0)%Z ->
  (y <= 0 < y + ht)%Z -> 0 < w ->
  exists g, rectangles [(x, y, wd, ht)] h w = Some g /\ get2 g 0 0 = Some 1%Z /\ ~ in_rect (x, y, wd, ht) 0 0.
Proof. exact rect_wraps. Qed.
Print Assumptions C24_wraps.
Example C24_ex2 : rectangles [(-4, 0, 3, 2)]%Z 3 3 = Some [[1; 1; 0]; [1; 1; 0]; [0; 0; 0]]%Z.
Proof. reflexivity. Qed.

(** C26: with at most one of width and spacing a list, and consistent lengths, the
    rings have the requested widths and gaps. *)
Theorem C26_ring_edges : forall inner w s nr n,
  (forall wl sl, w = Li wl -> s = Li sl -> False) ->
  n <> 0 -> length (widths_of n w) = n -> length (widths_of (n - 1) s) = n - 1 ->
  (nr = Some (Z.of_nat n) \/ (nr = None /\ forall x y, w = Sc x -> s = Sc y -> False)) ->
  exists l, ring_edges inner w s nr = Rings l /\ length l = n /\
    rings_from inner (widths_of n w) (widths_of (n - 1) s) l.
Proof. exact ring_edges_ok. Qed.
Print Assumptions C26_ring_edges.
Example C26_ex : exists l, ring_edges (qz 1) (Li [qz 5; qz 4]) (Sc (qz 2)) None = Rings l /\
  map (fun p => (this (fst p), this (snd p))) l = [(1#1, 6#1); (8#1, 12#1)]%Q.
Proof. eexists. split; [reflexivity|vm_compute; reflexivity]. Qed.
(** C26: two lists are never accepted. *)
Theorem C26_two_lists_rejected : forall inner wl sl nr l, ring_edges inner (Li wl) (Li sl) nr <> Rings l.
Proof. exact ring_edges_two_lists. Qed.
Print Assumptions C26_two_lists_rejected.
(** the documented example *)
Example C26_ex2 : ring_edges (qz 1) (Li [qz 5; qz 4; qz 3]) (Li [qz 1; qz 2]) None = RValueError.
Proof. reflexivity. Qed.

(** C28: positions of the pixels with positive labels in raster order, each beside
    its label. *)
Theorem C28_extract : forall h w labels, length labels = h /\ Forall (fun r => length r = w) labels ->
  let (m, px) := extract_label_indices h w labels in
  length m = length px /\ StronglySorted lt px /\
  (forall i j, i < h -> j < w -> (In (i * w + j) px <-> exists z, get2 labels i j = Some z /\ (0 < z)%Z)) /\
  (forall p, In p px -> p < h * w) /\
  (forall n p, nth_error px n = Some p -> nth_error m n = nth_error (concat labels) p).
Proof. exact extract_ok. Qed.
Print Assumptions C28_extract.
Example C28_ex : extract_label_indices 2 3 [[0; 2; -1]; [1; 0; 2]]%Z = ([2; 1; 2]%Z, [1; 3; 5]).
Proof. reflexivity. Qed.
(** C28: taking the flat image there and grouping by label gives each region's pixels. *)
Theorem C28_groups : forall (A : Type) h w labels (image : list A) d n,
  length labels = h /\ Forall (fun r => length r = w) labels -> length image = h * w -> (0 < n)%Z ->
  let (m, px) := extract_label_indices h w labels in
  picked (fun p => nth_error (concat labels) p = Some n) 0 image
    (map snd (filter (fun q => (fst q =? n)%Z) (combine m (map (fun p => nth p image d) px)))).
Proof. exact (fun A h w labels image d n => @extract_groups A h w labels image d n). Qed.
Print Assumptions C28_groups.
(** C28: roi_pixel_values lists, for every requested label (default: 1 to the largest
    label), the pixels carrying it. *)
Theorem C28_pixel_values : forall (A : Type) (image : list A) labels index, labels <> [] -> length labels = length image ->
  exists vs idx, roi_pixel_values image labels index = Some (vs, idx) /\
    (forall l, index = Some l -> idx = l) /\
    (index = None -> forall z, In z idx <-> (1 <= z)%Z /\ exists y, In y labels /\ (z <= y)%Z) /\
    Forall2 (fun n v => picked (fun p => nth_error labels p = Some n) 0 image v) idx vs.
Proof. exact (fun A image labels index => @pixel_values_ok A image labels index). Qed.
Print Assumptions C28_pixel_values.
Example C28_ex2 : roi_pixel_values [10; 20; 30; 40] [0; 3; 1; 3]%Z None = Some ([[30]; []; [20; 40]], [1; 2; 3]%Z).
Proof. reflexivity. Qed.

(** C29: roi_max_counts is the largest region pixel of all images, or 0. *)
Theorem C29_max_counts : forall sets labels, (exists z, In z labels /\ (0 < z)%Z) ->
  Forall (fun im => length im = length labels) (concat sets) ->
  exists m, roi_max_counts sets labels = Some m /\
    is_max0 m (flat_map (fun im => map snd (filter (fun p => (0 <? fst p)%Z) (combine labels im))) (concat sets)).
Proof. exact roi_max_ok. Qed.
Print Assumptions C29_max_counts.
Example C29_ex : roi_max_counts [[[qz 9; qz 2]; [qz 1; qz 5]]; [[qz 7; qz 3]]] [0; 1]%Z = Some (qz 5).
Proof. vm_compute. reflexivity. Qed.
(** C29: mean_intensity: non-zero labels in ascending order, their mean in every
    image; an exception when no pixel is background; or the labels asked for. *)
Theorem C29_mean_intensity : forall images labels, images <> [] -> Forall (fun im => length im = length labels) images ->
  (In 0%Z labels -> exists out idx, mean_intensity images labels IxAll = Some (out, idx) /\
     StronglySorted Z.lt idx /\ (forall z, In z idx <-> In z labels /\ z <> 0%Z) /\
     Forall2 (fun img row => Forall2 (mean_is labels img) idx row) images out) /\
  (~ In 0%Z labels -> mean_intensity images labels IxAll = None) /\
  (forall l, exists out, mean_intensity images labels (IxList l) = Some (out, l) /\
     Forall2 (fun img row => Forall2 (mean_is labels img) l row) images out).
Proof. exact mean_intensity_ok. Qed.
Print Assumptions C29_mean_intensity.
Example C29_ex2 : exists a b, mean_intensity [[qz 9; qz 2; qz 4; qz 8]] [0; 2; 2; 1]%Z IxAll = Some ([[Some a; Some b]], [1; 2]%Z)
  /\ this a = 8%Q /\ this b = 3%Q.
Proof. do 2 eexists. split; [reflexivity|]. split; vm_compute; reflexivity. Qed.
Example C29_ex3 : mean_intensity [[qz 9; qz 2]] [1; 2]%Z IxAll = None. Proof. reflexivity. Qed.

(** C30: bar: bad edges are rejected; otherwise the label of pixel (i, j) is the
    number of the interval containing its own value. *)
Theorem C30_bar : forall edges h w horizontal values,
  (Nat.even (length edges) = false \/ ~ nondecreasing edges -> bar edges h w horizontal values = None) /\
  (Nat.even (length edges) = true -> nondecreasing edges ->
   (horizontal = true -> match values with Some v => length v = h * w | None => True end) ->
   exists out, bar edges h w horizontal values = Some out /\ length out = h * w /\
     forall i j, i < h -> j < w -> exists x k, bar_value w horizontal values i j = Some x /\
       nth_error out (i * w + j) = Some k /\ right_label (half_open x) (intervals edges) k).
Proof. exact bar_spec. Qed.
Print Assumptions C30_bar.
Example C30_ex : bar [qz 1; qz 2; qz 2; qz 4] 3 2 true None = Some [0; 0; 1; 1; 2; 2] /\
  bar [qz 1; qz 2; qz 2] 3 2 true None = None.
Proof. split; vm_compute; reflexivity. Qed.
(** C30: a vertical bar ignores the values supplied by the user. *)
Theorem C30_vertical_ignores_values : forall edges h w v v', bar edges h w false v = bar edges h w false v'.
Proof. exact bar_vertical_ignores. Qed.
Print Assumptions C30_vertical_ignores_values.
Theorem C30_vertical_values_refuted : exists edges v out, bar edges 1 2 false (Some v) = Some out /\
  ~ (exists k, nth_error out 0 = Some k /\ exists x, nth_error v 0 = Some x /\ right_label (half_open x) (intervals edges) k).
Proof. exact vertical_values_refuted. Qed.
Print Assumptions C30_vertical_values_refuted.
(** C30: box: the pixel in the a-th horizontal and b-th vertical range has the label
    a * (number of vertical ranges) + b + 1. *)
Theorem C30_box : forall shape ve he, Forall (fun e => (0 <= snd e)%Z) he -> Forall (fun e => (0 <= snd e)%Z) ve ->
  forall g, box shape ve (Some he) None = Some g -> (length g = fst shape /\ Forall (fun r => length r = snd shape) g) /\
  forall i j, i < fst shape -> j < snd shape ->
    (forall a b h v, nth_error he a = Some h -> nth_error ve b = Some v ->
       ((fst h <= Z.of_nat i < snd h)%Z /\ (fst v <= Z.of_nat j < snd v)%Z <->
        get2 g i j = Some (Z.of_nat (a * length ve + b + 1)))) /\
    ((forall h v, In h he -> In v ve -> ~ ((fst h <= Z.of_nat i < snd h)%Z /\ (fst v <= Z.of_nat j < snd v)%Z)) ->
     get2 g i j = Some 0%Z).
Proof. exact box_ok. Qed.
Print Assumptions C30_box.
(** C30: without horizontal edges the vertical ones are used for both; coordinate arrays only give the shape, and must agree in it. *)
Theorem C30_box_defaults : forall shape ve he hs vs,
  box shape ve None None = box shape ve (Some ve) None /\ box shape ve he (Some (vs, vs)) = box vs ve he None /\
  (hs <> vs -> box shape ve he (Some (hs, vs)) = None).
Proof.
  intros shape ve he [a b] [c d]. split; [reflexivity|]. unfold box. cbn [fst snd]. rewrite !Nat.eqb_refl. split; [reflexivity|].
  intros N. destruct (Nat.eqb_spec a c), (Nat.eqb_spec b d); cbn [andb]; try reflexivity. exfalso. apply N. congruence.
Qed.
Print Assumptions C30_box_defaults.
Example C30_ex2 : box (3, 4) [(0, 1); (2, 4)]%Z (Some [(0, 2)]%Z) None = Some [[1; 0; 2; 2]; [1; 0; 2; 2]; [0; 0; 0; 0]]%Z.
Proof. reflexivity. Qed.

(** C69: kymograph: one row per image holding that image's region pixels in raster order. *)
Theorem C69_kymograph : forall (A : Type) (images : list (list A)) labels num, images <> [] -> labels <> [] ->
  Forall (fun im => length im = length labels) images ->
  exists rows, kymograph images labels num = Some rows /\
    Forall2 (fun im row => picked (fun p => nth_error labels p = Some num) 0 im row) images rows.
Proof. exact (fun A images labels num => @kymograph_ok A images labels num). Qed.
Print Assumptions C69_kymograph.
Example C69_ex : kymograph [[1; 2; 3]; [4; 5; 6]] [7; 0; 7]%Z 7 = Some [[1; 3]; [4; 6]].
Proof. reflexivity. Qed.
