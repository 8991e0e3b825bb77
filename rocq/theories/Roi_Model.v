(* Model of /repo/skbeam/core/roi.py: rectangles, rings (through _make_roi),
   ring_edges, roi_max_counts, roi_pixel_values, mean_intensity, kymograph,
   extract_label_indices, bar, box.  (rings and segmented_rings on real radii and
   angles: RoiPolar_Model.)

   2-D arrays are lists of rows with an explicit shape (h, w); numbers are exact;
   labels and coordinates of rectangles are integers (floats make slice() raise
   TypeError).  lines is in Lines_Model.v and auto_find_center_rings in
   RingAuto_Model.v. *)
From Verif Require Import Common.

Definition tab2 {A} (h w : nat) (f : nat -> nat -> A) : list (list A) :=
  map (fun i => map (f i) (seq 0 w)) (seq 0 h).
Definition get2 {A} (g : list (list A)) (i j : nat) : option A :=
  row <- nth_error g i ;; nth_error row j.
Definition getz (g : list (list Z)) (i j : nat) : Z := match get2 g i j with Some x => x | None => 0%Z end.

(** ** rectangles, 57-94.  One rectangle (x, y, width, height). *)
Notation rect := (Z * Z * Z * Z)%type.
(** 84-88 the two slices; shape[0] bounds x and x addresses axis 0. *)
Definition rect_hit (h w : nat) (r : rect) (i j : nat) : bool :=
  let '(x, y, wd, ht) := r in
  let left := Z.max x 0 in let right := Z.min (x + wd) (Z.of_nat h) in
  let top := Z.max y 0 in let bottom := Z.min (y + ht) (Z.of_nat w) in
  in_slice (Z.of_nat h) left right (Z.of_nat i) && in_slice (Z.of_nat w) top bottom (Z.of_nat j).
(** 90-94; None is the ValueError "overlapping ROIs". *)
Definition rect_step (h w : nat) (g : list (list Z)) (ir : nat * rect) : option (list (list Z)) :=
  let '(i, r) := ir in
  if existsb (fun p => rect_hit h w r (fst p) (snd p) && negb (getz g (fst p) (snd p) =? 0)%Z)
             (list_prod (seq 0 h) (seq 0 w))
  then None
  else Some (tab2 h w (fun a b => if rect_hit h w r a b then Z.of_nat (i + 1) else getz g a b)).
Definition rectangles (coords : list rect) (h w : nat) : option (list (list Z)) :=
  foldM (rect_step h w) (combine (seq 0 (length coords)) coords) (tab2 h w (fun _ _ => 0%Z)).

(** ** np.digitize(x, edges, right=False) for non-decreasing edges: the number of
    edges <= x; right=True counts the edges < x.  [leb] is the order. *)
Definition digitize {A} (leb : A -> A -> bool) (edges : list A) (x : A) : nat :=
  length (filter (fun e => leb e x) edges).
(** 125-135, 259-269, 598-608 the checks on edges: even number, np.diff >= 0. *)
Fixpoint ordered {A} (leb : A -> A -> bool) (l : list A) : bool :=
  match l with a :: ((b :: _) as r) => leb a b && ordered leb r | _ => true end.
Definition edges_ok {A} (leb : A -> A -> bool) (edges : list A) : bool :=
  Nat.even (length edges) && ordered leb edges.
(** _make_roi, 536-562, for one pixel. *)
Definition roi_label (d : nat) : nat := ((if Nat.odd d then d else 0) + 1) / 2.
Definition make_roi {A} (leb : A -> A -> bool) (edges : list A) (coords : list A) : list nat :=
  map (fun x => roi_label (digitize leb edges x)) coords.

(** ** bar, 565-614 (flat result in raster order).  [values]: user coordinates,
    integers or not; None = default. *)
Definition bar (edges : list Qc) (h w : nat) (horizontal : bool) (values : option (list Qc))
  : option (list nat) :=
  if negb (edges_ok Qc_leb edges) then None else
  let v := match values with
           | Some v => v
           | None => concat (map (fun i => repeat (qn i) w) (seq 0 h))      (* np.repeat *)
           end in
  let v := if horizontal then v
           else concat (repeat (map qn (seq 0 w)) h) in                     (* np.tile *)
  if length v =? h * w then Some (make_roi Qc_leb edges v) else None.       (* reshape *)

(** ** box, 617-671.  The edges are lists of (start, stop) pairs, so the even-count
    check always passes; h_values and v_values only give the shape. *)
Definition box_coords (h_edges v_edges : list (Z * Z)) : list rect :=
  flat_map (fun h => map (fun v => (fst h, fst v, snd h - fst h, snd v - fst v)%Z) v_edges) h_edges.
Definition box (shape : nat * nat) (v_edges : list (Z * Z)) (h_edges : option (list (Z * Z)))
           (value_shapes : option ((nat * nat) * (nat * nat))) : option (list (list Z)) :=
  let he := match h_edges with Some e => e | None => v_edges end in
  match value_shapes with
  | None => rectangles (box_coords he v_edges) (fst shape) (snd shape)
  | Some (hs, vs) =>
      if (fst hs =? fst vs) && (snd hs =? snd vs)
      then rectangles (box_coords he v_edges) (fst vs) (snd vs) else None
  end.

(** ** ring_edges, 140-221.  A list of spacings holds floats: with integers np.insert cuts the
    fraction off the inner radius, see RingEdgesF_Model and C122. *)
Inductive scalar_or_list := Sc (x : Qc) | Li (l : list Qc).
Inductive ring_result := Rings (l : list (Qc * Qc)) | RValueError | RRagged.
Fixpoint cumsum (a : Qc) (l : list Qc) : list Qc :=
  match l with [] => [] | x :: r => (a + x)%Qc :: cumsum (a + x)%Qc r end.
Fixpoint interleave (a b : list Qc) : list Qc :=
  match a, b with x :: a', y :: b' => x :: y :: interleave a' b' | _, _ => [] end.
Fixpoint pairs (l : list Qc) : list (Qc * Qc) :=
  match l with x :: y :: r => (x, y) :: pairs r | _ => [] end.
Definition ring_edges (inner : Qc) (width spacing : scalar_or_list) (num_rings : option Z) : ring_result :=
  (* 187-189 *)
  if match width, spacing with
     | Li wl, Li sl => negb (Z.of_nat (length wl) =? Z.of_nat (length sl) - 1)%Z
     | _, _ => false end then RValueError else
  let n : option Z := match num_rings with
    | None => match width, spacing with                                      (* 190-208 *)
              | Li wl, _ => Some (Z.of_nat (length wl))
              | Sc _, Li sl => Some (Z.of_nat (length sl) + 1)%Z
              | Sc _, Sc _ => None end
    | Some k => if match width with Li wl => negb (k =? Z.of_nat (length wl))%Z | _ => false end
                   || match spacing with Li sl => negb (k - 1 =? Z.of_nat (length sl))%Z | _ => false end
                then None else Some k
    end in
  match n with
  | None => RValueError
  | Some k =>
      (* 211-214 np.ones of a negative length raises ValueError *)
      if match width with Sc _ => (k <? 0)%Z | _ => false end
         || match spacing with Sc _ => (k - 1 <? 0)%Z | _ => false end then RValueError else
      let wl := match width with Sc x => repeat x (Z.to_nat k) | Li l => l end in
      let sl := match spacing with Sc x => repeat x (Z.to_nat (k - 1)) | Li l => l end in
      let all := inner :: sl in                                              (* 217 *)
      (* 218 np.array of two sequences of different lengths *)
      if negb (length all =? length wl) then RRagged
      else Rings (pairs (cumsum 0%Qc (interleave all wl)))                   (* 218-219 *)
  end.

(** ** extract_label_indices, 500-533. *)
Definition flat_index (w i j : nat) : nat := i * w + j.
Definition extract_label_indices (h w : nat) (labels : list (list Z)) : list Z * list nat :=
  let raveled := concat labels in
  let grid := concat (tab2 h w (fun i j => flat_index w i j)) in
  (filter (fun x => (0 <? x)%Z) raveled,
   map snd (filter (fun p => (0 <? fst p)%Z) (combine raveled grid))).

(** ** roi_pixel_values, 327-362 on raveled arrays; None: shapes differ or the
    maximum of an empty label array. *)
Definition select {A} (f : Z -> bool) (labels : list Z) (image : list A) : list A :=
  map snd (filter (fun p => f (fst p)) (combine labels image)).
Definition zmax (l : list Z) : option Z :=
  match l with [] => None | x :: r => Some (fold_left Z.max r x) end.
Definition index_default (labels : list Z) : option (list Z) :=
  m <- zmax labels ;; Some (map Z.of_nat (seq 1 (Z.to_nat m))).
Definition roi_pixel_values {A} (image : list A) (labels : list Z) (index : option (list Z))
  : option (list (list A) * list Z) :=
  if negb (length labels =? length image) then None else
  idx <- (match index with Some l => Some l | None => index_default labels end) ;;
  Some (map (fun n => select (Z.eqb n) labels image) idx, idx).

(** ** kymograph, 472-497: one row per image; np.vstack of no images raises. *)
Definition bool_labels (labels : list Z) (num : Z) : list Z :=
  map (fun x => if (x =? num)%Z then 1%Z else 0%Z) labels.
Fixpoint kymo_rows {A} (images : list (list A)) (labels : list Z) (num : Z) : option (list (list A)) :=
  match images with
  | [] => Some []
  | im :: r => p <- roi_pixel_values im (bool_labels labels num) None ;;
               rs <- kymo_rows r labels num ;; Some (concat (fst p) :: rs)
  end.
Definition kymograph {A} (images : list (list A)) (labels : list Z) (num : Z) : option (list (list A)) :=
  match images with [] => None | _ => kymo_rows images labels num end.

(** ** roi_max_counts, 301-324: ndimage.maximum(img, labels) is the maximum over the
    pixels with label > 0 and raises if there is none. *)
Definition qmax2 (a b : Qc) : Qc := if Qc_ltb a b then b else a.
Definition lmax (l : list Qc) : option Qc := match l with [] => None | x :: r => Some (fold_left qmax2 r x) end.
Definition max_step (labels : list Z) (m : Qc) (img : list Qc) : option Qc :=
  x <- lmax (select (fun z => (0 <? z)%Z) labels img) ;; Some (qmax2 m x).
Definition roi_max_counts (images_sets : list (list (list Qc))) (labels : list Z) : option Qc :=
  foldM (fun m imgs => foldM (max_step labels) imgs m) images_sets 0%Qc.

(** ** mean_intensity, 365-410.  Images raveled; a label without pixels gives
    0/0 = NaN (None inside).  Outer None: an exception. *)
Fixpoint insert_u (x : Z) (l : list Z) : list Z :=
  match l with
  | [] => [x]
  | y :: r => if (x <? y)%Z then x :: l else if (x =? y)%Z then l else y :: insert_u x r
  end.
Definition unique (l : list Z) : list Z := fold_right insert_u [] l.
Fixpoint remove_first (x : Z) (l : list Z) : option (list Z) :=      (* list.remove *)
  match l with
  | [] => None
  | y :: r => if (x =? y)%Z then Some r else r' <- remove_first x r ;; Some (y :: r')
  end.
Inductive index_arg := IxAll | IxList (l : list Z) | IxOne (n : Z).
Definition nd_mean (labels : list Z) (img : list Qc) (n : Z) : option Qc :=
  match select (Z.eqb n) labels img with
  | [] => None
  | l => Some (qsum l / qn (length l))%Qc
  end.
Definition mean_intensity (images : list (list Qc)) (labels : list Z) (index : index_arg)
  : option (list (list (option Qc)) * list Z) :=
  match images with
  | [] => None                                                       (* images[0] *)
  | im0 :: _ =>
    if negb (length labels =? length im0) then None else
    idx <- (match index with
            | IxAll => remove_first 0%Z (unique labels)
            | IxList l => Some l
            | IxOne n => Some [n] end) ;;
    Some (map (fun img => map (nd_mean labels img) idx) images, idx)
  end.
