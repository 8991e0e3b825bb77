(* Model of the spatial cross-correlator.
   /repo/skbeam/core/correlation.py 948-1234 (CrossCorrelator), 1237-1267
   (_cross_corr).

   Simplifications: exact rationals, NaN and inf = None; fftconvolve(..,
   mode="full") is the exact linear convolution (so the "> 0.5" threshold on the
   mask correlation, 1113, compares exact counts); 1-D data are 1 x n images
   (1018-1019, 1169-1170 and 1182-1183: the code reshapes likewise); the scatter
   tmpimg[ppiis, ppjjs] = img[pis, pjs] (1196) into a zero array is written as a
   comprehension; pixels of a region are listed in raster order (np.argsort at
   1043 may list pixels of equal id in another order, which affects no sum).
   Masks hold non-negative integers. *)
From Verif Require Import Common.

Notation image := (list (list Qc)) (only parsing).

Definition shape (m : image) : nat * nat :=
  (length m, match m with [] => 0 | r :: _ => length r end).
Definition at2 (m : image) (i j : nat) : Qc := nth j (nth i m []) 0%Qc.
Definition tab (h w : nat) (f : nat -> nat -> Qc) : image :=
  map (fun i => map (f i) (seq 0 w)) (seq 0 h).

(** img[::-1, ::-1], 1264. *)
Definition rev2 (m : image) : image := map (@rev Qc) (rev m).

(** scipy.signal.fftconvolve(a, b, mode="full") of two h x w arrays, 1265. *)
Definition conv_full (h w : nat) (a b : image) : image :=
  tab (2 * h - 1) (2 * w - 1) (fun t s =>
    qsum (map (fun ij => let '(i, j) := ij in
       if (i <=? t) && (t - i <? h) && (j <=? s) && (s - j <? w)
       then (at2 a i j * at2 b (t - i) (s - j))%Qc else 0%Qc)
      (list_prod (seq 0 h) (seq 0 w)))).

(** _cross_corr, 1237-1267. *)
Definition cross_corr (a b : image) : option image :=
  let '(h, w) := shape a in
  let '(h', w') := shape b in
  if (h =? h') && (w =? w') then Some (conv_full h w a (rev2 b)) else None.

(** ** CrossCorrelator.__init__ *)
Definition mat_at (mask : list (list nat)) (i j : nat) : nat := nth j (nth i mask []) 0.
(** np.where(mask != 0) restricted to one id, 1037-1046. *)
Definition region (mask : list (list nat)) (hh ww id : nat) : list (nat * nat) :=
  filter (fun p => mat_at mask (fst p) (snd p) =? id) (list_prod (seq 0 hh) (seq 0 ww)).
(** The ids in ascending order (argsort of bind, 1043, then the change points). *)
Fixpoint insert_u (x : nat) (l : list nat) : list nat :=
  match l with
  | [] => [x]
  | y :: r => if x =? y then l else if x <? y then x :: l else y :: insert_u x r
  end.
Definition ids_of (mask : list (list nat)) : list nat :=
  fold_right insert_u [] (filter (fun x => negb (x =? 0)) (concat mask)).

Definition lmin (l : list nat) : nat := match l with [] => 0 | x :: r => fold_left Nat.min r x end.
Definition lmax (l : list nat) : nat := fold_left Nat.max l 0.

(** Bounding box [row_min, row_max, col_min, col_max], 1057-1065. *)
Definition bbox (ps : list (nat * nat)) : nat * nat * nat * nat :=
  (lmin (map fst ps), lmax (map fst ps), lmin (map snd ps), lmax (map snd ps)).

(** Sub-image of a region: pixels of the region, zero elsewhere, 1195-1196 and 1199-1201. *)
Definition sub_image (mask : list (list nat)) (id : nat) (bb : nat * nat * nat * nat)
           (img : image) : image :=
  let '(r0, r1, c0, c1) := bb in
  tab (1 + (r1 - r0)) (1 + (c1 - c0)) (fun a b =>
    if mat_at mask (a + r0) (b + c0) =? id then at2 img (a + r0) (b + c0) else 0%Qc).
Definition ones (hh ww : nat) : image := tab hh ww (fun _ _ => 1%Qc).

Definition qavg (l : list Qc) : Qc := (qsum l / qn (length l))%Qc.

(** ** One region of __call__, 1190-1229; entries are None for nan/inf. *)
Definition odiv (a b : option Qc) : option Qc :=
  match a, b with
  | Some x, Some y => if Qc_eqb y 0%Qc then None else Some (x / y)%Qc
  | _, _ => None end.
Definition omul (a b : option Qc) : option Qc :=
  match a, b with Some x, Some y => Some (x * y)%Qc | _, _ => None end.

Definition tab2o (h w : nat) (f : nat -> nat -> option Qc) : list (list (option Qc)) :=
  map (fun i => map (f i) (seq 0 w)) (seq 0 h).

Definition call_region (symavg regular : bool) (mask : list (list nat)) (hh ww : nat)
           (img1 img2 : image) (id : nat) : option (list (list (option Qc))) :=
  let ps := region mask hh ww id in
  let bb := bbox ps in
  let tmp1 := sub_image mask id bb img1 in
  let tmp2 := sub_image mask id bb img2 in
  let sub := sub_image mask id bb (ones hh ww) in
  ccorr <- cross_corr tmp1 tmp2 ;;
  mcorr <- cross_corr sub sub ;;
  icorr <- cross_corr tmp1 sub ;;
  icorr2 <- cross_corr sub tmp2 ;;
  let '(h, w) := shape ccorr in
  let a1 := qavg (map (fun p => at2 img1 (fst p) (snd p)) ps) in
  let a2 := qavg (map (fun p => at2 img2 (fst p) (snd p)) ps) in
  Some (tab2o h w (fun t s =>
    let m := if Qc_ltb (qz 1 / qz 2)%Qc (at2 mcorr t s) then Some (at2 mcorr t s) else None in
    let c0 := Some (at2 ccorr t s) in
    let c1 := if symavg
              then omul c0 (odiv (odiv m (Some (at2 icorr t s))) (Some (at2 icorr2 t s))) else c0 in
    if regular then odiv c1 (omul m (Some (a1 * a2)%Qc)) else c1)).

(** __call__, 1136-1234, one result per id; [None] is the ValueError for a
    wrong shape.  img2 = None means self correlation. *)
Definition good_shape (hh ww : nat) (m : image) : bool :=
  (length m =? hh) && forallb (fun r => length r =? ww) m.
Definition correlate (symavg regular : bool) (mask : list (list nat)) (hh ww : nat)
           (img1 : image) (img2 : option image)
  : option (list (list (list (option Qc)))) :=
  if negb (good_shape hh ww img1) then None else
  let second := match img2 with None => img1 | Some i2 => i2 end in
  if negb (good_shape hh ww second) then None else
  let fix go l := match l with
    | [] => Some []
    | id :: r => c <- call_region symavg regular mask hh ww img1 second id ;;
                 cs <- go r ;; Some (c :: cs)
    end in go (ids_of mask).
