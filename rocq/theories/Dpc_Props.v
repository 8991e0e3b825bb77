(* C39, C40, C74, C75: differential phase contrast. *)
From Coq Require Import Reals.
From Verif Require Import Common Sums Dpc_Model Dpc_Spec Dpc_Proofs Dpc_Recon.
Local Open Scope nat_scope.

(** C39: whole image.  The caller's image is unchanged; the column and row sums are those
    of the image with the bad pixels zeroed, and both add up to the grand total. *)
Theorem C39_reduction_whole im bad : Forall (in_bounds (ih im) (iw im)) bad ->
  exists xl yl, image_reduction im NoRoi bad = Some (im, xl, yl) /\
    qsum xl = total im (fun _ _ => true) (clean im bad) /\ qsum yl = total im (fun _ _ => true) (clean im bad) /\
    length xl = iw im /\ length yl = ih im /\
    (forall k, k < iw im -> nth_error xl k = Some (column_total im (fun _ _ => true) (clean im bad) k)) /\
    (forall k, k < ih im -> nth_error yl k = Some (row_total im (fun _ _ => true) (clean im bad) k)).
Proof. exact (reduction_whole im bad). Qed.
Print Assumptions C39_reduction_whole.
(** C39: with a region of interest, also one that sticks out of the image. *)
Theorem C39_reduction_roi im r c row col bad : Forall (in_bounds (ih im) (iw im)) bad ->
  (0 <= r)%Z -> (0 <= c)%Z -> (0 <= row)%Z -> (0 <= col)%Z ->
  exists xl yl, image_reduction im (RoiSeq r c row col) bad = Some (im, xl, yl) /\
    qsum xl = total im (in_window r c row col) (clean im bad) /\ qsum yl = total im (in_window r c row col) (clean im bad) /\
    Z.of_nat (length xl) = Z.max 0 (Z.min (Z.of_nat (iw im)) (c + col) - c) /\
    Z.of_nat (length yl) = Z.max 0 (Z.min (Z.of_nat (ih im)) (r + row) - r) /\
    (forall k, k < length xl -> nth_error xl k = Some (column_total im (in_window r c row col) (clean im bad) (Z.to_nat c + k))) /\
    (forall k, k < length yl -> nth_error yl k = Some (row_total im (in_window r c row col) (clean im bad) (Z.to_nat r + k))).
Proof. exact (reduction_roi im r c row col bad). Qed.
Print Assumptions C39_reduction_roi.
(** C39: it raises exactly for a bad pixel outside the image or a roi given as an array,
    the type its documentation asks for. *)
Theorem C39_reduction_raises im roi bad :
  image_reduction im roi bad = None <-> roi = RoiArray \/ ~ Forall (in_bounds (ih im) (iw im)) bad.
Proof. exact (reduction_raises im roi bad). Qed.
Print Assumptions C39_reduction_raises.
(** A 3 x 3 image 0..8 with the centre and the last pixel bad, rows 1-2 and columns 1-2. *)
Example C39_ex :
  let im := Img 3 3 (fun i j => qn (3 * i + j)) in
  match image_reduction im (RoiSeq 1 1 2 5) [(1, 1); (-1, -1)]%Z with
  | Some (_, xl, yl) => (map this xl, map this yl) = ([7; 5], [5; 7])%Q
  | None => False
  end.
Proof. reflexivity. Qed.

(** C40: after k patterns the first k cells in raster order hold their fits and the
    others are zero; the counter is k. *)
Theorem C40_raster_order {I V Rf} (zero : V) (ref_of : I -> Rf) fitx fity rows cols ref images :
  length images <= rows * cols ->
  exists s, lazy_dpc zero ref_of fitx fity ref images rows cols None = Some s /\ scanned zero fitx fity rows cols (ref_of ref) images s.
Proof. exact (lazy_ok zero ref_of fitx fity rows cols ref images). Qed.
Print Assumptions C40_raster_order.
(** C40: a pattern too many raises. *)
Theorem C40_too_many {I V Rf} (zero : V) (ref_of : I -> Rf) fitx fity rows cols ref images :
  rows * cols < length images -> lazy_dpc zero ref_of fitx fity ref images rows cols None = None.
Proof. exact (lazy_too_many zero ref_of fitx fity rows cols ref images). Qed.
Print Assumptions C40_too_many.
(** C40: resuming from a yielded state, with any reference image, equals one run. *)
Theorem C40_resume {I V Rf} (zero : V) (ref_of : I -> Rf) fitx fity rows cols ref ref' l1 l2 st :
  lazy_dpc zero ref_of fitx fity ref (l1 ++ l2) rows cols st =
  (s <- lazy_dpc zero ref_of fitx fity ref l1 rows cols st ;; lazy_dpc zero ref_of fitx fity ref' l2 rows cols (Some s)).
Proof. exact (lazy_resume zero ref_of fitx fity rows cols ref ref' l1 l2 st). Qed.
Print Assumptions C40_resume.
(** Three patterns of a 2 x 2 scan. *)
Example C40_ex : match lazy_dpc 0 (fun i : nat => i) (fun r i => (r + i, 10 * i)) (fun r i => (r, i)) 5 [1; 2; 3] 2 2 None with
  | Some s => ax s = [[6; 7]; [8; 0]] /\ gx s = [[10; 20]; [30; 0]] /\ ay s = [[5; 5]; [5; 0]] /\ index s = 3
  | None => False end.
Proof. repeat split. Qed.
(** C40: what the flags do.  The gradients are scaled exactly when a pixel size and a
    distance (both non-zero) are given, whatever [scale] says; without them and without
    [negate] the call fails. *)
Theorem C40_flags {Rf} (s : dpc_state Qc Rf) nx ny energy ps fd negate scale w : (0 <= w)%Qc -> (w <= 1)%Qc -> energy <> 0%Qc ->
  gradients s nx ny energy ps fd negate scale w =
  match ps, fd with
  | Some p, Some f => if Qc_eq_dec p 0 then gradients s nx ny energy None None negate scale w else if Qc_eq_dec f 0 then gradients s nx ny energy None None negate scale w else
      let k := (p * energy / (Q2Qc (124 # 100000) * f))%Qc in
      inl (scaled (if negate then - (qn nx * k) else qn nx * k)%Qc (gx s), scaled (qn ny * k)%Qc (gy s), half_sum (ax s) (ay s))
  | _, _ => if negate then inl (scaled (-(1))%Qc (gx s), gy s, half_sum (ax s) (ay s)) else inr GxNone
  end.
Proof. exact (flags_ok s nx ny energy ps fd negate scale w). Qed.
Print Assumptions C40_flags.
(** C40: the amplitude is the mean of the two maps, entry by entry. *)
Theorem C40_amplitude {Rf} (s : dpc_state Qc Rf) nx ny energy ps fd negate scale w x y h : gradients s nx ny energy ps fd negate scale w = inl (x, y, h) ->
  forall i j ra rb u v, nth_error (ax s) i = Some ra -> nth_error (ay s) i = Some rb -> nth_error ra j = Some u -> nth_error rb j = Some v ->
  exists rh a, nth_error h i = Some rh /\ nth_error rh j = Some a /\ (a + a = u + v)%Qc.
Proof. exact (amplitude_ok s nx ny energy ps fd negate scale w x y h). Qed.
Print Assumptions C40_amplitude.
Theorem C40_bad_weighting {Rf} (s : dpc_state Qc Rf) nx ny energy ps fd negate scale w : (w < 0)%Qc \/ (1 < w)%Qc ->
  gradients s nx ny energy ps fd negate scale w = inr Weighting.
Proof. exact (flags_bad_weight s nx ny energy ps fd negate scale w). Qed.
Print Assumptions C40_bad_weighting.
Example C40_flags_ex : let s := Dpc [[1%Qc]] [[1%Qc]] [[qz 3]] [[qz 4]] tt 1 in
  gradients s 8 8 1%Qc None None false true 0%Qc = inr GxNone /\
  match gradients s 8 8 1%Qc None None true false 0%Qc with inl (a, b, _) => map (map this) a = [[-3]]%Q /\ map (map this) b = [[4]]%Q | inr _ => False end.
Proof. repeat split. Qed.

(** C74: if the gradients, each in the middle of an array of zeros, have the spectra of the derivatives of phi, the
    reconstruction is phi up to a constant, for every weighting strictly between 0 and 1;
    F and Fi are any transform pair with the usual properties. *)
Theorem C74_phase_recovered F Fi rows cols gx gy xs ys padding w (phi : nat -> nat -> R) Gx Gy :
  let n := (rows * (2 * padding + 1))%nat in let m := (cols * (2 * padding + 1))%nat in
  tiled rows cols padding gx Gx -> tiled rows cols padding gy Gy ->
  (forall a b, (forall k l, (k < n)%nat -> (l < m)%nat -> a k l = b k l) -> forall i j, (i < n)%nat -> (j < m)%nat -> F n m a i j = F n m b i j) ->
  (forall a b, (forall k l, (k < n)%nat -> (l < m)%nat -> a k l = b k l) -> forall i j, (i < n)%nat -> (j < m)%nat -> Fi n m a i j = Fi n m b i j) ->
  (forall a b i j, (i < n)%nat -> (j < m)%nat -> Fi n m (fun k l => cadd (a k l) (b k l)) i j = cadd (Fi n m a i j) (Fi n m b i j)) ->
  (forall z, exists c, forall i j, (i < n)%nat -> (j < m)%nat -> Fi n m (fun k l => if ((k =? 0) && (l =? 0))%nat then z else (0, 0)%R) i j = c) ->
  (forall i j, (i < n)%nat -> (j < m)%nat -> Fi n m (F n m (fun i j => (phi i j, 0%R))) i j = (phi i j, 0%R)) ->
  (forall k l, (k < n)%nat -> (l < m)%nat -> F n m Gx k l = jmul (wave m xs l) (F n m (fun i j => (phi i j, 0%R)) k l)) ->
  (forall k l, (k < n)%nat -> (l < m)%nat -> F n m Gy k l = jmul (wave n ys k) (F n m (fun i j => (phi i j, 0%R)) k l)) ->
  xs <> 0%R -> ys <> 0%R -> (0 < w < 1)%R ->
  exists c, forall i j, (i < rows)%nat -> (j < cols)%nat ->
  recon F Fi rows cols gx gy xs ys padding w i j = (phi (i + padding * rows)%nat (j + padding * cols)%nat - c)%R.
Proof.
  intros n m Tx Ty FE A1 A2 A3 A4 A5 A6. apply (recon_phase F Fi rows cols gx gy xs ys padding w phi A1 A2 A3 A4); intros k l Hk Hl; fold n m in Hk, Hl |- *.
  - rewrite (FE _ Gx (padded_tiled _ _ _ _ _ Tx) k l Hk Hl). exact (A5 k l Hk Hl).
  - rewrite (FE _ Gy (padded_tiled _ _ _ _ _ Ty) k l Hk Hl). exact (A6 k l Hk Hl).
Qed.
Print Assumptions C74_phase_recovered.
(** C74: for every weighting, the reconstruction is the inverse transform of the
    spectrum without the components in [lost] ... *)
Theorem C74_spectrum F Fi rows cols gx gy xs ys padding w (P : arr) Gx Gy :
  let n := (rows * (2 * padding + 1))%nat in let m := (cols * (2 * padding + 1))%nat in
  tiled rows cols padding gx Gx -> tiled rows cols padding gy Gy ->
  (forall a b, (forall k l, (k < n)%nat -> (l < m)%nat -> a k l = b k l) -> forall i j, (i < n)%nat -> (j < m)%nat -> F n m a i j = F n m b i j) ->
  (forall a b, (forall k l, (k < n)%nat -> (l < m)%nat -> a k l = b k l) -> forall i j, (i < n)%nat -> (j < m)%nat -> Fi n m a i j = Fi n m b i j) ->
  (forall k l, (k < n)%nat -> (l < m)%nat -> F n m Gx k l = jmul (wave m xs l) (P k l)) ->
  (forall k l, (k < n)%nat -> (l < m)%nat -> F n m Gy k l = jmul (wave n ys k) (P k l)) ->
  forall Q : arr, (forall k l, (k < n)%nat -> (l < m)%nat -> (lost n m xs ys w k l -> Q k l = (0, 0)%R) /\ (~ lost n m xs ys w k l -> Q k l = P k l)) ->
  forall i j, (i < rows)%nat -> (j < cols)%nat ->
  recon F Fi rows cols gx gy xs ys padding w i j = fst (Fi n m Q (i + padding * rows)%nat (j + padding * cols)%nat).
Proof.
  intros n m Tx Ty FE A1 A5 A6. apply (recon_ok F Fi rows cols gx gy xs ys padding w P A1); intros k l Hk Hl; fold n m in Hk, Hl |- *.
  - rewrite (FE _ Gx (padded_tiled _ _ _ _ _ Tx) k l Hk Hl). exact (A5 k l Hk Hl).
  - rewrite (FE _ Gy (padded_tiled _ _ _ _ _ Ty) k l Hk Hl). exact (A6 k l Hk Hl).
Qed.
Print Assumptions C74_spectrum.
(** ... which is the zero frequency alone inside (0, 1), and a whole row or column of
    the spectrum for the weightings 0 and 1. *)
Theorem C74_lost_components n m xs ys w k l : xs <> 0%R -> ys <> 0%R -> (0 <= w <= 1)%R -> (k < n)%nat -> (l < m)%nat ->
  lost n m xs ys w k l <-> (l = 0%nat \/ w = 1%R) /\ (k = 0%nat \/ w = 0%R).
Proof. exact (lost_iff n m xs ys w k l). Qed.
Print Assumptions C74_lost_components.
(** One row, cos(2 pi j / 4) from its derivative, with the four-point transform. *)
Example C74_ex : exists c, forall i j, (i < 1)%nat -> (j < 4)%nat ->
  recon F4 Fi4 1 4 dcos4 (fun _ _ => 0%R) 1 1 0 (1 / 2) i j = (cos4 i j - c)%R.
Proof. exact recon_example. Qed.

(** C75: the cost of the fit is never negative and zero exactly when the pattern is the
    reference attenuated by v0 with phase gradient v1, counted from the middle pixel. *)
Theorem C75_cost n v0 v1 ref diff : (0 < n)%nat -> length ref = n -> length diff = n ->
  (0 <= rss n v0 v1 ref diff)%R /\
  (rss n v0 v1 ref diff = 0%R <-> forall k r d, nth_error ref k = Some r -> nth_error diff k = Some d -> d = shifted n v0 v1 r k).
Proof. exact (rss_ok n v0 v1 ref diff). Qed.
Print Assumptions C75_cost.
Theorem C75_grid n k : (k < n)%nat -> nth_error (beta_grid n) k = Some (qz (Z.of_nat k - Z.of_nat n / 2)).
Proof. exact (beta_nth n k). Qed.
Print Assumptions C75_grid.
Example C75_ex : map this (beta_grid 4) = [-2; -1; 0; 1]%Q /\ map this (beta_grid 5) = [-2; -1; 0; 1; 2]%Q.
Proof. split; reflexivity. Qed.
