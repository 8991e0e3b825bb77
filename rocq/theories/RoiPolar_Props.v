(* C25 and C27: rings and segmented rings. *)
From Coq Require Import Reals.
From Verif Require Import Common RoiPolar_Model RoiPolar_Spec RoiPolar_Proofs.
From Coq Require Import Lra.
Local Open Scope R_scope.

(** C25: for an even number of non-decreasing edges every pixel is labelled k+1 iff
    its distance from the centre is in the k-th half-open ring, 0 iff in none;
    any other edge list is rejected. *)
Theorem C25_rings : forall edges c h w,
  (Nat.even (length edges) = true -> increasing edges ->
   exists out, rings edges c h w = Some out /\ length out = (h * w)%nat /\
   forall i j r, (i < h)%nat -> (j < w)%nat -> is_radius c i j r ->
     exists k, nth_error out (i * w + j) = Some k /\
       (forall m, k = S m <-> in_ring edges m r) /\ (k = 0%nat <-> forall m, ~ in_ring edges m r)) /\
  (Nat.even (length edges) = false \/ ~ increasing edges -> rings edges c h w = None).
Proof. exact rings_ok. Qed.
Print Assumptions C25_rings.
(** negative edges are accepted: a ring [-1, 1) holds the centre pixel *)
Example C25_ex : exists out, rings [-1; 1] (0, 0) 1 2 = Some out /\ nth_error out 0 = Some 1%nat /\ nth_error out 1 = Some 0%nat.
Proof. exact rings_example. Qed.

(** C27: N equal segments from angle 0: a pixel has label m*N + k + 1 iff it lies in
    ring m and sector k, and 0 iff it lies in no ring. *)
Theorem C27_cells : forall edges n c h w, Nat.even (length edges) = true -> increasing edges -> n <> 0%nat ->
  exists out, segmented_rings edges (SegNum n) c h w 0 = Some out /\
  (forall i j r t m k, (i < h)%nat -> (j < w)%nat -> is_radius c i j r ->
     angle_of c i j t ->
     (nth_error out (i * w + j) = Some (m * n + k + 1)%nat /\ (k < n)%nat <->
      in_ring edges m r /\ in_sector n 0 k t)) /\
  (forall i j r, (i < h)%nat -> (j < w)%nat -> is_radius c i j r ->
     (nth_error out (i * w + j) = Some 0%nat <-> forall m, ~ in_ring edges m r)).
Proof. exact (fun edges n c h w He Hi Hn => equal_zero_offset edges n c h w He Hi Hn). Qed.
Print Assumptions C27_cells.
(** C27: any non-decreasing segment list and offset: inside a segment the label is the
    cell's own; before the first edge it is the last label of the previous ring (0 for
    ring 0); from the last edge on it is the first label of the next ring. *)
Theorem C27_any_segments : forall edges s segs c h w off, Nat.even (length edges) = true -> increasing edges ->
  match s with SegList l => turned l off segs | SegNum n => equally_spaced n off segs end ->
  increasing segs -> segs <> [] ->
  exists out, segmented_rings edges s c h w off = Some out /\ length out = (h * w)%nat /\
  forall i j r t, (i < h)%nat -> (j < w)%nat -> is_radius c i j r ->
     angle_of c i j t ->
    (forall m k, in_ring edges m r -> in_segment segs k t ->
       nth_error out (i * w + j) = Some (m * (length segs - 1) + k + 1)%nat) /\
    ((forall m, ~ in_ring edges m r) -> nth_error out (i * w + j) = Some 0%nat) /\
    (forall m s0, in_ring edges m r -> nth_error segs 0 = Some s0 -> t < s0 ->
       nth_error out (i * w + j) = Some (m * (length segs - 1))%nat) /\
    (forall m s1, in_ring edges m r -> nth_error segs (length segs - 1) = Some s1 -> s1 <= t ->
       nth_error out (i * w + j) = Some ((m + 1) * (length segs - 1) + 1)%nat).
Proof. intros edges s segs c h w off He Hi Hg. rewrite (edges_given s off segs Hg). exact (fun Hs Hn => seg_ok edges s c h w off He Hi Hs Hn). Qed.
Print Assumptions C27_any_segments.
(** C27: falling segment edges are accepted too: segment k lies below edge k; edges that neither rise nor fall raise, as do bad ring edges. *)
Theorem C27_falling_segments : forall edges s segs c h w off, Nat.even (length edges) = true -> increasing edges ->
  match s with SegList l => turned l off segs | SegNum n => equally_spaced n off segs end ->
  falling segs -> ~ increasing segs ->
  exists out, segmented_rings edges s c h w off = Some out /\ length out = (h * w)%nat /\
  forall i j r t, (i < h)%nat -> (j < w)%nat -> is_radius c i j r -> angle_of c i j t ->
    (forall m k, in_ring edges m r -> in_falling_segment segs k t -> nth_error out (i * w + j) = Some (m * (length segs - 1) + k + 1)%nat) /\
    ((forall m, ~ in_ring edges m r) -> nth_error out (i * w + j) = Some 0%nat).
Proof. intros edges s segs c h w off He Hi Hg. rewrite (edges_given s off segs Hg). exact (seg_falling edges s c h w off He Hi). Qed.
Print Assumptions C27_falling_segments.
Theorem C27_raises : forall edges s segs c h w off,
  match s with SegList l => turned l off segs | SegNum n => equally_spaced n off segs end ->
  Nat.even (length edges) = false \/ ~ increasing edges \/ ~ increasing segs /\ ~ falling segs -> segmented_rings edges s c h w off = None.
Proof. intros edges s segs c h w off Hg. rewrite (edges_given s off segs Hg). exact (seg_raises edges s c h w off). Qed.
Print Assumptions C27_raises.
(** half turns given downwards: the pixel one column right of the centre lies in the second one *)
Example C27_falling_ex : exists out, segmented_rings [0; 2] (SegList [2 * PI; PI; 0]) (0, 0) 1 2 0 = Some out /\ nth_error out 1 = Some 2%nat.
Proof.
  pose proof PI_RGT_0 as P.
  destruct (C27_falling_segments [0; 2] (SegList [2 * PI; PI; 0]) [2 * PI; PI; 0] (0, 0) 1 2 0) as (out & E & _ & V); [reflexivity| | | | |].
  - intros [|[|k]] a b A B; cbn in A, B; try discriminate; try (destruct k; discriminate). injection A as <-. injection B as <-. lra.
  - split; [reflexivity|]. intros [|[|[|k]]] a A; cbn in A |- *; try (destruct k; discriminate); injection A as <-; f_equal; ring.
  - intros [|[|[|k]]] a b A B; cbn in A, B; try discriminate; try (injection A as <-; injection B as <-; lra). destruct k; discriminate.
  - intros I. specialize (I 0%nat _ _ eq_refl eq_refl). lra.
  - exists out. split; [exact E|].
    assert (R1 : is_radius (0, 0) 0 1 1) by (split; [lra|]; cbn; ring).
    destruct (V 0%nat 1%nat 1 0) as [V1 _]; [lia|lia|exact R1| |].
    + left. split; [lra|]. exists 1. rewrite cos_0, sin_0. split; [exact R1|]. cbn. lra.
    + apply (V1 0%nat 1%nat).
      * exists 0, 2. cbn. split; [reflexivity|]. split; [reflexivity|lra].
      * exists PI, 0. cbn. split; [reflexivity|]. split; [reflexivity|lra].
Qed.
Example C27_raises_ex c h w : segmented_rings [0; 2] (SegList [0; PI; 1]) c h w 0 = None.
Proof.
  pose proof PI_RGT_0 as P. apply (C27_raises _ _ [0; PI; 1]).
  - split; [reflexivity|]. intros [|[|[|k]]] a A; cbn in A |- *; try (destruct k; discriminate); injection A as <-; f_equal; ring.
  - right. right. split; intros I.
    + specialize (I 1%nat _ _ eq_refl eq_refl). pose proof PI2_3_2. lra.
    + specialize (I 0%nat _ _ eq_refl eq_refl). lra.
Qed.
(** C27: positive offset: the pixels of ring m+1 at angles below the offset share the
    label of the last sector of ring m. *)
Theorem C27_offset_collision : forall edges n c h w, Nat.even (length edges) = true -> increasing edges -> n <> 0%nat ->
  forall off, exists out, segmented_rings edges (SegNum n) c h w off = Some out /\
  forall m i j r t i' j' r' t', (i < h)%nat -> (j < w)%nat -> is_radius c i j r -> angle_of c i j t ->
    (i' < h)%nat -> (j' < w)%nat -> is_radius c i' j' r' -> angle_of c i' j' t' ->
    in_ring edges (m + 1) r -> t < off -> in_ring edges m r' -> in_sector n off (n - 1) t' ->
    nth_error out (i * w + j) = nth_error out (i' * w + j').
Proof. exact (fun edges n c h w He Hi Hn => offset_collision edges n c h w He Hi Hn). Qed.
Print Assumptions C27_offset_collision.
(** C27: ... and those of the innermost ring are background. *)
Theorem C27_offset_background : forall edges n c h w, Nat.even (length edges) = true -> increasing edges -> n <> 0%nat ->
  forall off, exists out, segmented_rings edges (SegNum n) c h w off = Some out /\
  forall i j r t, (i < h)%nat -> (j < w)%nat -> is_radius c i j r -> angle_of c i j t ->
    in_ring edges 0 r -> t < off -> nth_error out (i * w + j) = Some 0%nat.
Proof. exact (fun edges n c h w He Hi Hn => offset_background edges n c h w He Hi Hn). Qed.
Print Assumptions C27_offset_background.
(** C27: negative offset: ring m beyond 2 pi + offset shares the first label of ring m+1. *)
Theorem C27_offset_collision_neg : forall edges n c h w, Nat.even (length edges) = true -> increasing edges -> n <> 0%nat ->
  forall off, exists out, segmented_rings edges (SegNum n) c h w off = Some out /\
  forall m i j r t i' j' r' t', (i < h)%nat -> (j < w)%nat -> is_radius c i j r -> angle_of c i j t ->
    (i' < h)%nat -> (j' < w)%nat -> is_radius c i' j' r' -> angle_of c i' j' t' ->
    in_ring edges m r -> 2 * PI + off <= t -> in_ring edges (m + 1) r' -> in_sector n off 0 t' ->
    nth_error out (i * w + j) = nth_error out (i' * w + j').
Proof. exact (fun edges n c h w He Hi Hn => offset_collision_neg edges n c h w He Hi Hn). Qed.
Print Assumptions C27_offset_collision_neg.
(** C27: such pixels exist: rings [1,2) and [2,4) around (1,0), quadrants turned by pi/8. *)
Theorem C27_distinct_labels_refuted : exists out, segmented_rings [1; 2; 2; 4] (SegNum 4) (1, 0) 2 4 (PI / 8) = Some out /\
  nth_error out 7 = nth_error out 1 /\ nth_error out 7 = Some 4%nat.
Proof. exact collision_example. Qed.
Print Assumptions C27_distinct_labels_refuted.
(** the pixels are (1,3) and (0,1); the second lies at 7 pi / 4 *)
Example C27_ex : is_angle (1, 0) 0 1 (7 * (PI / 4)). Proof. exact example_angle. Qed.
