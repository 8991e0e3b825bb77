From Coq Require Import Reals Lra.
From Verif Require Import Common Roi_Model Roi_Spec Roi_Proofs RoiPolar_Model RoiPolar_Spec.
Local Open Scope R_scope.

Lemma Rleb_iff x y : Rleb x y = true <-> x <= y.
Proof. unfold Rleb. destruct (Rle_dec x y); split; intros; auto; discriminate. Qed.
Lemma Rleb_false x y : Rleb x y = false <-> y < x.
Proof. unfold Rleb. destruct (Rle_dec x y); split; intros; try discriminate; auto; lra. Qed.
Lemma Rgtb_iff x y : Rgtb x y = true <-> y < x.
Proof. unfold Rgtb. destruct (Rlt_dec y x); split; intros; auto; discriminate. Qed.
Lemma Rleb_trans x y z : Rleb x y = true -> Rleb y z = true -> Rleb x z = true.
Proof. rewrite !Rleb_iff. lra. Qed.

(** ** Radius and angle *)
Lemma radius_ok c i j : is_radius c i j (radius c (1, 1) i j).
Proof.
  unfold is_radius, radius, grid_x, grid_y. cbn [fst snd]. split; [apply sqrt_pos|].
  rewrite sqrt_sqrt by (apply Rplus_le_le_0_compat; apply Rle_0_sqr). ring.
Qed.
Lemma radius_unique c i j r r' : is_radius c i j r -> is_radius c i j r' -> r = r'.
Proof. intros [H1 H2] [H3 H4]. nra. Qed.
Lemma cos_atan_sqrt u : cos (atan u) = / sqrt (1 + u * u).
Proof. rewrite cos_atan. unfold Rsqr, Rdiv. ring. Qed.
Lemma sin_atan_sqrt u : sin (atan u) = u / sqrt (1 + u * u).
Proof. rewrite sin_atan. unfold Rsqr. reflexivity. Qed.
Lemma atan2_polar y x : 0 < x * x + y * y ->
  let t := wrap_angle (atan2 y x) in let r := sqrt (x * x + y * y) in
  0 <= t < 2 * PI /\ x = r * cos t /\ y = r * sin t.
Proof.
  intros H. pose proof PI_RGT_0 as HPI. cbn zeta. set (r := sqrt (x * x + y * y)).
  assert (Hr : 0 < r) by (apply sqrt_lt_R0; exact H).
  assert (Hrr : r * r = x * x + y * y) by (apply sqrt_sqrt; lra).
  assert (Hcs : forall a, cos (2 * PI + a) = cos a /\ sin (2 * PI + a) = sin a).
  { intros a. rewrite Rplus_comm. pose proof (cos_period a 1) as C. pose proof (sin_period a 1) as S0.
    cbn [INR] in C, S0. rewrite Rmult_1_r in C, S0. auto. }
  assert (Hw : forall a, cos (wrap_angle a) = cos a /\ sin (wrap_angle a) = sin a).
  { intros a. unfold wrap_angle. destruct (Rlt_dec a 0); [apply Hcs|auto]. }
  destruct (Hw (atan2 y x)) as [-> ->].
  assert (Hrange : - PI <= atan2 y x <= PI -> (atan2 y x < 0 -> - PI < atan2 y x \/ True) -> 0 <= wrap_angle (atan2 y x) < 2 * PI).
  { intros Hb _. unfold wrap_angle. destruct (Rlt_dec (atan2 y x) 0); lra. }
  assert (Hx : x <> 0 -> let u := y / x in 0 < sqrt (1 + u * u) /\ sqrt (1 + u * u) * Rabs x = r).
  { intros Hx u. assert (0 < 1 + u * u) by nra. split; [apply sqrt_lt_R0; lra|].
    unfold r. rewrite <- (sqrt_Rsqr_abs x). rewrite <- sqrt_mult; [|lra|apply Rle_0_sqr]. f_equal. unfold u, Rsqr. field. exact Hx. }
  unfold atan2 in *. destruct (Rlt_dec 0 x) as [Px|Px]; [|destruct (Rlt_dec x 0) as [Nx|Nx]].
  - pose proof (atan_bound (y / x)). split; [apply Hrange; [lra|auto]|].
    destruct (Hx ltac:(lra)) as [S1 S2]. rewrite Rabs_right in S2 by lra. rewrite cos_atan_sqrt, sin_atan_sqrt, <- S2.
    split; field; lra.
  - destruct (Hx ltac:(lra)) as [S1 S2]. rewrite Rabs_left in S2 by lra. pose proof (atan_bound (y / x)) as B.
    destruct (Rlt_dec y 0) as [Ny|Ny].
    + assert (0 < y / x) by (replace (y / x) with ((- y) * / (- x)) by (field; lra); apply Rmult_lt_0_compat; [lra|apply Rinv_0_lt_compat; lra]).
      assert (0 < atan (y / x)) by (rewrite <- atan_0; apply atan_increasing; assumption).
      split; [apply Hrange; [lra|auto]|].
      unfold Rminus. rewrite cos_plus, sin_plus, cos_neg, sin_neg, cos_PI, sin_PI, cos_atan_sqrt, sin_atan_sqrt, <- S2.
      split; field; lra.
    + assert (y / x <= 0).
      { replace (y / x) with (- (y * / (- x))) by (field; lra). assert (0 < / (- x)) by (apply Rinv_0_lt_compat; lra). nra. }
      assert (atan (y / x) <= 0).
      { rewrite <- atan_0. destruct H0 as [H0|H0]; [left; apply atan_increasing; exact H0|rewrite H0; right; reflexivity]. }
      split; [apply Hrange; [lra|auto]|].
      rewrite cos_plus, sin_plus, cos_PI, sin_PI, cos_atan_sqrt, sin_atan_sqrt, <- S2.
      split; field; lra.
  - assert (x = 0) by lra. subst x. assert (Hr0 : r * r = y * y) by lra.
    destruct (Rlt_dec 0 y) as [Py|Py]; [|destruct (Rlt_dec y 0) as [Ny|Ny]; [|exfalso; nra]].
    + split; [apply Hrange; [lra|auto]|]. rewrite cos_PI2, sin_PI2. split; nra.
    + split; [apply Hrange; [lra|auto]|]. rewrite cos_neg, sin_neg, cos_PI2, sin_PI2. split; nra.
Qed.
Definition pixel_angle (c : R * R) (i j : nat) : R := wrap_angle (angle c (1, 1) i j).
Lemma angle_ok c i j r : is_radius c i j r -> 0 < r -> is_angle c i j (pixel_angle c i j).
Proof.
  intros HR Hr. unfold is_angle, pixel_angle, angle, grid_x, grid_y. cbn [fst snd].
  destruct HR as [H1 H2]. rewrite !Rmult_1_l.
  destruct (atan2_polar (INR i - fst c) (INR j - snd c)) as [A1 [A2 A3]].
  { rewrite <- H2. apply Rmult_lt_0_compat; exact Hr. }
  split; [exact A1|]. exists r. split; [split; assumption|]. split; [exact Hr|].
  replace (sqrt ((INR j - snd c) * (INR j - snd c) + (INR i - fst c) * (INR i - fst c))) with r in A2, A3; [auto|].
  rewrite <- H2. symmetry. apply sqrt_square. exact H1.
Qed.
Lemma is_angle_unique c i j t t' : is_angle c i j t -> is_angle c i j t' -> t = t'.
Proof.
  intros [[H0 H1] [r [HR [Hr [C S]]]]] [[H0' H1'] [r' [HR' [Hr' [C' S']]]]].
  pose proof (radius_unique _ _ _ _ _ HR HR') as <-.
  assert (EC : cos t = cos t') by (apply (Rmult_eq_reg_l r); [congruence|lra]).
  assert (ES : sin t = sin t') by (apply (Rmult_eq_reg_l r); [congruence|lra]).
  assert (E1 : cos (t - t') = 1).
  { rewrite cos_minus, EC, ES. pose proof (sin2_cos2 t'). unfold Rsqr in *. lra. }
  pose proof PI_RGT_0. assert (Hz : sin ((t - t') / 2) = 0).
  { replace (t - t') with (2 * ((t - t') / 2)) in E1 by field. rewrite cos_2a_sin in E1. nra. }
  destruct (Rtotal_order ((t - t') / 2) 0) as [Hn|[Hn|Hn]]; [|lra|].
  - assert (0 < sin (- ((t - t') / 2))) by (apply sin_gt_0; lra). rewrite sin_neg in *. lra.
  - assert (0 < sin ((t - t') / 2)) by (apply sin_gt_0; lra). lra.
Qed.
Lemma pixel_angle_range c i j : 0 <= pixel_angle c i j < 2 * PI.
Proof.
  unfold pixel_angle, angle. set (y := grid_y _ _ _). set (x := grid_x _ _ _). pose proof PI_RGT_0.
  destruct (Rtotal_order (x * x + y * y) 0) as [H0|[H0|H0]]; [nra| |apply (atan2_polar y x H0)].
  assert (x = 0) by nra. assert (y = 0) by nra. rewrite H1, H2. unfold atan2, wrap_angle.
  repeat match goal with |- context [Rlt_dec ?a ?b] => destruct (Rlt_dec a b) end; lra.
Qed.
(** At the centre itself the angle is 0. *)
Lemma pixel_angle_centre c i j : is_radius c i j 0 -> pixel_angle c i j = 0.
Proof.
  intros [_ H]. revert H. set (a := INR j - snd c). set (b := INR i - fst c). intros H.
  assert (HX : a = 0) by nra. assert (HY : b = 0) by nra. unfold a, b in *.
  unfold pixel_angle, angle, grid_x, grid_y. cbn [fst snd]. rewrite HX, HY, !Rmult_0_r. unfold atan2, wrap_angle.
  repeat match goal with |- context [Rlt_dec ?a ?b] => destruct (Rlt_dec a b) end; lra.
Qed.

(** ** Order facts *)
Lemma ordered_increasing l : ordered Rleb l = true <-> increasing l.
Proof.
  induction l as [|a l IH].
  - split; [intros _ k x y E; destruct k; discriminate|reflexivity].
  - destruct l as [|b l].
    + split; [intros _ k x y _ E; destruct k as [|[|k]]; discriminate|reflexivity].
    + change (ordered Rleb (a :: b :: l)) with (Rleb a b && ordered Rleb (b :: l))%bool. rewrite andb_true_iff, IH, Rleb_iff. split.
      * intros [H1 H2] [|k] x y E1 E2; [cbn in E1, E2; injection E1 as <-; injection E2 as <-; exact H1|].
        eapply (H2 k); [exact E1|]. exact E2.
      * intros H. split; [apply (H 0%nat a b); reflexivity|]. intros k x y E1 E2. apply (H (S k) x y); [exact E1|exact E2].
Qed.
Lemma in_ring_interval edges k r : in_ring edges k r <->
  exists iv, nth_error (intervals edges) k = Some iv /\ inside Rleb r iv.
Proof.
  unfold in_ring, inside. split.
  - intros [lo [hi [E1 [E2 H]]]]. exists (lo, hi). split; [apply (proj2 (intervals_nth Rleb Rleb_trans edges k (lo, hi))); auto|]. cbn [fst snd].
    rewrite Rleb_iff, Rleb_false. exact H.
  - intros [[lo hi] [E H]]. apply (proj1 (intervals_nth Rleb Rleb_trans edges k (lo, hi))) in E. cbn [fst snd] in *. rewrite Rleb_iff, Rleb_false in H. exists lo, hi. tauto.
Qed.

(** ** rings *)
Theorem rings_ok edges c h w :
  (Nat.even (length edges) = true -> increasing edges ->
   exists out, rings edges c h w = Some out /\ length out = (h * w)%nat /\
   forall i j r, (i < h)%nat -> (j < w)%nat -> is_radius c i j r ->
     exists k, nth_error out (i * w + j) = Some k /\
       (forall m, k = S m <-> in_ring edges m r) /\ (k = 0%nat <-> forall m, ~ in_ring edges m r)) /\
  (Nat.even (length edges) = false \/ ~ increasing edges -> rings edges c h w = None).
Proof.
  unfold rings. split.
  - intros HE HI. assert (HOk : edges_ok Rleb edges = true).
    { unfold edges_ok. rewrite HE. apply ordered_increasing in HI. rewrite HI. reflexivity. }
    rewrite HOk. cbn [negb]. eexists. split; [reflexivity|]. unfold make_roi, radial_grid. rewrite map_length.
    split; [apply concat_tab_length|]. intros i j r Hi Hj HR.
    rewrite nth_error_map, (nth_error_concat_rect _ h w) by (try apply tab_shaped; assumption).
    rewrite get2_tab by assumption. cbn [option_map].
    rewrite (radius_unique _ _ _ _ _ (radius_ok c i j) HR).
    exists (roi_label (digitize Rleb edges r)). split; [reflexivity|].
    pose proof (roi_label_ok Rleb Rleb_trans edges r HOk) as HL. set (k := roi_label _) in *. clearbody k.
    assert (H1 : forall m, k = S m <-> in_ring edges m r).
    { intros m. rewrite in_ring_interval. destruct HL as [[-> H]|[s [Hk [E H]]]].
      - split; [discriminate|]. intros [iv [E1 E2]]. exfalso. apply (H iv); [eapply nth_error_In; eauto|exact E2].
      - split.
        + intros ->. exists s. cbn in E. rewrite Nat.sub_0_r in E. auto.
        + intros [iv [E1 E2]]. pose proof (intervals_disjoint Rleb Rleb_trans edges r _ _ HOk _ _ E E1 H E2). lia. }
    split; [exact H1|]. split.
    + intros E m Hm. apply H1 in Hm. lia.
    + intros HN. destruct k as [|m]; [reflexivity|]. exfalso. apply (HN m). apply H1. reflexivity.
  - intros H. replace (edges_ok Rleb edges) with false; [reflexivity|]. symmetry. unfold edges_ok.
    destruct H as [-> | H]; [reflexivity|]. destruct (ordered Rleb edges) eqn:E; [|apply andb_false_r].
    apply ordered_increasing in E. contradiction.
Qed.

(** ** segmented_rings *)
Lemma seg_loop_ok len ind r : forall n edges i label, (length edges <= n)%nat ->
  (exists m, in_ring edges m r /\ (forall m', in_ring edges m' r -> m' = m) /\
     seg_loop edges len ind i r label = (ind + (len - 1) * (i + m))%nat) \/
  ((forall m, ~ in_ring edges m r) /\ seg_loop edges len ind i r label = label) \/
  (exists m m', in_ring edges m r /\ in_ring edges m' r /\ m <> m').
Proof.
  assert (HS : forall a b l m, in_ring (a :: b :: l) (S m) r <-> in_ring l m r).
  { intros a b l m. unfold in_ring. replace (2 * S m)%nat with (S (S (2 * m))) by lia.
    replace (S (S (2 * m)) + 1)%nat with (S (S (2 * m + 1))) by lia. reflexivity. }
  assert (H0 : forall a b l, in_ring (a :: b :: l) 0 r <-> a <= r < b).
  { intros a b l. unfold in_ring. cbn. split; [intros [lo [hi [E1 [E2 H]]]]; congruence|]. intros H. exists a, b. auto. }
  induction n as [|n IH]; intros [|a [|b l]] i label HL; cbn [length] in HL; try lia.
  1-3: right; left; split; [|reflexivity]; intros m [lo [hi [E1 [E2 _]]]]; destruct m as [|m]; try discriminate;
    replace (2 * S m)%nat with (S (S (2 * m))) in E1 by lia; discriminate.
  cbn [seg_loop]. destruct (Rleb a r && Rgtb b r)%bool eqn:E.
  - apply andb_true_iff in E. rewrite Rleb_iff, Rgtb_iff in E.
    destruct (IH l (S i) (ind + (len - 1) * i)%nat ltac:(lia)) as [[m [M1 _]]|[[M1 M2]|[m [m' [M1 [M2 M3]]]]]].
    + right; right. exists 0%nat, (S m). rewrite HS, H0. auto.
    + left. exists 0%nat. rewrite H0. split; [exact E|]. split.
      * intros [|m'] Hm; [reflexivity|]. rewrite HS in Hm. exfalso. exact (M1 _ Hm).
      * rewrite M2. f_equal. f_equal. lia.
    + right; right. exists (S m), (S m'). rewrite !HS. auto.
  - assert (E' : ~ (a <= r < b)) by (rewrite <- Rleb_iff, <- Rgtb_iff, <- andb_true_iff; congruence).
    destruct (IH l (S i) label ltac:(lia)) as [[m [M1 [M2 M3]]]|[[M1 M2]|[m [m' [M1 [M2 M3]]]]]].
    + left. exists (S m). rewrite HS. split; [exact M1|]. split.
      * intros [|m'] Hm; [rewrite H0 in Hm; contradiction|]. rewrite HS in Hm. f_equal. exact (M2 _ Hm).
      * rewrite M3. f_equal. f_equal. lia.
    + right; left. split; [|exact M2]. intros [|m] Hm; [rewrite H0 in Hm; contradiction|]. rewrite HS in Hm. exact (M1 _ Hm).
    + right; right. exists (S m), (S m'). rewrite !HS. auto.
Qed.

Section Seg.
Variables (edges : list R) (s : segments) (c : R * R) (h w : nat) (off : R).
Hypothesis Heven : Nat.even (length edges) = true.
Hypothesis Hinc : increasing edges.
Let segs := segment_edges s off.
Hypothesis Hseg : increasing segs.
Hypothesis Hne : segs <> [].
Local Notation angle_of := (angle_of c).
Lemma angle_of_pixel i j t : angle_of i j t -> t = pixel_angle c i j.
Proof.
  intros [H|[H ->]].
  - pose proof H as H'. destruct H' as [_ [r [HR [Hr _]]]]. eapply is_angle_unique; [exact H|]. eapply angle_ok; eauto.
  - symmetry. apply pixel_angle_centre. exact H.
Qed.
Lemma pixel_angle_of i j : angle_of i j (pixel_angle c i j).
Proof.
  destruct (Rle_lt_or_eq_dec 0 (radius c (1, 1) i j) (proj1 (radius_ok c i j))) as [H|H].
  - left. eapply angle_ok; [apply radius_ok|exact H].
  - right. pose proof (radius_ok c i j) as HR. rewrite <- H in HR. split; [exact HR|]. apply pixel_angle_centre. exact HR.
Qed.
Lemma edges_fine : edges_ok Rleb edges = true.
Proof. unfold edges_ok. rewrite Heven. apply ordered_increasing in Hinc. rewrite Hinc. reflexivity. Qed.

Lemma seg_value_gen : bins_ok segs = true -> exists out, segmented_rings edges s c h w off = Some out /\ length out = (h * w)%nat /\
  forall i j r t, (i < h)%nat -> (j < w)%nat -> is_radius c i j r -> angle_of i j t ->
    (forall m, in_ring edges m r -> nth_error out (i * w + j) = Some (np_digitize segs t + (length segs - 1) * m)%nat) /\
    ((forall m, ~ in_ring edges m r) -> nth_error out (i * w + j) = Some 0%nat).
Proof.
  intros HS. unfold segmented_rings. fold segs. pose proof edges_fine as HO. rewrite HO, HS. cbn [negb orb]. eexists. split; [reflexivity|]. split; [apply concat_tab_length|].
  intros i j r t Hi Hj HR HA.
  rewrite (nth_error_concat_rect _ h w) by (try apply tab_shaped; assumption). rewrite get2_tab by assumption.
  rewrite (radius_unique _ _ _ _ _ (radius_ok c i j) HR). fold (pixel_angle c i j). rewrite <- (angle_of_pixel i j t HA).
  unfold seg_pixel.
  assert (HU : forall m m', in_ring edges m r -> in_ring edges m' r -> m = m').
  { intros m m' H1 H2. rewrite in_ring_interval in H1, H2. destruct H1 as [x [E1 I1]]. destruct H2 as [y [E2 I2]].
    exact (intervals_disjoint Rleb Rleb_trans edges r m m' HO x y E1 E2 I1 I2). }
  destruct (seg_loop_ok (length segs) (np_digitize segs t) r (length edges) edges 0 0 (le_n _))
    as [[m [M1 [M2 M3]]]|[[M1 M2]|[m [m' [M1 [M2 M3]]]]]].
  - split; [|intros HN; exfalso; exact (HN m M1)]. intros m' Hm. rewrite M3, (M2 _ Hm). reflexivity.
  - split; [intros m Hm; exfalso; exact (M1 m Hm)|]. intros _. rewrite M2. reflexivity.
  - exfalso. apply M3. apply HU; assumption.
Qed.
Lemma seg_value : exists out, segmented_rings edges s c h w off = Some out /\ length out = (h * w)%nat /\
  forall i j r t, (i < h)%nat -> (j < w)%nat -> is_radius c i j r -> angle_of i j t ->
    (forall m, in_ring edges m r -> nth_error out (i * w + j) = Some (digitize Rleb segs t + (length segs - 1) * m)%nat) /\
    ((forall m, ~ in_ring edges m r) -> nth_error out (i * w + j) = Some 0%nat).
Proof.
  pose proof Hseg as HS. apply ordered_increasing in HS. destruct seg_value_gen as (out & E & L & V); [unfold bins_ok; rewrite HS; reflexivity|].
  exists out. split; [exact E|]. split; [exact L|]. intros i j r t Hi Hj HR HA. destruct (V i j r t Hi Hj HR HA) as [V1 V2]. split; [|exact V2].
  intros m Hm. rewrite (V1 m Hm). unfold np_digitize. rewrite HS. reflexivity.
Qed.
Lemma digitize_cell k t : in_segment segs k t -> digitize Rleb segs t = (k + 1)%nat.
Proof.
  intros [lo [hi [E1 [E2 H]]]]. pose proof Hseg as HS. apply ordered_increasing in HS.
  pose proof (digitize_iff Rleb Rleb_trans segs t HS _ _ E1) as D1. pose proof (digitize_iff Rleb Rleb_trans segs t HS _ _ E2) as D2.
  rewrite Rleb_iff in D1, D2. assert (k < digitize Rleb segs t)%nat by (apply D1; lra).
  assert (~ (k + 1 < digitize Rleb segs t)%nat) by (rewrite <- D2; lra). lia.
Qed.
(** A pixel before the first segment edge / after the last. *)
Lemma digitize_below s0 t : nth_error segs 0 = Some s0 -> t < s0 -> digitize Rleb segs t = 0%nat.
Proof.
  intros E H. pose proof Hseg as HS. apply ordered_increasing in HS.
  pose proof (digitize_iff Rleb Rleb_trans segs t HS _ _ E) as D. rewrite Rleb_iff in D.
  assert (~ (0 < digitize Rleb segs t)%nat) by (rewrite <- D; lra). lia.
Qed.
Lemma digitize_above s1 t : nth_error segs (length segs - 1) = Some s1 -> s1 <= t -> digitize Rleb segs t = length segs.
Proof.
  intros E H. pose proof Hseg as HS. apply ordered_increasing in HS.
  pose proof (digitize_iff Rleb Rleb_trans segs t HS _ _ E) as D. rewrite Rleb_iff in D.
  assert (length segs - 1 < digitize Rleb segs t)%nat by (apply D; lra). pose proof (digitize_le Rleb Rleb_trans segs t). lia.
Qed.
Lemma in_segment_len k t : in_segment segs k t -> (k < length segs - 1)%nat.
Proof. intros [lo [hi [_ [E _]]]]. assert (k + 1 < length segs)%nat by (apply nth_error_Some; congruence). lia. Qed.

Theorem seg_ok : exists out, segmented_rings edges s c h w off = Some out /\ length out = (h * w)%nat /\
  forall i j r t, (i < h)%nat -> (j < w)%nat -> is_radius c i j r -> angle_of i j t ->
    (forall m k, in_ring edges m r -> in_segment segs k t ->
       nth_error out (i * w + j) = Some (m * (length segs - 1) + k + 1)%nat) /\
    ((forall m, ~ in_ring edges m r) -> nth_error out (i * w + j) = Some 0%nat) /\
    (forall m s0, in_ring edges m r -> nth_error segs 0 = Some s0 -> t < s0 ->
       nth_error out (i * w + j) = Some (m * (length segs - 1))%nat) /\
    (forall m s1, in_ring edges m r -> nth_error segs (length segs - 1) = Some s1 -> s1 <= t ->
       nth_error out (i * w + j) = Some ((m + 1) * (length segs - 1) + 1)%nat).
Proof.
  destruct seg_value as [out [E [L H]]]. exists out. split; [exact E|]. split; [exact L|].
  intros i j r t Hi Hj HR HA. destruct (H i j r t Hi Hj HR HA) as [H1 H2]. split; [|split; [exact H2|split]].
  - intros m k Hm Hk. rewrite (H1 m Hm), (digitize_cell k t Hk). f_equal. lia.
  - intros m s0 Hm E0 Ht. rewrite (H1 m Hm), (digitize_below s0 t E0 Ht). f_equal. lia.
  - intros m s1 Hm E1 Ht. rewrite (H1 m Hm), (digitize_above s1 t E1 Ht). f_equal.
    assert (length segs <> 0)%nat by (destruct segs; [congruence|discriminate]). nia.
Qed.
End Seg.

(** Distinct cells get distinct labels. *)
Lemma cell_labels_distinct n m k m' k' : (k < n)%nat -> (k' < n)%nat ->
  (m * n + k + 1 = m' * n + k' + 1)%nat -> m = m' /\ k = k'.
Proof.
  intros H1 H2 H3. assert (E : m = m').
  { assert (forall a b x y, (x < n -> y < n -> a * n + x = b * n + y -> a < b -> False)%nat) as G.
    { intros a b x y Hx Hy E Hab. assert (a * n + n <= b * n)%nat by nia. lia. }
    destruct (Nat.lt_trichotomy m m') as [H|[H|H]]; [exfalso; apply (G m m' k k' H1 H2); [lia|exact H]|exact H|].
    exfalso. apply (G m' m k' k H2 H1); [lia|exact H]. }
  subst m'. split; [reflexivity|lia].
Qed.
(** Segment edges that start at or below 0 and reach 2 pi leave no angle out. *)
Lemma segments_cover segs t : increasing segs -> (exists s0, nth_error segs 0 = Some s0 /\ s0 <= t) ->
  (exists s1, nth_error segs (length segs - 1) = Some s1 /\ t < s1) -> exists k, in_segment segs k t.
Proof.
  intros HS [s0 [E0 H0]] [s1 [E1 H1]]. pose proof HS as HO. apply ordered_increasing in HO.
  set (d := digitize Rleb segs t).
  pose proof (digitize_iff Rleb Rleb_trans segs t HO) as D. fold d in D.
  assert (0 < d)%nat by (apply (D 0%nat s0 E0), Rleb_iff; exact H0).
  assert (~ (length segs - 1 < d)%nat) by (rewrite <- (D _ s1 E1), Rleb_iff; lra).
  destruct (nth_error segs (d - 1)) as [lo|] eqn:Elo; [|apply nth_error_None in Elo; assert (length segs <> 0)%nat by (destruct segs; discriminate); lia].
  destruct (nth_error segs d) as [hi|] eqn:Ehi; [|apply nth_error_None in Ehi; assert (length segs <> 0)%nat by (destruct segs; discriminate); lia].
  exists (d - 1)%nat, lo, hi. split; [exact Elo|]. replace (d - 1 + 1)%nat with d by lia. split; [exact Ehi|]. split.
  - apply Rleb_iff. apply (D _ _ Elo). lia.
  - apply Rnot_le_lt. rewrite <- Rleb_iff, (D _ _ Ehi). lia.
Qed.
(** N equal segments. *)
Lemma equal_edges n off k : (k <= n)%nat -> nth_error (segment_edges (SegNum n) off) k = Some (2 * PI * INR k / INR n + off).
Proof. intros H. unfold segment_edges. rewrite (nth_error_map_seq (fun k => 2 * PI * INR k / INR n + off) (1 + n)) by lia. reflexivity. Qed.
Lemma equal_length n off : length (segment_edges (SegNum n) off) = S n.
Proof. unfold segment_edges. rewrite map_length, seq_length. reflexivity. Qed.
Lemma equal_increasing n off : increasing (segment_edges (SegNum n) off).
Proof.
  intros k a b Ea Eb. assert (k + 1 < S n)%nat by (rewrite <- (equal_length n off); apply nth_error_Some; congruence).
  rewrite equal_edges in Ea by lia. rewrite equal_edges in Eb by lia.
  injection Ea as <-. injection Eb as <-. pose proof PI_RGT_0. assert (0 < / INR n) by (apply Rinv_0_lt_compat, lt_0_INR; lia).
  rewrite plus_INR. cbn [INR]. unfold Rdiv. pose proof (Rmult_lt_0_compat _ _ H0 H1). nra.
Qed.

(** ** The usual call: N equal segments *)
Section Equal.
Variables (edges : list R) (n : nat) (c : R * R) (h w : nat).
Hypothesis Heven : Nat.even (length edges) = true.
Hypothesis Hinc : increasing edges.
Hypothesis Hn : n <> 0%nat.
Local Notation in_sector := (in_sector n).
Lemma sector_segment off k t : in_sector off k t <-> in_segment (segment_edges (SegNum n) off) k t.
Proof.
  unfold in_sector, in_segment. split.
  - intros [Hk H]. do 2 eexists. split; [apply equal_edges; lia|]. split; [apply equal_edges; lia|]. exact H.
  - intros [lo [hi [E1 [E2 H]]]]. assert (k + 1 < S n)%nat by (rewrite <- (equal_length n off); apply nth_error_Some; congruence).
    rewrite equal_edges in E1 by lia. rewrite equal_edges in E2 by lia. injection E1 as <-. injection E2 as <-. split; [lia|exact H].
Qed.
Lemma equal_nonempty off : segment_edges (SegNum n) off <> [].
Proof. discriminate. Qed.
Lemma last_edge off : nth_error (segment_edges (SegNum n) off) (length (segment_edges (SegNum n) off) - 1) = Some (2 * PI + off).
Proof.
  rewrite equal_length. replace (S n - 1)%nat with n by lia. rewrite equal_edges by lia. f_equal.
  field. apply not_0_INR. exact Hn.
Qed.
Lemma first_edge off : nth_error (segment_edges (SegNum n) off) 0 = Some off.
Proof. rewrite equal_edges by lia. f_equal. cbn [INR]. unfold Rdiv. ring. Qed.

Theorem equal_ok off : exists out, segmented_rings edges (SegNum n) c h w off = Some out /\ length out = (h * w)%nat /\
  forall i j r t, (i < h)%nat -> (j < w)%nat -> is_radius c i j r -> angle_of c i j t ->
    (forall m k, in_ring edges m r -> in_sector off k t -> nth_error out (i * w + j) = Some (m * n + k + 1)%nat) /\
    ((forall m, ~ in_ring edges m r) -> nth_error out (i * w + j) = Some 0%nat) /\
    (forall m, in_ring edges m r -> t < off -> nth_error out (i * w + j) = Some (m * n)%nat) /\
    (forall m, in_ring edges m r -> 2 * PI + off <= t -> nth_error out (i * w + j) = Some ((m + 1) * n + 1)%nat).
Proof.
  destruct (seg_ok edges (SegNum n) c h w off Heven Hinc (equal_increasing n off) (equal_nonempty off)) as [out [E [L H]]].
  exists out. split; [exact E|]. split; [exact L|]. intros i j r t Hi Hj HR HA.
  destruct (H i j r t Hi Hj HR HA) as [H1 [H2 [H3 H4]]]. rewrite equal_length in H1, H3, H4.
  replace (S n - 1)%nat with n in H1, H3, H4 by lia. split; [|split; [exact H2|split]].
  - intros m k Hm Hk. apply H1; [exact Hm|]. apply sector_segment. exact Hk.
  - intros m Hm Ht. apply (H3 m off Hm (first_edge off) Ht).
  - intros m Hm Ht. apply (H4 m (2 * PI + off) Hm); [|exact Ht].
    pose proof (last_edge off) as E1. rewrite equal_length in E1. replace (S n - 1)%nat with n in E1 by lia. exact E1.
Qed.
(** Without offset every pixel of a ring is in exactly one sector. *)
Lemma angle_of_range i j t : angle_of c i j t -> 0 <= t < 2 * PI.
Proof. intros [[H _]|[_ ->]]; [exact H|]. pose proof PI_RGT_0. lra. Qed.
Lemma sector_cover i j t : angle_of c i j t -> exists k, in_sector 0 k t.
Proof.
  intros HA. apply angle_of_range in HA.
  destruct (segments_cover (segment_edges (SegNum n) 0) t (equal_increasing n 0)) as [k Hk].
  - exists 0. split; [apply first_edge|lra].
  - exists (2 * PI + 0). split; [apply last_edge|lra].
  - exists k. apply sector_segment. exact Hk.
Qed.
Theorem equal_zero_offset : exists out, segmented_rings edges (SegNum n) c h w 0 = Some out /\
  (forall i j r t m k, (i < h)%nat -> (j < w)%nat -> is_radius c i j r -> angle_of c i j t ->
     (nth_error out (i * w + j) = Some (m * n + k + 1)%nat /\ (k < n)%nat <-> in_ring edges m r /\ in_sector 0 k t)) /\
  (forall i j r, (i < h)%nat -> (j < w)%nat -> is_radius c i j r ->
     (nth_error out (i * w + j) = Some 0%nat <-> forall m, ~ in_ring edges m r)).
Proof.
  destruct (equal_ok 0) as [out [E [L H]]]. exists out. split; [exact E|].
  assert (HD : forall r, (exists m, in_ring edges m r) \/ (forall m, ~ in_ring edges m r)).
  { intros r. pose proof (roi_label_ok Rleb Rleb_trans edges r (edges_fine edges Heven Hinc)) as [[_ HN]|[s [_ [Es Hs]]]].
    - right. intros m Hm. apply in_ring_interval in Hm. destruct Hm as [iv [E1 E2]]. apply (HN iv); [eapply nth_error_In; eauto|exact E2].
    - left. eexists. apply in_ring_interval. exists s. eauto. }
  split.
  - intros i j r t m k Hi Hj HR HA. destruct (H i j r t Hi Hj HR HA) as [H1 [H2 _]]. split.
    + intros [EL Hk]. destruct (HD r) as [[m' Hm]|HN]; [|rewrite (H2 HN) in EL; injection EL as EL; lia].
      destruct (sector_cover i j t HA) as [k' Hk']. rewrite (H1 m' k' Hm Hk') in EL. injection EL as EL.
      destruct (cell_labels_distinct n m' k' m k (proj1 Hk') Hk EL) as [-> ->]. auto.
    + intros [Hm Hk]. split; [apply H1; assumption|apply Hk].
  - intros i j r Hi Hj HR. destruct (H i j r _ Hi Hj HR (pixel_angle_of c i j)) as [H1 [H2 _]]. split; [|exact H2].
    intros EL m Hm. destruct (sector_cover i j _ (pixel_angle_of c i j)) as [k Hk]. rewrite (H1 m k Hm Hk) in EL. injection EL as EL. lia.
Qed.
(** With a positive offset, ring m+1 below the offset shares the label of the last
    sector of ring m. *)
Theorem offset_collision off : exists out, segmented_rings edges (SegNum n) c h w off = Some out /\
  forall m i j r t i' j' r' t', (i < h)%nat -> (j < w)%nat -> is_radius c i j r -> angle_of c i j t ->
    (i' < h)%nat -> (j' < w)%nat -> is_radius c i' j' r' -> angle_of c i' j' t' ->
    in_ring edges (m + 1) r -> t < off -> in_ring edges m r' -> in_sector off (n - 1) t' ->
    nth_error out (i * w + j) = nth_error out (i' * w + j').
Proof.
  destruct (equal_ok off) as [out [E [L H]]]. exists out. split; [exact E|].
  intros m i j r t i' j' r' t' Hi Hj HR HA Hi' Hj' HR' HA' Hm Ht Hm' Hk.
  destruct (H i j r t Hi Hj HR HA) as [_ [_ [H3 _]]]. rewrite (H3 (m + 1)%nat Hm Ht).
  destruct (H i' j' r' t' Hi' Hj' HR' HA') as [H1 _]. rewrite (H1 m (n - 1)%nat Hm' Hk). f_equal. nia.
Qed.
(** ... and ring 0 below the offset is background. *)
Theorem offset_background off : exists out, segmented_rings edges (SegNum n) c h w off = Some out /\
  forall i j r t, (i < h)%nat -> (j < w)%nat -> is_radius c i j r -> angle_of c i j t ->
    in_ring edges 0 r -> t < off -> nth_error out (i * w + j) = Some 0%nat.
Proof.
  destruct (equal_ok off) as [out [E [L H]]]. exists out. split; [exact E|].
  intros i j r t Hi Hj HR HA Hm Ht. destruct (H i j r t Hi Hj HR HA) as [_ [_ [H3 _]]]. rewrite (H3 0%nat Hm Ht). reflexivity.
Qed.
(** With a negative offset, ring m above 2 pi + offset shares the label of the first
    sector of ring m+1. *)
Theorem offset_collision_neg off : exists out, segmented_rings edges (SegNum n) c h w off = Some out /\
  forall m i j r t i' j' r' t', (i < h)%nat -> (j < w)%nat -> is_radius c i j r -> angle_of c i j t ->
    (i' < h)%nat -> (j' < w)%nat -> is_radius c i' j' r' -> angle_of c i' j' t' ->
    in_ring edges m r -> 2 * PI + off <= t -> in_ring edges (m + 1) r' -> in_sector off 0 t' ->
    nth_error out (i * w + j) = nth_error out (i' * w + j').
Proof.
  destruct (equal_ok off) as [out [E [L H]]]. exists out. split; [exact E|].
  intros m i j r t i' j' r' t' Hi Hj HR HA Hi' Hj' HR' HA' Hm Ht Hm' Hk.
  destruct (H i j r t Hi Hj HR HA) as [_ [_ [_ H4]]]. rewrite (H4 m Hm Ht).
  destruct (H i' j' r' t' Hi' Hj' HR' HA') as [H1 _]. rewrite (H1 (m + 1)%nat 0%nat Hm' Hk). f_equal. nia.
Qed.
End Equal.

(** A concrete collision: two rings [1,2) and [2,4) around (1,0), four quadrants
    turned by pi/8.  Pixels (1,3) (ring 1, angle 0) and (0,1) (ring 0, angle 7 pi/4). *)
Lemma ring_at edges k r lo hi : nth_error edges (2 * k) = Some lo -> nth_error edges (2 * k + 1) = Some hi -> lo <= r < hi -> in_ring edges k r.
Proof. intros. exists lo, hi. auto. Qed.
Lemma example_angle : is_angle (1, 0) 0 1 (7 * (PI / 4)).
Proof.
  pose proof PI_RGT_0. split; [lra|]. exists (sqrt 2). assert (0 < sqrt 2) by (apply sqrt_lt_R0; lra).
  assert (sqrt 2 * sqrt 2 = 2) by (apply sqrt_sqrt; lra).
  split; [|split; [assumption|]].
  - split; [lra|]. cbn [INR fst snd]. lra.
  - replace (7 * (PI / 4)) with (- (PI / 4) + 2 * INR 1 * PI) by (cbn; field).
    rewrite cos_period, sin_period, cos_neg, sin_neg, cos_PI4, sin_PI4. cbn [INR fst snd]. split; field_simplify; lra.
Qed.
Theorem collision_example : exists out, segmented_rings [1; 2; 2; 4] (SegNum 4) (1, 0) 2 4 (PI / 8) = Some out /\
  nth_error out 7 = nth_error out 1 /\ nth_error out 7 = Some 4%nat.
Proof.
  assert (HE : increasing [1; 2; 2; 4]) by (apply ordered_increasing; cbn; rewrite !(proj2 (Rleb_iff _ _)) by lra; reflexivity).
  destruct (equal_ok [1; 2; 2; 4] 4 (1, 0) 2 4 eq_refl HE ltac:(lia) (PI / 8)) as [out [E [_ H]]].
  exists out. split; [exact E|]. pose proof PI_RGT_0 as HP.
  assert (R1 : is_radius (1, 0) 1 3 3) by (split; cbn; lra).
  assert (A1 : angle_of (1, 0) 1 3 0).
  { left. split; [lra|]. exists 3. split; [exact R1|]. split; [lra|]. rewrite cos_0, sin_0. cbn. split; ring. }
  pose proof example_angle as A2. assert (A2' : angle_of (1, 0) 0 1 (7 * (PI / 4))) by (left; exact A2).
  destruct A2 as [_ [r [R2 [Hr _]]]].
  destruct (H 1%nat 3%nat 3 0 ltac:(lia) ltac:(lia) R1 A1) as [_ [_ [H3 _]]].
  destruct (H 0%nat 1%nat r _ ltac:(lia) ltac:(lia) R2 A2') as [H1 _].
  assert (E7 : nth_error out 7 = Some 4%nat).
  { apply (H3 1%nat); [|lra]. apply (ring_at _ _ _ 2 4); [reflexivity|reflexivity|lra]. }
  assert (E1 : nth_error out 1 = Some 4%nat).
  { apply (H1 0%nat 3%nat).
    - apply (ring_at _ _ _ 1 2); [reflexivity|reflexivity|]. destruct R2 as [R2a R2b]. cbn in R2b. nra.
    - split; [lia|]. cbn. lra. }
  rewrite E7, E1. auto.
Qed.
Lemma rings_example : exists out, rings [-1; 1] (0, 0) 1 2 = Some out /\ nth_error out 0 = Some 1%nat /\ nth_error out 1 = Some 0%nat.
Proof.
  assert (HE : increasing [-1; 1]) by (apply ordered_increasing; cbn; rewrite !(proj2 (Rleb_iff _ _)) by lra; reflexivity).
  destruct (rings_ok [-1; 1] (0, 0) 1 2) as [H _]. destruct (H eq_refl HE) as [out [E [_ P]]]. exists out. split; [exact E|].
  destruct (P 0%nat 0%nat 0 ltac:(lia) ltac:(lia)) as [k [Ek [K1 K2]]]; [split; cbn; lra|].
  destruct (P 0%nat 1%nat 1 ltac:(lia) ltac:(lia)) as [k' [Ek' [K1' K2']]]; [split; cbn; lra|].
  change (0 * 2 + 0)%nat with 0%nat in Ek. change (0 * 2 + 1)%nat with 1%nat in Ek'. rewrite Ek, Ek'. split; f_equal.
  - apply K1. apply (ring_at _ _ _ (-1) 1); [reflexivity|reflexivity|lra].
  - apply K2'. intros [|m] [lo [hi [E1 [E2 Hb]]]].
    + cbn in E1, E2. injection E1 as <-. injection E2 as <-. lra.
    + replace (2 * S m + 1)%nat with (S (S (S (2 * m)))) in E2 by lia. destruct (2 * m)%nat; discriminate.
Qed.

Lemma edges_given s off segs :
  match s with SegList l => turned l off segs | SegNum n => equally_spaced n off segs end -> segs = segment_edges s off.
Proof.
  destruct s as [n|l]; intros [L H]; apply nth_error_ext_len.
  - rewrite equal_length. exact L.
  - intros k Hk. rewrite L in Hk. rewrite (H k), equal_edges by lia. reflexivity.
  - cbn [segment_edges]. rewrite map_length. exact L.
  - intros k Hk. cbn [segment_edges]. rewrite nth_error_map. rewrite L in Hk. destruct (nth_error l k) as [a|] eqn:E.
    + rewrite (H k a E). reflexivity.
    + apply nth_error_None in E. lia.
Qed.

(** ** Falling segment edges *)
Lemma nth_error_rev_lt (l : list R) k : (k < length l)%nat -> nth_error (rev l) k = nth_error l (length l - S k).
Proof.
  intros H. rewrite (nth_error_nth' (rev l) 0) by (rewrite rev_length; exact H). rewrite (nth_error_nth' l 0) by lia. rewrite rev_nth by exact H. reflexivity.
Qed.
Lemma falling_rev l : ordered Rleb (rev l) = true <-> falling l.
Proof.
  rewrite ordered_increasing. unfold increasing, falling. split; intros H k a b E1 E2.
  - assert (L : (k + 1 < length l)%nat) by (apply nth_error_Some; congruence).
    apply (H (length l - S (k + 1))%nat b a).
    + rewrite nth_error_rev_lt by lia. rewrite <- E2. f_equal. lia.
    + rewrite nth_error_rev_lt by lia. rewrite <- E1. f_equal. lia.
  - assert (L : (k + 1 < length (rev l))%nat) by (apply nth_error_Some; congruence). rewrite rev_length in L.
    rewrite nth_error_rev_lt in E1, E2 by lia. apply (H (length l - S (k + 1))%nat b a); [exact E2|]. rewrite <- E1. f_equal. lia.
Qed.
Lemma falling_tail a l : falling (a :: l) -> falling l.
Proof. intros H k x y E1 E2. exact (H (S k) x y E1 E2). Qed.
Lemma falling_le l : falling l -> forall a r, l = a :: r -> Forall (fun x => x <= a) r.
Proof.
  induction l as [|b l IH]; intros F a r E; [discriminate|]. injection E as -> ->. destruct r as [|b r]; [constructor|].
  assert (b <= a) by exact (F 0%nat a b eq_refl eq_refl). constructor; [assumption|].
  eapply Forall_impl; [|exact (IH (falling_tail _ _ F) b r eq_refl)]. cbv beta. intros x Hx. lra.
Qed.
Lemma digitize_falling l : falling l -> forall k t, in_falling_segment l k t -> digitize Rgtb l t = (k + 1)%nat.
Proof.
  unfold digitize. induction l as [|a l IH]; intros F k t (hi & lo & E1 & E2 & H).
  - destruct k; discriminate.
  - destruct k as [|k].
    + cbn [nth_error Nat.add] in E1, E2. injection E1 as ->. cbn [filter]. replace (Rgtb hi t) with true by (symmetry; apply Rgtb_iff; lra). cbn [length Nat.add]. f_equal.
      destruct l as [|b l]; [discriminate|]. injection E2 as ->. pose proof (falling_le _ (falling_tail _ _ F) lo l eq_refl) as A.
      assert (N : forall x, In x (lo :: l) -> Rgtb x t = false).
      { intros x I. assert (X : x <= lo) by (destruct I as [->|I]; [lra|]; rewrite Forall_forall in A; exact (A _ I)).
        apply not_true_iff_false. rewrite Rgtb_iff. lra. }
      clear - N. induction (lo :: l) as [|x q IHq]; [reflexivity|]. cbn [filter]. rewrite (N x) by (left; reflexivity). apply IHq. intros y I. apply N. right. exact I.
    + cbn [nth_error Nat.add] in E1, E2. cbn [filter].
      assert (K : in_falling_segment l k t) by (exists hi, lo; auto).
      assert (A : hi <= a). { pose proof (falling_le _ F a l eq_refl) as A. rewrite Forall_forall in A. apply A. eapply nth_error_In. exact E1. }
      replace (Rgtb a t) with true by (symmetry; apply Rgtb_iff; lra). cbn [length]. rewrite (IH (falling_tail _ _ F) k t K). lia.
Qed.
Theorem seg_falling edges s c h w off : let segs := segment_edges s off in
  Nat.even (length edges) = true -> increasing edges -> falling segs -> ~ increasing segs ->
  exists out, segmented_rings edges s c h w off = Some out /\ length out = (h * w)%nat /\
  forall i j r t, (i < h)%nat -> (j < w)%nat -> is_radius c i j r -> angle_of c i j t ->
    (forall m k, in_ring edges m r -> in_falling_segment segs k t -> nth_error out (i * w + j) = Some (m * (length segs - 1) + k + 1)%nat) /\
    ((forall m, ~ in_ring edges m r) -> nth_error out (i * w + j) = Some 0%nat).
Proof.
  intros segs He Hi F N. destruct (seg_value_gen edges s c h w off He Hi) as (out & E & L & V).
  { unfold bins_ok. apply orb_true_iff. right. apply falling_rev. exact F. }
  exists out. split; [exact E|]. split; [exact L|]. intros i j r t Pi Pj HR HA. destruct (V i j r t Pi Pj HR HA) as [V1 V2]. split; [|exact V2].
  intros m k Hm Hk. rewrite (V1 m Hm). unfold np_digitize. fold segs. destruct (ordered Rleb segs) eqn:O; [apply ordered_increasing in O; contradiction|].
  rewrite (digitize_falling segs F k t Hk). f_equal. lia.
Qed.
Theorem seg_raises edges s c h w off : let segs := segment_edges s off in
  Nat.even (length edges) = false \/ ~ increasing edges \/ ~ increasing segs /\ ~ falling segs -> segmented_rings edges s c h w off = None.
Proof.
  intros segs H. unfold segmented_rings. fold segs.
  assert (negb (edges_ok Rleb edges) || negb (bins_ok segs) = true)%bool as ->; [|reflexivity].
  apply orb_true_iff. rewrite !negb_true_iff. unfold edges_ok, bins_ok.
  destruct H as [->|[H|[H1 H2]]]; [left; reflexivity|left|right].
  - destruct (ordered Rleb edges) eqn:E; [apply ordered_increasing in E; contradiction|apply andb_false_r].
  - destruct (ordered Rleb segs) eqn:E; [apply ordered_increasing in E; contradiction|]. destruct (ordered Rleb (rev segs)) eqn:E'; [apply falling_rev in E'; contradiction|reflexivity].
Qed.
