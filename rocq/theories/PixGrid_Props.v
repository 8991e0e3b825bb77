(* C89: radial_grid, angle_grid and radius_to_twotheta with pixels of any size. *)
From Coq Require Import Reals Lra.
From Verif Require Import Common Roi_Model Roi_Spec Roi_Proofs RoiPolar_Model RoiPolar_Spec RoiPolar_Proofs.
Local Open Scope R_scope.

(** The position of pixel (row i, column j) relative to the centre in the units of the pixel size (height, width). *)
Definition at_x (center size : R * R) (j : nat) (x : R) : Prop := x = snd size * (INR j - snd center).
Definition at_y (center size : R * R) (i : nat) (y : R) : Prop := y = fst size * (INR i - fst center).

Lemma grid_nth {A} h w (f : nat -> nat -> A) i j : (i < h)%nat -> (j < w)%nat -> nth_error (concat (tab2 h w f)) (i * w + j) = Some (f i j).
Proof.
  unfold tab2. intros Hi Hj.
  assert (G : forall n s i, (i < n)%nat -> nth_error (concat (map (fun i => map (f i) (seq 0 w)) (seq s n))) (i * w + j) = Some (f (s + i)%nat j)).
  { induction n as [|n IH]; intros s k Hk; [lia|]. cbn [seq map concat]. destruct k as [|k].
    - rewrite nth_error_app1 by (rewrite map_length, seq_length; cbn; lia). cbn [Nat.mul Nat.add].
      rewrite nth_error_map_seq by exact Hj. now rewrite Nat.add_0_r.
    - rewrite nth_error_app2 by (rewrite map_length, seq_length; cbn; lia). rewrite map_length, seq_length.
      replace (S k * w + j - w)%nat with (k * w + j)%nat by (cbn; lia). rewrite IH by lia. do 2 f_equal. lia. }
  apply (G h 0%nat i Hi).
Qed.
Lemma atan2_range y x : 0 < x * x + y * y ->
  let t := atan2 y x in let r := sqrt (x * x + y * y) in - PI < t <= PI /\ x = r * cos t /\ y = r * sin t.
Proof.
  intros H. pose proof (atan2_polar y x H) as P. cbn zeta in P |- *. destruct P as (_ & A & B).
  assert (Hcs : forall a, cos (2 * PI + a) = cos a /\ sin (2 * PI + a) = sin a).
  { intros a. rewrite Rplus_comm. pose proof (cos_period a 1) as C. pose proof (sin_period a 1) as S0.
    cbn [INR] in C, S0. rewrite Rmult_1_r in C, S0. auto. }
  assert (Hw : forall a, cos (wrap_angle a) = cos a /\ sin (wrap_angle a) = sin a).
  { intros a. unfold wrap_angle. destruct (Rlt_dec a 0); [apply Hcs|auto]. }
  destruct (Hw (atan2 y x)) as [C S]. rewrite C in A. rewrite S in B. split; [|split; assumption].
  pose proof PI_RGT_0. unfold atan2. destruct (Rlt_dec 0 x) as [Px|Px]; [pose proof (atan_bound (y / x)); lra|].
  destruct (Rlt_dec x 0) as [Nx|Nx].
  - pose proof (atan_bound (y / x)) as Bd. destruct (Rlt_dec y 0) as [Ny|Ny].
    + assert (0 < y / x) by (replace (y / x) with ((- y) * / (- x)) by (field; lra); apply Rmult_lt_0_compat; [lra|apply Rinv_0_lt_compat; lra]).
      assert (0 < atan (y / x)) by (rewrite <- atan_0; apply atan_increasing; assumption). lra.
    + assert (y / x <= 0).
      { replace (y / x) with (- (y * / (- x))) by (field; lra). assert (0 < / (- x)) by (apply Rinv_0_lt_compat; lra). nra. }
      assert (atan (y / x) <= 0).
      { rewrite <- atan_0. destruct H1 as [H1|H1]; [left; apply atan_increasing; exact H1|rewrite H1; right; reflexivity]. }
      lra.
  - destruct (Rlt_dec 0 y); [lra|]. destruct (Rlt_dec y 0); lra.
Qed.

(** C89: the entry of radial_grid at a pixel is its distance from the centre, each axis measured with its
    own pixel size; the grid has the shape asked for. *)
Theorem C89_radial center size h w : length (radial_grid center size h w) = (h * w)%nat /\
  forall i j x y, (i < h)%nat -> (j < w)%nat -> at_x center size j x -> at_y center size i y ->
    exists r, nth_error (radial_grid center size h w) (i * w + j) = Some r /\ 0 <= r /\ r * r = x * x + y * y.
Proof.
  split; [apply concat_tab_length|]. intros i j x y Hi Hj -> ->. exists (radius center size i j).
  split; [now apply (grid_nth h w (radius center size))|]. unfold radius, grid_x, grid_y.
  split; [apply sqrt_pos|]. rewrite sqrt_sqrt by (apply Rplus_le_le_0_compat; apply Rle_0_sqr). ring.
Qed.
Print Assumptions C89_radial.
(** C89: the entry of angle_grid is the angle from the +column axis towards the +row axis, in (-pi, pi]; at
    the centre itself it is 0. *)
Theorem C89_angle center size h w : length (angle_grid center size h w) = (h * w)%nat /\
  forall i j x y, (i < h)%nat -> (j < w)%nat -> at_x center size j x -> at_y center size i y ->
    exists t, nth_error (angle_grid center size h w) (i * w + j) = Some t /\ - PI < t <= PI /\
      x = sqrt (x * x + y * y) * cos t /\ y = sqrt (x * x + y * y) * sin t /\ (x = 0 -> y = 0 -> t = 0).
Proof.
  split; [apply concat_tab_length|]. intros i j x y Hi Hj -> ->. exists (angle center size i j).
  split; [now apply (grid_nth h w (angle center size))|]. unfold angle, grid_x, grid_y.
  set (x := snd size * (INR j - snd center)). set (y := fst size * (INR i - fst center)).
  assert (Z : x = 0 -> y = 0 -> atan2 y x = 0).
  { intros -> ->. unfold atan2. repeat match goal with |- context [Rlt_dec ?a ?b] => destruct (Rlt_dec a b) end; lra. }
  destruct (Rle_lt_dec (x * x + y * y) 0) as [H|H].
  - assert (x = 0) by nra. assert (y = 0) by nra. rewrite (Z H0 H1). pose proof PI_RGT_0.
    split; [lra|]. rewrite H0, H1. replace (0 * 0 + 0 * 0) with 0 by ring. rewrite sqrt_0. repeat split; lra.
  - destruct (atan2_range y x H) as (A & B & C). auto.
Qed.
Print Assumptions C89_angle.
(** C89: that determines the angle of every pixel off the centre. *)
Theorem C89_angle_unique r t t' : 0 < r -> - PI < t <= PI -> - PI < t' <= PI -> r * cos t = r * cos t' -> r * sin t = r * sin t' -> t = t'.
Proof.
  intros Hr H H' C S. assert (EC : cos t = cos t') by (apply (Rmult_eq_reg_l r); [congruence|lra]).
  assert (ES : sin t = sin t') by (apply (Rmult_eq_reg_l r); [congruence|lra]).
  assert (E1 : cos (t - t') = 1).
  { rewrite cos_minus, EC, ES. pose proof (sin2_cos2 t'). unfold Rsqr in *. lra. }
  pose proof PI_RGT_0. assert (Hz : sin ((t - t') / 2) = 0).
  { replace (t - t') with (2 * ((t - t') / 2)) in E1 by field. rewrite cos_2a_sin in E1. nra. }
  destruct (Rtotal_order ((t - t') / 2) 0) as [Hn|[Hn|Hn]]; [|lra|].
  - assert (0 < sin (- ((t - t') / 2))) by (apply sin_gt_0; lra). rewrite sin_neg in *. lra.
  - assert (0 < sin ((t - t') / 2)) by (apply sin_gt_0; lra). lra.
Qed.
Print Assumptions C89_angle_unique.
(** C89: the scattering angle of a radius at a distance: the tangent is radius over distance, it lies
    between 0 and a right angle, and grows with the radius. *)
Theorem C89_twotheta d r : 0 < d -> tan (radius_to_twotheta d r) = r / d /\ (0 <= r -> 0 <= radius_to_twotheta d r < PI / 2) /\
  forall r', r < r' -> radius_to_twotheta d r < radius_to_twotheta d r'.
Proof.
  intros Hd. unfold radius_to_twotheta. split; [apply tan_atan|]. split.
  - intros Hr. split; [|apply atan_bound]. rewrite <- atan_0. assert (0 <= r / d) by (apply Rmult_le_pos; [lra|left; apply Rinv_0_lt_compat; lra]).
    destruct H as [H|H]; [left; apply atan_increasing; exact H|rewrite <- H; right; reflexivity].
  - intros r' H. apply atan_increasing. apply Rmult_lt_compat_r; [apply Rinv_0_lt_compat; lra|exact H].
Qed.
Print Assumptions C89_twotheta.
(** Pixels 2 high and 3 wide, centre at (1, 1): pixel (3, 2) is 3 across and 4 down, 5 away. *)
Example C89_ex : exists r, nth_error (radial_grid (1, 1) (2, 3) 4 4) 14 = Some r /\ r = 5.
Proof.
  destruct (C89_radial (1, 1) (2, 3) 4 4) as [_ H]. destruct (H 3%nat 2%nat _ _ ltac:(lia) ltac:(lia) eq_refl eq_refl) as (r & A & B & C).
  exists r. split; [exact A|]. cbn [fst snd INR] in C. nra.
Qed.
Example C89_angle_ex : exists t, nth_error (angle_grid (1, 1) (2, 3) 4 4) 13 = Some t /\ 0 = cos t /\ sin t = 1.
Proof.
  destruct (C89_angle (1, 1) (2, 3) 4 4) as [_ H]. destruct (H 3%nat 1%nat _ _ ltac:(lia) ltac:(lia) eq_refl eq_refl) as (t & A & B & C & D & _).
  exists t. split; [exact A|]. cbn [fst snd INR] in C, D.
  replace (3 * (1 - 1) * (3 * (1 - 1)) + 2 * (1 + 1 + 1 - 1) * (2 * (1 + 1 + 1 - 1))) with (4 * 4) in C, D by ring. rewrite sqrt_square in C, D by lra.
  split; lra.
Qed.
