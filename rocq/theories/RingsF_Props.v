(* C120: radial_grid and rings in double precision. *)
From Coq Require Import Reals.
From Flocq Require Import Core BinarySingleNaN.
From Verif Require Import Common F64 GridF_Model Roi_Model Roi_Proofs RoiPolar_Spec RoiPolar_Proofs RingsF_Model RingsF_Spec RingsF_Proofs RingsF_Acc RingsF_Exact.
From Coq Require Import Lra.
Local Open Scope R_scope.

(** Every radius is within 8 ulps of the distance, for any pixel size. *)
Theorem C120_radius center pixel_size h w : let size := match pixel_size with Some p => p | None => (fone, fone) end in
  both (no_larger (bpow radix2 200)) center -> both (no_larger (bpow radix2 200)) size ->
  (Z.of_nat h <= 2 ^ 53)%Z -> (Z.of_nat w <= 2 ^ 53)%Z ->
  length (radial_gridF center pixel_size h w) = (h * w)%nat /\
  forall i j r, (i < h)%nat -> (j < w)%nat -> is_distance center size i j r ->
    exists v, nth_error (radial_gridF center pixel_size h w) (i * w + j) = Some v /\ is_finite v = true /\
      Rabs (B2R v - r) <= bpow radix2 (-50) * r + bpow radix2 (-530).
Proof.
  intros size Hc Hs Hh Hw. destruct (grid_nth center pixel_size h w) as [L N]. split; [exact L|]. intros i j r Hi Hj Hr.
  exists (radiusF center size i j). split; [apply N; assumption|]. apply (radius_close center size i j r Hc Hs); [lia|lia|exact Hr].
Qed.
Print Assumptions C120_radius.
(** With a centre on pixel centres or borders the radius is the double nearest to the distance. *)
Theorem C120_radius_nearest center h w : both (halves (2 ^ 25)) center -> (Z.of_nat h <= 2 ^ 24)%Z -> (Z.of_nat w <= 2 ^ 24)%Z ->
  forall i j r, (i < h)%nat -> (j < w)%nat -> is_radius (B2R (fst center), B2R (snd center)) i j r ->
    exists v, nth_error (radial_gridF center None h w) (i * w + j) = Some v /\ is_finite v = true /\ B2R v = nearest_double r.
Proof.
  intros Hc Hh Hw i j r Hi Hj Hr. destruct (grid_nth center None h w) as [_ N]. eexists. split; [apply N; assumption|].
  destruct (radius_exact center i j r Hc ltac:(lia) ltac:(lia) Hr) as (F & E & _). split; [exact F|exact E].
Qed.
Print Assumptions C120_radius_nearest.
(** The edge check accepts exactly an even number of non-decreasing finite edges. *)
Theorem C120_check edges center h w : Forall (fun e => is_finite e = true) edges ->
  (ringsF edges center h w <> None <-> Nat.even (length edges) = true /\ increasing (values edges)).
Proof. exact (check_ok edges center h w). Qed.
Print Assumptions C120_check.
(** The label of a pixel whose distance is not within rounding of an edge is right. *)
Theorem C120_rings_close edges center h w :
  Forall (fun e => is_finite e = true) edges -> Nat.even (length edges) = true -> increasing (values edges) ->
  (Z.of_nat h <= 2 ^ 53)%Z -> (Z.of_nat w <= 2 ^ 53)%Z -> both (no_larger (bpow radix2 200)) center ->
  exists out, ringsF edges center h w = Some out /\ length out = (h * w)%nat /\
  forall i j r, (i < h)%nat -> (j < w)%nat -> is_radius (B2R (fst center), B2R (snd center)) i j r ->
    (forall e, In e edges -> bpow radix2 (-50) * r + bpow radix2 (-530) < Rabs (r - B2R e)) ->
    exists k, nth_error out (i * w + j) = Some k /\ forall m, k = S m <-> in_ring (values edges) m r.
Proof. exact (rings_close edges center h w). Qed.
Print Assumptions C120_rings_close.
(** Whole and half pixel edges and centres: every label is right. *)
Theorem C120_rings_exact edges center h w :
  Forall (halves (2 ^ 26)) edges -> Nat.even (length edges) = true -> increasing (values edges) ->
  both (halves (2 ^ 25)) center -> (Z.of_nat h <= 2 ^ 24)%Z -> (Z.of_nat w <= 2 ^ 24)%Z ->
  exists out, ringsF edges center h w = Some out /\ length out = (h * w)%nat /\
  forall i j r, (i < h)%nat -> (j < w)%nat -> is_radius (B2R (fst center), B2R (snd center)) i j r ->
    exists k, nth_error out (i * w + j) = Some k /\ forall m, k = S m <-> in_ring (values edges) m r.
Proof.
  intros H E I C Hh Hw. refine (rings_exact edges center h w _ E I C Hh Hw H).
  apply Forall_forall. intros e He. rewrite Forall_forall in H. exact (proj1 (H e He)).
Qed.
Print Assumptions C120_rings_exact.
(** Any finite edges: the label is that of the double nearest to the distance. *)
Theorem C120_rings_nearest edges center h w :
  Forall (fun e => is_finite e = true) edges -> Nat.even (length edges) = true -> increasing (values edges) ->
  both (halves (2 ^ 25)) center -> (Z.of_nat h <= 2 ^ 24)%Z -> (Z.of_nat w <= 2 ^ 24)%Z ->
  exists out, ringsF edges center h w = Some out /\ length out = (h * w)%nat /\
  forall i j r, (i < h)%nat -> (j < w)%nat -> is_radius (B2R (fst center), B2R (snd center)) i j r ->
    exists k, nth_error out (i * w + j) = Some k /\ (forall m, k = S m <-> in_ring (values edges) m (nearest_double r)) /\
      ((forall e, In e edges -> nearest_double r = B2R e -> r = B2R e) -> forall m, k = S m <-> in_ring (values edges) m r).
Proof.
  intros F E I C Hh Hw. destruct (rings_nearest edges center h w F E I C Hh Hw) as (out & Eo & L & V). exists out. split; [exact Eo|]. split; [exact L|].
  intros i j r Hi Hj Hr. destruct (V i j r Hi Hj Hr) as (k & Ek & Hk). exists k. split; [exact Ek|]. split; [exact Hk|].
  intros NE m. rewrite Hk. apply in_ring_same. intros e He. apply in_map_iff in He. destruct He as (e' & <- & He). split.
  - intros G. destruct (Rle_or_lt (B2R e') r) as [|L']; [assumption|].
    assert (nearest_double r <= B2R e') by (apply rnd_le_g; [apply B2R_format|lra]). right. symmetry. apply (NE e' He). lra.
  - intros G. apply rnd_ge; [apply B2R_format|exact G].
Qed.
Print Assumptions C120_rings_nearest.
Lemma increasing_far (l : list R) : increasing l -> forall d k a b, nth_error l k = Some a -> nth_error l (k + d) = Some b -> a <= b.
Proof.
  intros I d. induction d as [|d IH]; intros k a b Ea Eb.
  - rewrite Nat.add_0_r in Eb. rewrite Ea in Eb. injection Eb as <-. lra.
  - destruct (nth_error l (k + d)) as [x|] eqn:Ex; [|apply nth_error_None in Ex; assert (k + S d < length l)%nat by (apply nth_error_Some; congruence); lia].
    pose proof (IH k a x Ea Ex). assert (x <= b) by (apply (I (k + d)%nat); [exact Ex|rewrite <- Nat.add_assoc, Nat.add_1_r; exact Eb]). lra.
Qed.
(** Pixels at equal distance get the same label, and labels never fall outward (0 aside). *)
Theorem C120_rings_ordered edges center h w out :
  Forall (fun e => is_finite e = true) edges -> both (halves (2 ^ 25)) center -> (Z.of_nat h <= 2 ^ 24)%Z -> (Z.of_nat w <= 2 ^ 24)%Z ->
  ringsF edges center h w = Some out ->
  forall i j r i' j' r' k k', (i < h)%nat -> (j < w)%nat -> (i' < h)%nat -> (j' < w)%nat ->
    is_radius (B2R (fst center), B2R (snd center)) i j r -> is_radius (B2R (fst center), B2R (snd center)) i' j' r' ->
    nth_error out (i * w + j) = Some k -> nth_error out (i' * w + j') = Some k' ->
    (r = r' -> k = k') /\ (r <= r' -> (1 <= k)%nat -> (1 <= k')%nat -> (k <= k')%nat).
Proof.
  intros F C Hh Hw Eo i j r i' j' r' k k' Hi Hj Hi' Hj' Hr Hr' Ek Ek'.
  destruct (proj1 (check_ok edges center h w F)) as [HE HI]; [congruence|].
  destruct (rings_nearest edges center h w F HE HI C Hh Hw) as (o & Eo' & _ & V). assert (o = out) by congruence. subst o.
  destruct (V i j r Hi Hj Hr) as (q & Eq & Hq). destruct (V i' j' r' Hi' Hj' Hr') as (q' & Eq' & Hq').
  assert (q = k) by congruence. assert (q' = k') by congruence. subst q q'. split.
  - intros <-. destruct k as [|m].
    + destruct k' as [|m']; [reflexivity|]. assert (0%nat = S m'); [|discriminate]. apply Hq, Hq'. reflexivity.
    + symmetry. apply Hq', Hq. reflexivity.
  - intros L K K'. destruct k as [|m]; [lia|]. destruct k' as [|m']; [lia|]. destruct (le_lt_dec m m') as [|M]; [lia|]. exfalso.
    destruct (proj1 (Hq m) eq_refl) as (lo & hi & E1 & E2 & B). destruct (proj1 (Hq' m') eq_refl) as (lo' & hi' & E1' & E2' & B').
    assert (hi' <= lo). { apply (increasing_far _ HI (2 * m - (2 * m' + 1)) (2 * m' + 1) hi' lo E2'). rewrite <- E1. f_equal. lia. }
    assert (nearest_double r <= nearest_double r') by (apply rnd_le; exact L). lra.
Qed.
Print Assumptions C120_rings_ordered.

(** ** Not every label is that of the exact distance *)
Definition root2 : f64 := f64_of 6369051672525773 (-52).
Lemma root2_R : B2R root2 = 6369051672525773 * bpow radix2 (-52) /\ is_finite root2 = true.
Proof. split; [|reflexivity]. vm_compute B2R. unfold F2R. cbn [Fnum Fexp]. reflexivity. Qed.
(** The double nearest to the square root of 2 is above it: the diagonal pixel lies inside the
    ring from 1 to it and is left out. *)
Theorem C120_rings_refuted : exists edges center h w out i j r,
  Forall (fun e => is_finite e = true) edges /\ both (halves (2 ^ 25)) center /\
  ringsF edges center h w = Some out /\ (i < h)%nat /\ (j < w)%nat /\ is_radius (B2R (fst center), B2R (snd center)) i j r /\
  in_ring (values edges) 0 r /\ nth_error out (i * w + j) = Some 0%nat.
Proof.
  exists [fone; root2], (fzero, fzero), 2%nat, 2%nat, [0; 1; 1; 0]%nat, 1%nat, 1%nat, (sqrt 2).
  assert (Z : halves (2 ^ 25) fzero). { split; [reflexivity|]. exists 0%Z. split; [lia|]. change (B2R fzero) with 0. lra. }
  split; [repeat constructor|]. split; [split; exact Z|]. split; [vm_compute; reflexivity|]. split; [lia|]. split; [lia|].
  assert (S2 : sqrt 2 * sqrt 2 = 2) by (apply sqrt_sqrt; lra). pose proof (sqrt_pos 2) as S0.
  split. { split; [apply sqrt_pos|]. cbn [fst snd]. change (B2R fzero) with 0. rewrite S2. cbn [INR]. lra. }
  split; [|reflexivity]. exists (B2R fone), (B2R root2). split; [reflexivity|]. split; [reflexivity|]. rewrite fone_R, (proj1 root2_R).
  split; [nra|]. assert (H : 2 < (6369051672525773 * bpow radix2 (-52)) * (6369051672525773 * bpow radix2 (-52))).
  { replace (6369051672525773 * bpow radix2 (-52) * (6369051672525773 * bpow radix2 (-52))) with (IZR (6369051672525773 * 6369051672525773) * bpow radix2 (-104)).
    - apply Rmult_lt_reg_r with (bpow radix2 104); [apply bpow_gt_0|]. rewrite Rmult_assoc, <- bpow_plus. change (bpow radix2 (-104 + 104)) with 1. rewrite Rmult_1_r.
      rewrite bpow_IZR by lia. rewrite <- mult_IZR. apply IZR_lt. reflexivity.
    - rewrite mult_IZR. change (-104)%Z with (-52 + -52)%Z. rewrite bpow_plus. ring. }
  assert (0 < bpow radix2 (-52)) by apply bpow_gt_0. nra.
Qed.
Print Assumptions C120_rings_refuted.
(** ** Edges that are not numbers *)
Lemma fsub_bad (b a : f64) : (b = B754_nan \/ a = B754_nan \/ exists s, b = B754_infinity s /\ a = B754_infinity s) -> risingF a b = false.
Proof.
  intros [->|[->|(s & -> & ->)]]; unfold risingF.
  - destruct a; reflexivity.
  - destruct b; reflexivity.
  - destruct s; reflexivity.
Qed.
Lemma ordered_bad edges : forall k a b, nth_error edges k = Some a -> nth_error edges (k + 1) = Some b -> risingF a b = false -> ordered risingF edges = false.
Proof.
  induction edges as [|x l IH]; intros [|k] a b Ea Eb H; try discriminate.
  - destruct l as [|y l]; [discriminate|]. cbn in Ea, Eb. injection Ea as ->. injection Eb as ->. change (ordered risingF (a :: b :: l)) with (risingF a b && ordered risingF (b :: l))%bool. rewrite H. reflexivity.
  - cbn [nth_error Nat.add] in Ea, Eb. destruct l as [|y l]; [destruct k; discriminate|]. change (ordered risingF (x :: y :: l)) with (risingF x y && ordered risingF (y :: l))%bool.
    rewrite (IH k a b Ea Eb H). apply andb_false_r.
Qed.
(** A NaN among the edges is refused, and so are two equal infinite edges side by side although they do not fall. *)
Theorem C120_check_special edges center h w :
  (In B754_nan edges \/ exists k s, nth_error edges k = Some (B754_infinity s) /\ nth_error edges (k + 1) = Some (B754_infinity s)) ->
  ringsF edges center h w = None.
Proof.
  unfold ringsF. destruct (Nat.even (length edges)) eqn:E; [cbn [negb]|reflexivity]. intros H.
  assert (K : exists k a b, nth_error edges k = Some a /\ nth_error edges (k + 1) = Some b /\ risingF a b = false).
  { destruct H as [H|(k & s & E1 & E2)].
    - apply In_nth_error in H. destruct H as [k Ek]. apply Nat.even_spec in E. destruct E as [n En].
      assert (k < length edges)%nat by (apply nth_error_Some; congruence). destruct (Nat.eq_dec (k + 1) (length edges)) as [T|T].
      + destruct k as [|k]; [lia|]. destruct (nth_error edges k) as [a|] eqn:Ea; [|apply nth_error_None in Ea; lia].
        exists k, a, B754_nan. split; [exact Ea|]. split; [rewrite Nat.add_1_r; exact Ek|]. apply fsub_bad. auto.
      + destruct (nth_error edges (k + 1)) as [b|] eqn:Eb; [|apply nth_error_None in Eb; lia].
        exists k, B754_nan, b. split; [exact Ek|]. split; [exact Eb|]. apply fsub_bad. auto.
    - exists k, (B754_infinity s), (B754_infinity s). split; [exact E1|]. split; [exact E2|]. apply fsub_bad. right. right. exists s. auto. }
  destruct K as (k & a & b & E1 & E2 & K). rewrite (ordered_bad edges k a b E1 E2 K). reflexivity.
Qed.
Print Assumptions C120_check_special.
(** One infinite outer edge gives an open ring. *)
Theorem C120_open_ring lo center h w : is_finite lo = true -> both (halves (2 ^ 25)) center -> (Z.of_nat h <= 2 ^ 24)%Z -> (Z.of_nat w <= 2 ^ 24)%Z ->
  exists out, ringsF [lo; B754_infinity false] center h w = Some out /\
  forall i j r, (i < h)%nat -> (j < w)%nat -> is_radius (B2R (fst center), B2R (snd center)) i j r ->
    nth_error out (i * w + j) = Some (if Rle_dec (B2R lo) (nearest_double r) then 1%nat else 0%nat).
Proof.
  intros Fl C Hh Hw. unfold ringsF. cbn [length Nat.even negb ordered].
  replace (risingF lo (B754_infinity false)) with true by (destruct lo as [[]|[]| |[]]; try discriminate; reflexivity).
  cbn [andb negb]. eexists. split; [reflexivity|]. intros i j r Hi Hj Hr. destruct (grid_nth center None h w) as [_ N].
  unfold make_roi. rewrite nth_error_map, (N i j Hi Hj). cbn [option_map]. destruct (radius_exact center i j r C ltac:(lia) ltac:(lia) Hr) as (F & E & _).
  set (v := radiusF _ _ _ _) in *. clearbody v. f_equal. unfold digitize. cbn [filter]. rewrite (fleb_ok lo v Fl F), E.
  replace (fleb (B754_infinity false) v) with false by (destruct v as [[]|[]| |[]]; try discriminate; reflexivity).
  change (round radix2 (FLT_exp (-1074) 53) ZnearestE r) with (nearest_double r).
  destruct (Rle_dec (B2R lo) (nearest_double r)) as [L|L]; [rewrite Rle_bool_true by exact L|rewrite Rle_bool_false by lra]; reflexivity.
Qed.
Print Assumptions C120_open_ring.

(** ** Concrete cases *)
Definition fz (n : Z) : f64 := f64_of_Z n.
Definition fh (n : Z) : f64 := f64_of n (-1).
Example C120_ex_grid : map (fun v => match v with B754_finite _ m e _ => (Zpos m, e) | _ => (0%Z, 0%Z) end) (radial_gridF (fz 0, fz 3) None 2 4)
  = [(6755399441055744, -51); (4503599627370496, -51); (4503599627370496, -52); (0, 0);
     (7120816245988179, -51); (5035177455121576, -51); (6369051672525773, -52); (4503599627370496, -52)]%Z.
Proof. vm_compute. reflexivity. Qed.
(** rings 1 to 2 and 2.5 to 4 about (1.5, 2) in a 4 x 5 image *)
Example C120_ex_rings : ringsF [fz 1; fz 2; fh 5; fz 4] (fh 3, fz 2) 4 5 =
  Some [2;1;1;1;2; 0;1;0;1;0; 0;1;0;1;0; 2;1;1;1;2]%nat.
Proof. vm_compute. reflexivity. Qed.
Lemma halves_of_Z n b : (Z.abs n <= 2 ^ 53)%Z -> (Z.abs (2 * n) <= b)%Z -> halves b (fz n).
Proof. intros H Hb. destruct (f64_of_Z_ok n H) as [E F]. split; [exact F|]. exists (2 * n)%Z. split; [exact Hb|]. unfold fz. rewrite E, mult_IZR. field. Qed.
(** the hypotheses of C120_rings_exact and of the ordering theorem are met *)
Example C120_ex_hyps : Forall (halves (2 ^ 26)) [fz 3; fz 5; fz 10; fz 12] /\ increasing (values [fz 3; fz 5; fz 10; fz 12]) /\ both (halves (2 ^ 25)) (fz 7, fz 9)
  /\ both (no_larger (bpow radix2 200)) (fz 7, fz 9).
Proof.
  assert (V : forall n, (0 <= n <= 100)%Z -> B2R (fz n) = IZR n) by (intros n H; apply f64_of_Z_ok; lia).
  split; [repeat constructor; apply halves_of_Z; lia|]. split.
  - intros k a b. unfold values. cbn [map]. rewrite !V by lia. intros E1 E2. destruct k as [|[|[|[|k]]]]; cbn in E1, E2; try discriminate; try (destruct k; discriminate);
    injection E1 as <-; injection E2 as <-; apply IZR_le; lia.
  - assert (B : forall n, (0 <= n <= 100)%Z -> no_larger (bpow radix2 200) (fz n)).
    { intros n Hn. split; [apply f64_of_Z_ok; lia|]. rewrite V by lia. rewrite Rabs_pos_eq by (apply (IZR_le 0); lia). rewrite bpow_IZR by lia. apply IZR_le. lia. }
    split; split; cbn [fst snd]; try (apply halves_of_Z; lia); apply B; lia.
Qed.
Example C120_ex_special : ringsF [fz 0; fz 1; B754_infinity false; B754_infinity false] (fz 0, fz 0) 2 2 = None /\
  ringsF [fz 1; B754_infinity false] (fz 0, fz 0) 2 2 = Some [0; 1; 1; 1]%nat /\ ringsF [fz 2; fz 1] (fz 0, fz 0) 2 2 = None /\ ringsF [fz 2] (fz 0, fz 0) 2 2 = None.
Proof. repeat split; vm_compute; reflexivity. Qed.
