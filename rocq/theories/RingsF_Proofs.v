From Coq Require Import Reals.
From Flocq Require Import Core BinarySingleNaN.
From Verif Require Import RunMean_Proofs MTauF_Acc TTimeF_Acc.
From Verif Require Import Common F64 GridF_Model GridF_Proofs Roi_Model Roi_Proofs RoiPolar_Model RoiPolar_Spec RoiPolar_Proofs RingsF_Model RingsF_Spec.
From Coq Require Import Lra.
Local Open Scope R_scope.

(** ** Edges *)
Lemma rising_ok a b : fin a -> fin b -> risingF a b = Rleb (B2R a) (B2R b).
Proof.
  intros Fa Fb. unfold risingF. apply eq_true_iff_eq. rewrite Rleb_iff.
  destruct (Rlt_or_le (Rabs (rnd (B2R b - B2R a))) (bpow radix2 1024)) as [L|L].
  - destruct (fsub_ok b a Fb Fa L) as [E [F _]]. rewrite (fleb_ok fzero _ eq_refl F). rewrite E.
    destruct (plus_err (B2R b) (- B2R a) (B2R_format b) (generic_format_opp _ _ _ (B2R_format a))) as (e & He & Hr).
    replace (B2R b + - B2R a) with (B2R b - B2R a) in Hr by ring. rewrite Hr.
    assert (Hs : Rabs e <= / 2). { refine (Rle_trans _ _ _ He _). change (/2) with (bpow radix2 (-1)). apply bpow_le. lia. }
    apply Rabs_le_inv in Hs. change (B2R fzero) with 0. destruct (Rle_bool_spec 0 ((B2R b - B2R a) * (1 + e))) as [H|H]; split; intros K; try discriminate; try reflexivity.
    + nra.
    + exfalso. nra.
  - pose proof (Bminus_correct 53 1024 _ _ mode_NE b a Fb Fa) as C. change (round radix2 (FLT_exp (3 - 1024 - 53) 53) (round_mode mode_NE)) with rnd in C.
    rewrite Rlt_bool_false in C by exact L. destruct C as [C S]. unfold fsub.
    destruct (Bminus mode_NE b a) as [s|s| |s m e p]; try discriminate C.
    unfold binary_overflow in C. cbn in C. injection C as ->. unfold fleb. 
    assert (P : B2R b - B2R a <> 0). { intros Z. rewrite Z, rnd_0, Rabs_R0 in L. pose proof (bpow_gt_0 radix2 1024). lra. }
    destruct b as [sb|sb| |sb mb eb pb]; try discriminate; destruct a as [sa|sa| |sa ma ea pa]; try discriminate; cbn [Bsign B2R] in *; try lra; subst sb; cbn.
    + exfalso. assert (Hf : Rabs (rnd (0 - F2R (Float radix2 (cond_Zopp sa (Zpos ma)) ea))) < bpow radix2 1024).
      { rewrite Rminus_0_l, rnd_opp, Rabs_Ropp. rewrite rnd_id by (apply (B2R_format (B754_finite sa ma ea pa))). apply (abs_B2R_lt_emax 53 1024 (B754_finite sa ma ea pa)). }
      lra.
    + exfalso. assert (Hf : Rabs (rnd (F2R (Float radix2 (cond_Zopp (negb sa) (Zpos mb)) eb) - 0)) < bpow radix2 1024).
      { rewrite Rminus_0_r. rewrite rnd_id by (apply (B2R_format (B754_finite (negb sa) mb eb pb))). apply (abs_B2R_lt_emax 53 1024 (B754_finite (negb sa) mb eb pb)). }
      lra.
    + destruct sa; cbn [negb cond_Zopp].
      * split; [intros _|reflexivity]. assert (F2R (Float radix2 (- Zpos ma) ea) <= 0) by (apply F2R_le_0; cbn; lia). assert (0 <= F2R (Float radix2 (Zpos mb) eb)) by (apply F2R_ge_0; cbn; lia). lra.
      * split; [discriminate|]. intros K. exfalso. assert (0 < F2R (Float radix2 (Zpos ma) ea)) by (apply F2R_gt_0; cbn; lia). assert (F2R (Float radix2 (- Zpos mb) eb) < 0) by (apply F2R_lt_0; cbn; lia). change (Z.neg mb) with (- Zpos mb)%Z in K. lra.
Qed.
Lemma ordered_ok edges : Forall (fun e => fin e) edges -> ordered risingF edges = ordered Rleb (values edges).
Proof.
  induction edges as [|a l IH]; intros H; [reflexivity|]. inversion H as [|? ? Fa Fl]; subst. specialize (IH Fl). destruct l as [|b l]; [reflexivity|].
  inversion Fl as [|? ? Fb ?]; subst. change (ordered risingF (a :: b :: l)) with (risingF a b && ordered risingF (b :: l))%bool. rewrite IH, (rising_ok a b Fa Fb). reflexivity.
Qed.
Lemma check_ok edges c h w : Forall (fun e => fin e) edges ->
  (ringsF edges c h w <> None <-> Nat.even (length edges) = true /\ increasing (values edges)).
Proof.
  intros F. unfold ringsF. rewrite (ordered_ok edges F). rewrite <- (ordered_increasing (values edges)).
  destruct (Nat.even (length edges)); cbn [negb]; [|split; [intros H; now elim H|intros [H _]; discriminate]].
  destruct (ordered Rleb (values edges)); cbn [negb]; [split; [auto|discriminate]|split; [intros H; now elim H|intros [_ H]; discriminate]].
Qed.
(** ** Labels *)
Lemma digit_ok edges x : Forall (fun e => fin e) edges -> fin x -> digitize fleb edges x = digitize Rleb (values edges) (B2R x).
Proof.
  intros H Fx. unfold digitize. induction H as [|a l Fa Fl IH]; [reflexivity|]. cbn [filter values map]. fold (values l).
  replace (Rleb (B2R a) (B2R x)) with (fleb a x). { destruct (fleb a x); cbn [length]; rewrite IH; reflexivity. }
  rewrite (fleb_ok a x Fa Fx). unfold Rleb. destruct (Rle_dec _ _) as [L|L]; [apply Rle_bool_true; exact L|apply Rle_bool_false; lra].
Qed.
Lemma label_in edges r : Nat.even (length edges) = true -> increasing edges ->
  forall m, roi_label (digitize Rleb edges r) = S m <-> in_ring edges m r.
Proof.
  intros HE HI. assert (HOk : edges_ok Rleb edges = true).
  { unfold edges_ok. rewrite HE. apply ordered_increasing in HI. rewrite HI. reflexivity. }
  pose proof (roi_label_ok Rleb Rleb_trans edges r HOk) as HL. set (k := roi_label _) in *. clearbody k.
  intros m. rewrite in_ring_interval. destruct HL as [[-> H]|[s [Hk [E H]]]].
  - split; [discriminate|]. intros [iv [E1 E2]]. exfalso. apply (H iv); [eapply nth_error_In; eauto|exact E2].
  - split.
    + intros ->. exists s. cbn in E. rewrite Nat.sub_0_r in E. auto.
    + intros [iv [E1 E2]]. pose proof (intervals_disjoint Rleb Rleb_trans edges r _ _ HOk _ _ E E1 H E2). lia.
Qed.
Lemma grid_nth c p h w : length (radial_gridF c p h w) = (h * w)%nat /\ forall i j, (i < h)%nat -> (j < w)%nat ->
  nth_error (radial_gridF c p h w) (i * w + j) = Some (radiusF c (match p with Some p => p | None => (fone, fone) end) i j).
Proof.
  unfold radial_gridF. split; [apply concat_tab_length|]. intros i j Hi Hj.
  rewrite (nth_error_concat_rect _ h w) by (try apply tab_shaped; assumption). rewrite get2_tab by assumption. reflexivity.
Qed.
Lemma rings_labels edges c h w : Forall (fun e => fin e) edges -> Nat.even (length edges) = true -> increasing (values edges) ->
  exists out, ringsF edges c h w = Some out /\ length out = (h * w)%nat /\
  forall i j, (i < h)%nat -> (j < w)%nat -> fin (radiusF c (fone, fone) i j) ->
    exists k, nth_error out (i * w + j) = Some k /\ forall m, k = S m <-> in_ring (values edges) m (B2R (radiusF c (fone, fone) i j)).
Proof.
  intros F HE HI. unfold ringsF. rewrite (ordered_ok edges F), HE. assert (HO := HI). apply ordered_increasing in HO. rewrite HO. cbn [negb].
  eexists. split; [reflexivity|]. unfold make_roi. rewrite map_length. destruct (grid_nth c None h w) as [GL GN]. split; [exact GL|].
  intros i j Hi Hj FR. rewrite nth_error_map, (GN i j Hi Hj). cbn [option_map]. eexists. split; [reflexivity|].
  rewrite (digit_ok edges _ F FR). apply label_in; [|exact HI]. unfold values. rewrite map_length. exact HE.
Qed.
Lemma in_ring_same edges r s : (forall e, In e edges -> (e <= r <-> e <= s)) -> forall m, in_ring edges m r <-> in_ring edges m s.
Proof.
  intros H m. unfold in_ring. split; intros (lo & hi & E1 & E2 & B); exists lo, hi; split; [exact E1|split; [exact E2|]|exact E1|split; [exact E2|]];
  pose proof (H lo (nth_error_In _ _ E1)); pose proof (H hi (nth_error_In _ _ E2)).
  - split; [tauto|]. destruct (Rlt_or_le s hi); [assumption|]. assert (hi <= r) by tauto. lra.
  - split; [tauto|]. destruct (Rlt_or_le r hi); [assumption|]. assert (hi <= s) by tauto. lra.
Qed.

(** ** The rounding error of one radius *)
Definition norm (x y : R) : R := sqrt (x * x + y * y).
Lemma sq2 x y : 0 <= x * x + y * y. Proof. nra. Qed.
Lemma norm_pos x y : 0 <= norm x y. Proof. apply sqrt_pos. Qed.
Lemma norm_sq x y : norm x y * norm x y = x * x + y * y. Proof. apply sqrt_sqrt, sq2. Qed.
Lemma norm_le x y z : 0 <= z -> x * x + y * y <= z * z -> norm x y <= z.
Proof. intros Z H. rewrite <- (sqrt_square z Z). apply sqrt_le_1_alt. exact H. Qed.
Lemma norm_shift a b h : 0 <= a -> 0 <= b -> 0 <= h -> norm (a + h) (b + h) <= norm a b + 2 * h.
Proof.
  intros A B H. pose proof (norm_pos a b) as N. pose proof (norm_sq a b) as Q. apply norm_le; [lra|].
  assert (a <= norm a b) by nra. assert (b <= norm a b) by nra. nra.
Qed.
Lemma norm_mono a b a' b' : Rabs a <= a' -> Rabs b <= b' -> norm a b <= norm a' b'.
Proof.
  intros A B. apply norm_le; [apply norm_pos|]. rewrite norm_sq. apply Rabs_le_inv in A, B.
  assert (a * a <= a' * a') by nra. assert (b * b <= b' * b') by nra. lra.
Qed.
Lemma norm_scale k a b : 0 <= k -> norm (k * a) (k * b) = k * norm a b.
Proof.
  intros K. unfold norm. replace (k * a * (k * a) + k * b * (k * b)) with ((k * k) * (a * a + b * b)) by ring.
  rewrite sqrt_mult by (try apply sq2; nra). rewrite sqrt_square by exact K. reflexivity.
Qed.
Lemma norm_abs a b : norm (Rabs a) (Rabs b) = norm a b.
Proof. unfold norm. f_equal. rewrite <- !Rabs_mult. rewrite !Rabs_pos_eq by nra. reflexivity. Qed.
Lemma norm_close x y X Y a h : 0 <= a <= 1 -> 0 <= h -> Rabs (x - X) <= a * Rabs X + h -> Rabs (y - Y) <= a * Rabs Y + h ->
  (1 - a) * norm X Y - 2 * h <= norm x y <= (1 + a) * norm X Y + 2 * h.
Proof.
  intros A H Hx Hy. pose proof (Rabs_pos X) as PX. pose proof (Rabs_pos Y) as PY. split.
  - assert (K : norm ((1 - a) * Rabs X) ((1 - a) * Rabs Y) <= norm (Rabs x + h) (Rabs y + h)).
    { apply norm_mono; rewrite Rabs_pos_eq by nra.
      - pose proof (Rabs_triang_inv X x). rewrite (Rabs_minus_sym X x) in *. lra.
      - pose proof (Rabs_triang_inv Y y). rewrite (Rabs_minus_sym Y y) in *. lra. }
    rewrite norm_scale, norm_abs in K by lra. pose proof (norm_shift (Rabs x) (Rabs y) h (Rabs_pos _) (Rabs_pos _) H) as S. rewrite norm_abs in S. lra.
  - assert (K : norm x y <= norm ((1 + a) * Rabs X + h) ((1 + a) * Rabs Y + h)).
    { apply norm_mono.
      - pose proof (Rabs_triang_inv x X). lra.
      - pose proof (Rabs_triang_inv y Y). lra. }
    pose proof (norm_shift ((1 + a) * Rabs X) ((1 + a) * Rabs Y) h ltac:(nra) ltac:(nra) H) as S. rewrite norm_scale, norm_abs in S by lra. lra.
Qed.
