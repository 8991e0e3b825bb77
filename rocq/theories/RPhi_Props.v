(* C95: an image made from polar data (construct_rphi_avg_image). *)
From Coq Require Import Reals Sorted.
From Verif Require Import Common Roi_Model Roi_Proofs RoiPolar_Model RoiPolar_Proofs PixGrid_Props Snip_Model ImgCirc_Model ImgCirc_Spec ImgCirc_Proofs RPhi_Model RPhi_Spec RPhi_Proofs.
From Coq Require Import Lra.
Local Open Scope R_scope.
Local Open Scope list_scope.

Lemma run_rest radii angles p mask center shape size : (forall mh mw m, mask = Some (mh, mw, m) -> mh = nr p /\ mw = nc p /\ length m = length (data p)) ->
  exists q, construct_rphi_avg_image radii angles p mask center shape size = rphi_rest radii angles q center shape size /\ nr q = nr p /\ nc q = nc p /\ forall k l, px q k l = seen (nc p) (data p) (option_map snd mask) k l.
Proof.
  intros H. unfold construct_rphi_avg_image. destruct mask as [[[mh mw] m]|]; [|exists p; split; [reflexivity|split; [reflexivity|split; reflexivity]]].
  destruct (H mh mw m eq_refl) as (-> & -> & L). rewrite !Nat.eqb_refl. cbn [andb negb]. exists (masked p m). repeat split. intros k l. now apply masked_px.
Qed.
(** C95: every pixel blends the four measurements around its distance and direction, the circle closed
    behind the last angle; outside the radii, or next to a masked measurement, it is nan. *)
Theorem C95_image radii angles p mask h w center c size : StronglySorted Rlt radii -> (2 <= length radii)%nat -> one_turn angles -> nr p = length radii -> nc p = length angles ->
  (forall mh mw m, mask = Some (mh, mw, m) -> mh = nr p /\ mw = nc p /\ length m = length (data p)) -> (center = Some c \/ center = None /\ c = middle h w) ->
  exists img, returned (construct_rphi_avg_image radii angles p mask center (Some (h, w)) size) = Some (h, w, img) /\ length img = (h * w)%nat /\
    forall i j, (i < h)%nat -> (j < w)%nat -> exists r phi v first final, pixel_radius c size i j r /\ direction c size i j phi /\ nth_error img (i * w + j) = Some v /\
      nth_error radii 0 = Some first /\ nth_error radii (length radii - 1) = Some final /\ (r < first \/ final < r -> v = None) /\
      (first <= r <= final -> blended radii angles (seen (nc p) (data p) (option_map snd mask)) r phi v).
Proof.
  intros Sr Lr O Hn Hc Hm Hce. destruct (run_rest radii angles p mask center (Some (h, w)) size Hm) as (q & -> & Nq & Cq & Pq). unfold rphi_rest.
  assert (Ec : match center with Some c => c | None => ((INR h - 1) / 2, (INR w - 1) / 2) end = c) by (destruct Hce as [-> |[-> ->]]; reflexivity). rewrite Ec.
  pose proof O as (S & a0 & a1 & E0 & E1 & T). destruct angles as [|a angles]; [discriminate|]. injection E0 as ->. cbn [returned].
  destruct (body_ok radii (a0 :: angles) a0 q c size h w Sr Lr O eq_refl) as (img & E & L & G); [congruence..|]. exists img. split; [exact E|]. split; [exact L|]. intros i j Hi Hj.
  destruct (G i j Hi Hj) as (r & phi & v & A & B & C & D & F). exists r, phi, v, (hd 0 radii), (last radii 0). split; [exact A|]. split; [exact B|]. split; [exact C|].
  assert (Nr : radii <> []) by (destruct radii; [cbn in Lr; lia|discriminate]). split; [destruct radii; [easy|reflexivity]|]. split; [|split; [exact D|]].
  { clear - Nr. induction radii as [|x [|y radii] IH]; [easy|reflexivity|]. specialize (IH ltac:(discriminate)). cbn [length] in *. replace (Datatypes.S (Datatypes.S (length radii)) - 1)%nat with (Datatypes.S (Datatypes.S (length radii) - 1)) by lia. exact IH. }
  intros Hr. destruct (F Hr) as (k & r0 & r1 & l & x & y & l' & z & Z). rewrite !Pq in Z. exists k, r0, r1, l, x, y, l', z. exact Z.
Qed.
Print Assumptions C95_image.
(** C95: a pixel at a measured radius and direction shows that measurement. *)
Theorem C95_measured radii angles p h w c size img i j k l rk al z phi : StronglySorted Rlt radii -> (2 <= length radii)%nat -> one_turn angles -> nr p = length radii -> nc p = length angles ->
  (forall k l, (k < length radii)%nat -> (l < length angles)%nat -> nth (k * nc p + l) (data p) None <> None) ->
  returned (construct_rphi_avg_image radii angles p None (Some c) (Some (h, w)) size) = Some (h, w, img) -> (i < h)%nat -> (j < w)%nat ->
  nth_error radii k = Some rk -> nth_error angles l = Some al -> 0 < rk -> pixel_radius c size i j rk -> direction c size i j phi -> phi = al + 2 * PI * IZR z ->
  nth_error img (i * w + j) = Some (nth (k * nc p + l) (data p) None).
Proof.
  intros Sr Lr O Hn Hc Hk E Hi Hj Ek El Rp Hr Hd Hz. destruct (C95_image radii angles p None h w (Some c) c size Sr Lr O Hn Hc ltac:(discriminate) (or_introl eq_refl)) as (img' & E' & _ & G).
  rewrite E in E'. injection E' as <-. destruct (G i j Hi Hj) as (r & phi' & v & first & final & A & B & C & D1 & D2 & _ & F).
  assert (r = rk). { destruct A as [A1 A2], Hr as [A3 A4]. nra. } subst r.
  assert (phi' = phi).
  { destruct B as (B1 & r & Br & Bc & Bs & _), Hd as (C1 & r' & Cr & Cc & Cs & _). assert (r = rk) by (destruct Br, Hr; nra). assert (r' = rk) by (destruct Cr, Hr; nra). subst r r'. apply (C89_angle_unique rk); [exact Rp|exact B1|exact C1|congruence..]. }
  subst phi'. rewrite C. f_equal.
  assert (Hb : first <= rk <= final).
  { pose proof (proj1 (Forall_forall _ _) (sorted_first _ _ Sr D1) rk (nth_error_In _ _ Ek)). pose proof (proj1 (Forall_forall _ _) (sorted_last _ _ Sr D2) rk (nth_error_In _ _ Ek)). cbv beta in *. lra. }
  exact (blended_node radii angles _ k l rk al z phi v Sr O Ek El Hz Hk (F Hb)).
Qed.
Print Assumptions C95_measured.
(** C95: direction 0 is towards larger columns; the documentation says the opposite. *)
Theorem C95_zero_direction_refuted center size i j : snd center < INR j -> 0 < snd size -> INR i = fst center -> direction center size i j 0 /\ ~ direction center size i j PI.
Proof.
  intros Hj Hs Hi. pose proof PI_RGT_0. assert (P : 0 < snd size * (INR j - snd center)) by (apply Rmult_lt_0_compat; lra).
  split.
  - split; [lra|]. exists (snd size * (INR j - snd center)). split; [split; [lra|rewrite Hi; ring]|]. rewrite cos_0, sin_0, Hi. repeat split; ring.
  - intros (_ & r & (R0 & _) & C & _). rewrite cos_PI in C. lra.
Qed.
Print Assumptions C95_zero_direction_refuted.
(** C95: the caller's arrays are changed: the angles are shifted so that the first one is 0, masked points of
    the image become nan. *)
Theorem C95_caller_changed radii angles p mask h w center size a0 : nth_error angles 0 = Some a0 ->
  (forall mh mw m, mask = Some (mh, mw, m) -> mh = nr p /\ mw = nc p /\ length m = length (data p)) ->
  let o := construct_rphi_avg_image radii angles p mask center (Some (h, w)) size in
  angles_after o = map (fun a => a - a0) angles /\ nr (image_after o) = nr p /\ nc (image_after o) = nc p /\
  forall k l, nth (k * nc p + l) (data (image_after o)) None = seen (nc p) (data p) (option_map snd mask) k l.
Proof.
  intros E0 Hm. cbv zeta. destruct (run_rest radii angles p mask center (Some (h, w)) size Hm) as (q & -> & Nq & Cq & Pq). unfold rphi_rest. destruct angles as [|a angles]; [discriminate|]. injection E0 as ->. cbn [angles_after image_after].
  split; [reflexivity|]. split; [exact Nq|]. split; [exact Cq|]. intros k l. rewrite <- Pq. unfold px. now rewrite Cq.
Qed.
Print Assumptions C95_caller_changed.
(** C95: so the same call made twice on the same arrays gives a rotated image the second time. *)
Theorem C95_twice_refuted : exists radii angles p h w c size img img', let o := construct_rphi_avg_image radii angles p None (Some c) (Some (h, w)) size in
  one_turn angles /\ returned o = Some (h, w, img) /\
  returned (construct_rphi_avg_image radii (angles_after o) (image_after o) None (Some c) (Some (h, w)) size) = Some (h, w, img') /\ img <> img'.
Proof.
  pose proof PI_RGT_0 as HP.
  set (p := Pic 2 2 [Some 10; Some 0; Some 10; Some 0]).
  assert (O1 : one_turn [PI / 2; PI]) by (split; [repeat constructor; lra|exists (PI / 2), PI; repeat split; cbn; lra]).
  assert (O2 : one_turn [0; PI / 2]) by (split; [repeat constructor; lra|exists 0, (PI / 2); repeat split; cbn; lra]).
  assert (Sr : StronglySorted Rlt [0; 1]) by (repeat constructor; lra).
  destruct (C95_image [0; 1] [PI / 2; PI] p None 3 3 (Some (1, 1)) (1, 1) (1, 1) Sr ltac:(cbn; lia) O1 eq_refl eq_refl ltac:(discriminate) (or_introl eq_refl)) as (img & E1 & _).
  destruct (C95_image [0; 1] [0; PI / 2] p None 3 3 (Some (1, 1)) (1, 1) (1, 1) Sr ltac:(cbn; lia) O2 eq_refl eq_refl ltac:(discriminate) (or_introl eq_refl)) as (img' & E2 & _).
  assert (Hr : pixel_radius (1, 1) (1, 1) 2 1 1) by (split; cbn; lra).
  assert (Hd : direction (1, 1) (1, 1) 2 1 (PI / 2)) by (split; [lra|]; exists 1; rewrite cos_PI2, sin_PI2; repeat split; cbn; lra).
  assert (K : forall k l, (k < 2)%nat -> (l < 2)%nat -> nth (k * nc p + l) (data p) None <> None) by (intros [|[|]] [|[|]] ? ?; cbn; try discriminate; lia).
  pose proof (C95_measured [0; 1] [PI / 2; PI] p 3 3 (1, 1) (1, 1) img 2 1 1 0 1 (PI / 2) 0 (PI / 2) Sr ltac:(cbn; lia) O1 eq_refl eq_refl K E1 ltac:(lia) ltac:(lia) eq_refl eq_refl ltac:(lra) Hr Hd ltac:(cbn; lra)) as M1.
  pose proof (C95_measured [0; 1] [0; PI / 2] p 3 3 (1, 1) (1, 1) img' 2 1 1 1 1 (PI / 2) 0 (PI / 2) Sr ltac:(cbn; lia) O2 eq_refl eq_refl K E2 ltac:(lia) ltac:(lia) eq_refl eq_refl ltac:(lra) Hr Hd ltac:(cbn; lra)) as M2.
  exists [0; 1], [PI / 2; PI], p, 3%nat, 3%nat, (1, 1), (1, 1), img, img'. cbv zeta. split; [exact O1|]. split; [exact E1|]. split.
  - rewrite <- E2. assert (Ea : angles_after (construct_rphi_avg_image [0; 1] [PI / 2; PI] p None (Some (1, 1)) (Some (3, 3)%nat) (1, 1)) = [0; PI / 2]) by (cbn; f_equal; [ring|f_equal; field]). rewrite Ea. reflexivity.
  - intros ->. rewrite M1 in M2. cbn in M2. injection M2. lra.
Qed.
Print Assumptions C95_twice_refuted.
(** C95: angles that reach or pass a full turn, which the documentation says are ignored, are refused; the
    caller's angles are shifted all the same. *)
Theorem C95_full_turn_refuted radii angles p h w center size a0 a1 : StronglySorted Rlt angles -> nth_error angles 0 = Some a0 -> In a1 angles -> a0 + 2 * PI <= a1 ->
  (forall k x y, nth_error angles k = Some x -> nth_error angles (S k) = Some y -> y - x < 2 * PI) ->
  let o := construct_rphi_avg_image radii angles p None center (Some (h, w)) size in returned o = None /\ angles_after o = map (fun a => a - a0) angles.
Proof.
  intros S E0 I1 T G. cbv zeta. unfold construct_rphi_avg_image, rphi_rest. destruct angles as [|a angles]; [discriminate|]. injection E0 as ->. cbn [returned angles_after]. split; [|reflexivity].
  pose proof PI_RGT_0. unfold rphi_body. cbn [map]. replace (a0 - a0) with 0 by ring. replace (non_decreasing _) with false; [reflexivity|]. symmetry. apply (turn_detected (map (fun a => a - a0) angles) 0).
  - assert (Q : StronglySorted Rlt (map (fun a => a - a0) (a0 :: angles))) by now apply sorted_shift. cbn [map] in Q. replace (a0 - a0) with 0 in Q by ring. clear - Q. induction Q as [|x l Q IH F]; constructor; auto. eapply Forall_impl; [|exact F]. intros; now apply Rlt_le.
  - intros k x y A B. assert (M : 0 :: map (fun a => a - a0) angles = map (fun a => a - a0) (a0 :: angles)) by (cbn; f_equal; ring). rewrite M in A, B. rewrite nth_error_map in A, B.
    destruct (nth_error (a0 :: angles) k) as [x'|] eqn:A'; [|discriminate]. destruct (nth_error (a0 :: angles) (Datatypes.S k)) as [y'|] eqn:B'; [|discriminate]. cbn in A, B. injection A as <-. injection B as <-. pose proof (G k x' y' A' B'). lra.
  - exists (a1 - a0). split; [apply (in_map (fun a => a - a0)); destruct I1 as [<-|I1]; [exfalso; lra|exact I1]|]. assert (I0 : Int_part (0 / (2 * PI)) = 0%Z) by (unfold Rdiv; rewrite Rmult_0_l; exact (Int_part_INR 0)). rewrite I0. cbn. lra.
Qed.
Print Assumptions C95_full_turn_refuted.
(** C95: an angle a whole turn further on after a wide enough gap is taken for the smaller one. *)
Theorem C95_gap_refuted radii x y p h w center size : 0 < y < 2 * PI ->
  returned (construct_rphi_avg_image radii [x; x + y + 2 * PI] p None center (Some (h, w)) size) = returned (construct_rphi_avg_image radii [x; x + y] p None center (Some (h, w)) size).
Proof.
  intros Hy. unfold construct_rphi_avg_image, rphi_rest. cbn [returned]. unfold rphi_body. cbn [map].
  rewrite (fmod_unique (x + y + 2 * PI - x) y (-1)) by (try split; try lra; cbn; lra). rewrite (fmod_unique (x + y - x) y 0) by (try split; try lra; cbn; lra). reflexivity.
Qed.
Print Assumptions C95_gap_refuted.
(** C95: a mask of another shape, radii that are not ascending or fewer than two, or an image with other numbers of rows and
    columns than there are radii and angles, are refused *)
Theorem C95_refuses radii angles p mask h w center size :
  (exists mh mw m, mask = Some (mh, mw, m) /\ ~ (mh = nr p /\ mw = nc p)) \/ ~ StronglySorted Rlt radii \/ (length radii < 2)%nat \/ nr p <> length radii \/ nc p <> length angles ->
  returned (construct_rphi_avg_image radii angles p mask center (Some (h, w)) size) = None.
Proof.
  intros H.
  assert (A : forall l, ascending l = true -> StronglySorted Rlt l).
  { intros l. induction l as [|a [|b l] IH]; cbn [ascending]; [constructor|repeat constructor|]. destruct (Rlt_dec a b) as [L|]; [|discriminate]. cbn [andb]. intros E.
    specialize (IH E). constructor; [exact IH|]. constructor; [exact L|]. inversion IH; subst. eapply Forall_impl; [|eassumption]. intros x Hx. lra. }
  assert (R : forall q, nr q = nr p -> nc q = nc p -> ~ StronglySorted Rlt radii \/ (length radii < 2)%nat \/ nr p <> length radii \/ nc p <> length angles ->
    returned (rphi_rest radii angles q center (Some (h, w)) size) = None).
  { intros q E1 E2 K. unfold rphi_rest. destruct angles as [|a0 angles]; [reflexivity|]. cbn [returned]. unfold rphi_body.
    destruct (negb (non_decreasing _)); [reflexivity|]. destruct (nc q =? 0)%nat; [reflexivity|].
    match goal with |- (if negb ?b then _ else _) = _ => destruct b eqn:B; [exfalso|reflexivity] end.
    apply andb_prop in B. destruct B as [B B5]. apply andb_prop in B. destruct B as [B B4]. apply andb_prop in B. destruct B as [B B3]. apply andb_prop in B. destruct B as [B1 _].
    apply A in B1. apply Nat.eqb_eq in B3, B4. apply Nat.leb_le in B5. cbn [length] in B4. rewrite app_length, !map_length in B4. cbn [length] in *. destruct K as [K|[K|[K|K]]]; [exact (K B1)|lia|lia|lia]. }
  unfold construct_rphi_avg_image. destruct mask as [[[mh mw] m]|].
  - destruct (Nat.eqb_spec mh (nr p)) as [->|N1]; [|reflexivity]. destruct (Nat.eqb_spec mw (nc p)) as [->|N2]; [|reflexivity]. cbn [andb negb].
    apply R; [reflexivity..|]. destruct H as [(? & ? & ? & E & N)|H]; [|exact H]. injection E as <- <- <-. exfalso. apply N. split; reflexivity.
  - apply R; [reflexivity..|]. destruct H as [(? & ? & ? & E & N)|H]; [discriminate|exact H].
Qed.
Print Assumptions C95_refuses.
Example C95_refuses_ex p size : returned (construct_rphi_avg_image [1; 0] [0; 1] p None None (Some (3, 3)%nat) size) = None.
Proof. apply C95_refuses. right. left. intros S. inversion S as [|? ? ? F]; subst. inversion F; subst. lra. Qed.
(** C95: the shape chosen without one. *)
Theorem C95_default_size radii angles p size my mx : 0 < fst size -> 0 < snd size -> reach radii (fst size) my -> reach radii (snd size) mx ->
  construct_rphi_avg_image radii angles p None None None size = construct_rphi_avg_image radii angles p None None (Some (2 * my + 1, 2 * mx + 1)%nat) size.
Proof.
  intros Hy Hx Ry Rx. unfold construct_rphi_avg_image, rphi_rest. rewrite (reach_ok _ _ _ Hy Ry), (reach_ok _ _ _ Hx Rx). cbn [bind].
  replace (Z.to_nat (2 * Z.of_nat my + 1)) with (2 * my + 1)%nat by lia. replace (Z.to_nat (2 * Z.of_nat mx + 1)) with (2 * mx + 1)%nat by lia. reflexivity.
Qed.
Print Assumptions C95_default_size.
(** the hypotheses of C95_full_turn_refuted are met by the documented example [0, ..., 2 pi] *)
Example C95_full_turn_ex p size : returned (construct_rphi_avg_image [0; 1] [0; PI; 2 * PI] p None None (Some (3, 3)%nat) size) = None.
Proof.
  pose proof PI_RGT_0. apply (C95_full_turn_refuted [0; 1] [0; PI; 2 * PI] p 3 3 None size 0 (2 * PI)); [repeat constructor; lra|reflexivity|cbn; tauto|lra|].
  intros [|[|[|k]]] x y A B; cbn in A, B; try discriminate; try (injection A as <-; injection B as <-; lra).
Qed.
