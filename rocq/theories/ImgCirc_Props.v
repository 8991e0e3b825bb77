(* C93: an image made from a radial profile (construct_circ_avg_image). *)
From Coq Require Import Reals Sorted.
From Verif Require Import Common Roi_Model Roi_Proofs RoiPolar_Model RoiPolar_Proofs PixGrid_Props Snip_Model ImgCirc_Model ImgCirc_Spec ImgCirc_Proofs.
From Coq Require Import Lra.
Local Open Scope R_scope.
Local Open Scope list_scope.

(** C93: every pixel takes the value of the profile at its distance from the centre, which is the middle of
    the image unless given. *)
Theorem C93_image radii vals h w center size left right c : StronglySorted Rlt radii -> length radii = length vals -> radii <> [] ->
  (center = Some c \/ center = None /\ c = middle h w) ->
  exists img, construct_circ_avg_image radii vals (Some (h, w)) center size left right = Some (h, w, img) /\ length img = (h * w)%nat /\
    forall i j, (i < h)%nat -> (j < w)%nat -> exists r v, pixel_radius c size i j r /\ nth_error img (i * w + j) = Some v /\ profile radii vals r v.
Proof.
  intros S L N Hc. unfold construct_circ_avg_image. cbn [bind fst snd].
  assert (Ec : match center with Some c => c | None => ((INR h - 1) / 2, (INR w - 1) / 2) end = c) by (destruct Hc as [-> |[-> ->]]; reflexivity). rewrite Ec.
  replace (length radii =? 0)%nat with false by (destruct radii; [easy|reflexivity]). rewrite L, Nat.eqb_refl. cbn [orb negb].
  eexists. split; [reflexivity|]. split; [rewrite map_length; apply concat_tab_length|]. intros i j Hi Hj.
  destruct (proj2 (C89_radial c size h w) i j _ _ Hi Hj eq_refl eq_refl) as (r & E & Hr & Q). exists r, (interp r radii vals 0).
  split; [split; [exact Hr|]; unfold at_x, at_y in *; lra|]. split; [now rewrite nth_error_map, E|]. now apply interp_ok.
Qed.
Print Assumptions C93_image.
(** C93: without dimensions the image is as large as the largest radius needs, an odd number of pixels ... *)
Theorem C93_default_size radii vals size left right my mx : 0 < fst size -> 0 < snd size -> reach radii (fst size) my -> reach radii (snd size) mx ->
  construct_circ_avg_image radii vals None None size left right = construct_circ_avg_image radii vals (Some (2 * my + 1, 2 * mx + 1)%nat) None size left right.
Proof.
  intros Hy Hx Ry Rx. unfold construct_circ_avg_image. rewrite (reach_ok _ _ _ Hy Ry), (reach_ok _ _ _ Hx Rx). cbn [bind].
  replace (Z.to_nat (2 * Z.of_nat my + 1)) with (2 * my + 1)%nat by lia. replace (Z.to_nat (2 * Z.of_nat mx + 1)) with (2 * mx + 1)%nat by lia. reflexivity.
Qed.
Print Assumptions C93_default_size.
(** ... and a centre must not be given. *)
Theorem C93_center_alone radii vals c size left right : construct_circ_avg_image radii vals None (Some c) size left right = None.
Proof. reflexivity. Qed.
Print Assumptions C93_center_alone.
(** C93: left and right have no effect; so neither the documented value inside the first radius nor the one
    outside the last is used, not even the default left = 0. *)
Theorem C93_left_right_refuted : (forall radii vals dims center size l r l' r', construct_circ_avg_image radii vals dims center size l r = construct_circ_avg_image radii vals dims center size l' r') /\
  (forall l r, construct_circ_avg_image [1; 2] [7; 8] (Some (1, 4)%nat) (Some (0, 0)) (1, 1) l r = Some (1%nat, 4%nat, [7; 7; 8; 0])).
Proof.
  split; [reflexivity|]. intros l r. unfold construct_circ_avg_image. cbn [bind length Nat.eqb orb negb fst snd]. do 2 f_equal.
  unfold radial_grid, tab2. cbn [seq map concat app]. unfold radius, grid_x, grid_y. cbn [fst snd INR].
  replace (1 * (0 - 0) * (1 * (0 - 0)) + 1 * (0 - 0) * (1 * (0 - 0))) with 0 by ring.
  replace (1 * (1 - 0) * (1 * (1 - 0)) + 1 * (0 - 0) * (1 * (0 - 0))) with (1 * 1) by ring.
  replace (1 * (1 + 1 - 0) * (1 * (1 + 1 - 0)) + 1 * (0 - 0) * (1 * (0 - 0))) with (2 * 2) by ring.
  replace (1 * (1 + 1 + 1 - 0) * (1 * (1 + 1 + 1 - 0)) + 1 * (0 - 0) * (1 * (0 - 0))) with (3 * 3) by ring.
  rewrite sqrt_0, !sqrt_square by lra. unfold interp. cbn [hd last seg].
  repeat (destruct (Rlt_dec _ _); try lra). repeat apply (f_equal2 cons); try reflexivity; lra.
Qed.
Print Assumptions C93_left_right_refuted.
(** C93: about its middle the image is symmetric in rows and in columns. *)
Theorem C93_symmetric radii vals h w size left right img i j : construct_circ_avg_image radii vals (Some (h, w)) None size left right = Some (h, w, img) -> (i < h)%nat -> (j < w)%nat ->
  nth_error img (i * w + j) = nth_error img ((h - 1 - i) * w + j) /\ nth_error img (i * w + j) = nth_error img (i * w + (w - 1 - j)).
Proof.
  unfold construct_circ_avg_image. cbn [bind fst snd]. destruct (_ || _); [discriminate|]. intros E Hi Hj. injection E as <-. rewrite !nth_error_map. unfold radial_grid.
  rewrite !(grid_nth h w) by lia. cbn [option_map].
  assert (Q : forall n k, (k < n)%nat -> INR (n - 1 - k) - (INR n - 1) / 2 = - (INR k - (INR n - 1) / 2)).
  { intros n k Hk. rewrite !minus_INR by lia. cbn [INR]. field. }
  split; do 2 f_equal; unfold radius, grid_x, grid_y; cbn [fst snd]; rewrite Q by assumption; f_equal; ring.
Qed.
Print Assumptions C93_symmetric.
(** C93: profiles add up. *)
Theorem C93_superposition radii u v a b dims center size left right d iu iv : length u = length radii -> length v = length radii ->
  construct_circ_avg_image radii u dims center size left right = Some (d, iu) -> construct_circ_avg_image radii v dims center size left right = Some (d, iv) ->
  construct_circ_avg_image radii (map (fun p => a * fst p + b * snd p) (combine u v)) dims center size left right = Some (d, map (fun p => a * fst p + b * snd p) (combine iu iv)).
Proof.
  intros Lu Lv. unfold construct_circ_avg_image. destruct (match dims with Some d => _ | None => _ end) as [d'|]; [|discriminate]. cbn [bind].
  rewrite map_length, combine_length, Lu, Lv, Nat.min_id. destruct (_ || _); [discriminate|]. intros E1 E2. injection E1 as E1 <-. injection E2 as _ <-. subst d'. do 2 f_equal.
  assert (G : forall l, map (fun p => a * fst p + b * snd p) (combine (map (fun r => interp r radii u 0) l) (map (fun r => interp r radii v 0) l)) = map (fun r => a * interp r radii u 0 + b * interp r radii v 0) l).
  { induction l as [|x l IH]; cbn; [reflexivity|]. now rewrite IH. }
  rewrite G. apply map_ext. intros x. unfold interp.
  assert (Hh : forall u v, length u = length v -> hd 0 (map (fun p => a * fst p + b * snd p) (combine u v)) = a * hd 0 u + b * hd 0 v) by (clear; intros [|p u] [|q v] H; try discriminate; cbn; ring).
  destruct (Rlt_dec x (hd 0 radii)); [apply Hh; congruence|]. destruct (Rlt_dec (last radii 0) x); [ring|].
  revert Lu Lv. clear. revert u v. induction radii as [|r radii IH]; intros [|p u] [|q v] Lu Lv; try discriminate; [cbn; ring|].
  destruct radii as [|r' radii], u as [|p' u], v as [|q' v]; try discriminate; [reflexivity|]. cbn [combine map seg fst snd]. destruct (Rlt_dec x r'); [unfold Rdiv; ring|].
  apply (IH (p' :: u) (q' :: v)); cbn in *; lia.
Qed.
Print Assumptions C93_superposition.
(** a ring of radius 1: three by three pixels, corners outside *)
Example C93_ex : construct_circ_avg_image [0; 1] [5; 9] None None (1, 1) 0 0 = Some (3%nat, 3%nat, [0; 9; 0; 9; 5; 9; 0; 9; 0]).
Proof.
  assert (R1 : reach [0; 1] 1 1). { exists 1. cbn. split; [tauto|]. split; [|lra]. intros r [<-|[<-|[]]]; lra. }
  rewrite (C93_default_size [0; 1] [5; 9] (1, 1) 0 0 1 1) by (cbn [fst snd]; lra || exact R1).
  unfold construct_circ_avg_image. cbn [bind length Nat.eqb orb negb fst snd Nat.mul Nat.add]. do 2 f_equal.
  unfold radial_grid, tab2. cbn [seq map concat app]. unfold radius, grid_x, grid_y. cbn [fst snd INR].
  match goal with |- context [1 * (0 - ?c)] => replace c with 1 by (cbn; field) end.
  assert (A : forall a b, a * a + b * b = 1 -> sqrt (a * a + b * b) = 1) by (intros a b ->; apply sqrt_1).
  assert (B : forall a b, a * a + b * b = 2 -> sqrt (a * a + b * b) = sqrt 2) by (intros a b ->; reflexivity).
  assert (C : forall a b, a * a + b * b = 0 -> sqrt (a * a + b * b) = 0) by (intros a b ->; apply sqrt_0).
  assert (H2 : 1 < sqrt 2) by (rewrite <- sqrt_1 at 1; apply sqrt_lt_1; lra).
  repeat match goal with |- context [sqrt (?a * ?a + ?b * ?b)] => first [rewrite (A a b) by ring | rewrite (C a b) by ring | rewrite (B a b) by ring] end.
  unfold interp. cbn [hd last seg]. destruct (Rlt_dec (sqrt 2) 0); [lra|]. destruct (Rlt_dec 1 (sqrt 2)); [|lra]. repeat (destruct (Rlt_dec _ _); try lra). repeat apply (f_equal2 cons); try reflexivity; field.
Qed.
