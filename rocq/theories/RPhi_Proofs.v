From Coq Require Import Reals Sorted.
From Verif Require Import Common Roi_Model Roi_Proofs RoiPolar_Model RoiPolar_Proofs PixGrid_Props Snip_Model ImgCirc_Model ImgCirc_Spec ImgCirc_Proofs RPhi_Model RPhi_Spec.
From Coq Require Import Lra.
Local Open Scope R_scope.
Local Open Scope list_scope.

(** ** the circle *)
Lemma fmod_range x : 0 <= fmod x < 2 * PI.
Proof.
  pose proof PI_RGT_0. unfold fmod. pose proof (base_Int_part (x / (2 * PI))) as [B1 B2]. set (z := IZR (Int_part (x / (2 * PI)))) in *.
  assert (E : x / (2 * PI) * (2 * PI) = x) by (field; lra). set (q := x / (2 * PI)) in *. nra.
Qed.
Lemma fmod_turns x : exists z, fmod x = x + 2 * PI * IZR z.
Proof. exists (- Int_part (x / (2 * PI)))%Z. unfold fmod. rewrite opp_IZR. ring. Qed.
Lemma fmod_unique x y z : 0 <= y < 2 * PI -> y = x + 2 * PI * IZR z -> fmod x = y.
Proof.
  intros Hy E. pose proof (fmod_range x) as R1. destruct (fmod_turns x) as [z' E']. pose proof PI_RGT_0.
  assert (D : fmod x - y = 2 * PI * IZR (z' - z)) by (rewrite minus_IZR, E', E; ring).
  assert (Z0 : (z' - z = 0)%Z).
  { destruct (Z.lt_trichotomy (z' - z) 0) as [L|[L|L]]; [|exact L|]; exfalso.
    - assert (IZR (z' - z) <= -1) by (apply IZR_le; lia). nra.
    - assert (1 <= IZR (z' - z)) by (apply IZR_le; lia). nra. }
  rewrite Z0 in D. lra.
Qed.
Lemma fmod_id x : 0 <= x < 2 * PI -> fmod x = x.
Proof. intros H. apply (fmod_unique x x 0); [exact H|]. ring. Qed.

(** ** grids *)
Lemma sorted_ascending l : StronglySorted Rlt l -> ascending l = true.
Proof.
  induction 1 as [|a l S IH F]; [reflexivity|]. destruct l as [|b l]; [reflexivity|]. cbn [ascending]. inversion F; subst. destruct (Rlt_dec a b); [exact IH|lra].
Qed.
Lemma sorted_non_decreasing l : StronglySorted Rlt l -> non_decreasing l = true.
Proof.
  induction 1 as [|a l S IH F]; [reflexivity|]. destruct l as [|b l]; [reflexivity|]. cbn [non_decreasing]. inversion F; subst. destruct (Rlt_dec b a); [lra|exact IH].
Qed.
Lemma cell_ok grid : forall x, StronglySorted Rlt grid -> (2 <= length grid)%nat -> hd 0 grid <= x <= last grid 0 ->
  exists a b, nth_error grid (cell x grid) = Some a /\ nth_error grid (S (cell x grid)) = Some b /\ a <= x <= b /\ a < b.
Proof.
  induction grid as [|a [|b [|c grid]] IH]; intros x S L H; [cbn in L; lia..| |].
  - exists a, b. cbn in *. inversion S as [|? ? ? F]; subst. inversion F; subst. auto.
  - cbn [cell]. inversion S as [|? ? S' F]; subst. inversion F; subst. destruct (Rle_dec x b) as [Lx|Lx].
    + exists a, b. cbn in H. cbn. repeat split; lra.
    + destruct (IH x S' ltac:(cbn; lia)) as (a' & b' & A & B & C); [change (last (a :: b :: c :: grid) 0) with (last (b :: c :: grid) 0) in H; cbn [hd]; lra|]. exists a', b'. cbn [nth_error] in *. auto.
Qed.
Lemma sorted_app l x : StronglySorted Rlt l -> Forall (fun a => a < x) l -> StronglySorted Rlt (l ++ [x]).
Proof.
  induction 1 as [|a l S IH F]; intros G; cbn; [repeat constructor|]. inversion G; subst. constructor; [auto|]. apply Forall_app. split; [exact F|]. repeat constructor. assumption.
Qed.
Lemma sorted_first l a0 : StronglySorted Rlt l -> nth_error l 0 = Some a0 -> Forall (fun a => a0 <= a) l.
Proof.
  intros S E. destruct l as [|a l]; [discriminate|]. injection E as <-. inversion S as [|? ? ? F]; subst. constructor; [lra|]. eapply Forall_impl; [|exact F]. cbv beta. intros; lra.
Qed.
Lemma sorted_last l a1 : StronglySorted Rlt l -> nth_error l (length l - 1) = Some a1 -> Forall (fun a => a <= a1) l.
Proof.
  induction 1 as [|a l S IH F]; intros E; [constructor|]. destruct l as [|b l].
  - cbn in E. injection E as <-. constructor; [lra|constructor].
  - cbn [length] in E. replace (Datatypes.S (Datatypes.S (length l)) - 1)%nat with (Datatypes.S (length (b :: l) - 1))%nat in E by (cbn; lia). cbn [nth_error] in E. specialize (IH E). constructor; [|exact IH]. inversion F; subst. inversion IH; subst. lra.
Qed.
Lemma last_app_one (l : list R) x d : last (l ++ [x]) d = x.
Proof. induction l as [|a [|b l] IH]; [reflexivity|reflexivity|exact IH]. Qed.
Lemma sorted_shift l d : StronglySorted Rlt l -> StronglySorted Rlt (map (fun a => a - d) l).
Proof. induction 1 as [|a l S IH F]; cbn; constructor; [exact IH|]. apply Forall_map. eapply Forall_impl; [|exact F]. cbv beta. intros; lra. Qed.

Lemma padded_mid p k m : (m < nc p)%nat -> padded p k (S m) = px p k m.
Proof. intros H. unfold padded. destruct (Nat.eqb_spec (S m) 0); [lia|]. destruct (Nat.eqb_spec (S m) (S (nc p))); [lia|]. f_equal. lia. Qed.
Lemma padded_end p k : padded p k (S (nc p)) = px p k 0.
Proof. unfold padded. destruct (Nat.eqb_spec (S (nc p)) 0); [lia|]. now rewrite Nat.eqb_refl. Qed.
(** ** the padded angles of a valid set *)
Section Valid.
  Variables (angles : list R) (a0 a1 : R).
  Hypothesis S : StronglySorted Rlt angles.
  Hypothesis E0 : nth_error angles 0 = Some a0.
  Hypothesis E1 : nth_error angles (length angles - 1) = Some a1.
  Hypothesis T : a1 < a0 + 2 * PI.
  Local Notation sh := (map (fun a => a - a0) angles).
  Lemma angles_mod : map fmod sh = sh.
  Proof.
    rewrite map_map. apply map_ext_in. intros a Ha. apply fmod_id. pose proof (proj1 (Forall_forall _ _) (sorted_first _ _ S E0) a Ha). pose proof (proj1 (Forall_forall _ _) (sorted_last _ _ S E1) a Ha). cbv beta in *. lra.
  Qed.
  Lemma nonempty : angles <> []. Proof. intros ->. discriminate. Qed.
  Lemma sh_hd : hd 0 sh = 0.
  Proof. destruct angles as [|a l]; [discriminate|]. injection E0 as <-. cbn. ring. Qed.
  Lemma sh_last : last sh 0 = a1 - a0.
  Proof.
    assert (G : forall l, nth_error l (length l - 1) = Some a1 -> last (map (fun a => a - a0) l) 0 = a1 - a0); [|exact (G _ E1)].
    clear. induction l as [|a [|b l] IH]; intros E; [discriminate|cbn in *; congruence|]. cbn [length] in *. apply IH. replace (Datatypes.S (Datatypes.S (length l)) - 1)%nat with (Datatypes.S (length l)) in E by lia.
    replace (Datatypes.S (length l) - 1)%nat with (length l) by lia. exact E.
  Qed.
  Definition ap : list R := (a1 - a0 - 2 * PI) :: sh ++ [2 * PI].
  Lemma ap_sorted : StronglySorted Rlt ap.
  Proof.
    unfold ap. pose proof PI_RGT_0. constructor.
    - apply sorted_app; [now apply sorted_shift|]. apply Forall_map. eapply Forall_impl; [|exact (sorted_last _ _ S E1)]. cbv beta. intros; lra.
    - apply Forall_app. split; [|repeat constructor; pose proof (proj1 (Forall_forall _ _) (sorted_first _ _ S E0) a1 (nth_error_In _ _ E1)); cbv beta in *; lra].
      apply Forall_map. eapply Forall_impl; [|exact (sorted_first _ _ S E0)]. cbv beta. intros; lra.
  Qed.
  Lemma ap_length : length ap = (length angles + 2)%nat.
  Proof. unfold ap. cbn. rewrite app_length, map_length. cbn. lia. Qed.
  (** the cell of an angle *)
  Lemma ap_cell t : 0 <= t < 2 * PI -> let m := cell t ap in exists l a b l' z, follows angles l a b l' /\ a <= t + a0 + 2 * PI * IZR z <= b /\ a < b /\
    frac t ap m * (b - a) = t + a0 + 2 * PI * IZR z - a /\
    forall p k, nc p = length angles -> padded p k m = px p k l /\ padded p k (Datatypes.S m) = px p k l'.
  Proof.
    intros Ht m. pose proof PI_RGT_0. pose proof (proj1 (Forall_forall _ _) (sorted_first _ _ S E0) a1 (nth_error_In _ _ E1)) as H01. cbv beta in H01.
    assert (Hl : (0 < length angles)%nat) by (pose proof nonempty; destruct angles; [easy|cbn; lia]).
    destruct (cell_ok ap t ap_sorted) as (a & b & A & B & C & D). { rewrite ap_length. lia. } { unfold ap. cbn [hd]. rewrite app_comm_cons, last_app_one. lra. }
    fold m in A, B. assert (F : frac t ap m = (t - a) / (b - a)). { unfold frac. now rewrite (nth_error_nth _ _ _ A), (nth_error_nth _ _ _ B). }
    destruct m as [|m].
    - cbn in A. injection A as <-. exists (length angles - 1)%nat, a1, (a0 + 2 * PI), 0%nat, 1%Z.
      assert (Eb : b = 0). { unfold ap in B. cbn in B. destruct angles as [|x l]; [discriminate|]. injection E0 as ->. cbn in B. injection B as <-. ring. } subst b.
      split; [split; [exact E1|right; split; [lia|split; [reflexivity|eauto]]]|]. split; [lra|]. split; [lra|]. split; [rewrite F; field; lra|].
      intros p k Hp. split; [unfold padded; cbn; now rewrite Hp|]. apply padded_mid. lia.
    - assert (Hm : (m < length angles)%nat). { assert (Datatypes.S (Datatypes.S m) < length ap)%nat by (apply nth_error_Some; congruence). rewrite ap_length in *. lia. }
      change (nth_error (sh ++ [2 * PI]) m = Some a) in A. change (nth_error (sh ++ [2 * PI]) (Datatypes.S m) = Some b) in B. rewrite nth_error_app1 in A by (rewrite map_length; lia). rewrite nth_error_map in A. destruct (nth_error angles m) as [am|] eqn:Em; [|discriminate]. injection A as <-.
      destruct (Nat.eq_dec (Datatypes.S m) (length angles)) as [Hlast|Hlast].
      + rewrite nth_error_app2 in B by (rewrite map_length; lia). rewrite map_length, Hlast, Nat.sub_diag in B. injection B as <-.
        exists m, am, (a0 + 2 * PI), 0%nat, 0%Z. split; [split; [exact Em|right; split; [exact Hlast|split; [reflexivity|eauto]]]|]. split; [lra|]. split; [lra|]. split; [rewrite F; field; lra|].
        intros p k Hp. split; [apply padded_mid; lia|]. rewrite Hlast, <- Hp. apply padded_end.
      + rewrite nth_error_app1 in B by (rewrite map_length; lia). rewrite nth_error_map in B. destruct (nth_error angles (Datatypes.S m)) as [bm|] eqn:Eb; [|discriminate]. injection B as <-.
        exists m, am, bm, (Datatypes.S m), 0%Z. split; [split; [exact Em|left; auto]|]. split; [lra|]. split; [lra|]. split; [rewrite F; field; lra|].
        intros p k Hp. split; apply padded_mid; lia.
  Qed.
End Valid.

Lemma interpolate_ok radii angles a0 a1 p r phi : StronglySorted Rlt radii -> (2 <= length radii)%nat -> StronglySorted Rlt angles -> nth_error angles 0 = Some a0 -> nth_error angles (length angles - 1) = Some a1 -> a1 < a0 + 2 * PI ->
  nc p = length angles -> let v := interpolate radii (ap angles a0 a1) (padded p) r (fmod (phi - a0)) in
  (r < hd 0 radii \/ last radii 0 < r -> v = None) /\ (hd 0 radii <= r <= last radii 0 -> blended radii angles (px p) r phi v).
Proof.
  intros Sr Lr S E0 E1 T Hp v. unfold v, interpolate. clear v. split.
  - intros H. destruct (Rlt_dec r (hd 0 radii)); [reflexivity|]. destruct (Rlt_dec (last radii 0) r); [reflexivity|]. lra.
  - intros H. destruct (Rlt_dec r (hd 0 radii)); [lra|]. destruct (Rlt_dec (last radii 0) r); [lra|]. pose proof PI_RGT_0.
    pose proof (fmod_range (phi - a0)) as Ft. destruct (fmod_turns (phi - a0)) as [z Ez]. set (t := fmod (phi - a0)) in *. clearbody t.
    pose proof (proj1 (Forall_forall _ _) (sorted_first _ _ S E0) a1 (nth_error_In _ _ E1)) as H01. cbv beta in H01.
    destruct (Rlt_dec t (hd 0 (ap angles a0 a1))) as [X|_]; [cbn in X; lra|]. destruct (Rlt_dec (last (ap angles a0 a1) 0) t) as [X|_]; [unfold ap in X; rewrite app_comm_cons, last_app_one in X; lra|].
    destruct (cell_ok radii r Sr Lr H) as (r0 & r1 & A & B & C & D).
    destruct (ap_cell angles a0 a1 S E0 E1 T t Ft) as (l & a & b & l' & z' & Fo & G & Hab & Fr & P).
    exists (cell r radii), r0, r1, l, a, b, l', (z + z')%Z. split; [exact A|]. split; [exact B|]. split; [exact C|]. split; [exact Fo|].
    assert (Et : phi + 2 * PI * IZR (z + z') = t + a0 + 2 * PI * IZR z') by (rewrite plus_IZR, Ez; ring). cbv zeta. rewrite Et. split; [exact G|].
    destruct (P p (cell r radii) Hp) as [P1 P2]. destruct (P p (Datatypes.S (cell r radii)) Hp) as [P3 P4]. rewrite P1, P2, P3, P4.
    destruct (px p (cell r radii) l) as [v00|]; [|reflexivity]. cbn [bind]. destruct (px p (cell r radii) l') as [v01|]; [|reflexivity]. cbn [bind].
    destruct (px p (Datatypes.S (cell r radii)) l) as [v10|]; [|reflexivity]. cbn [bind]. destruct (px p (Datatypes.S (cell r radii)) l') as [v11|]; [|reflexivity]. cbn [bind].
    eexists. split; [reflexivity|]. set (s := frac t (ap angles a0 a1) (cell t (ap angles a0 a1))) in *.
    assert (Eu : frac r radii (cell r radii) * (r1 - r0) = r - r0). { unfold frac. rewrite (nth_error_nth _ _ _ A), (nth_error_nth _ _ _ B). field. lra. }
    set (u := frac r radii (cell r radii)) in *. set (th := t + a0 + 2 * PI * IZR z') in *.
    replace (th - a) with (s * (b - a)) by lra. replace (b - th) with ((1 - s) * (b - a)) by lra. replace (r - r0) with (u * (r1 - r0)) by lra. replace (r1 - r) with ((1 - u) * (r1 - r0)) by lra. ring.
Qed.
Lemma combine_nth_error {A B} (l : list A) (m : list B) i a b : nth_error l i = Some a -> nth_error m i = Some b -> nth_error (combine l m) i = Some (a, b).
Proof. revert m i. induction l as [|x l IH]; intros [|y m] [|i] H1 H2; cbn in *; try discriminate; [congruence|auto]. Qed.
Lemma body_ok radii angles a0 p center size h w : StronglySorted Rlt radii -> (2 <= length radii)%nat -> one_turn angles -> nth_error angles 0 = Some a0 -> nr p = length radii -> nc p = length angles ->
  exists img, rphi_body radii a0 (map (fun a => a - a0) angles) p center size h w = Some (h, w, img) /\ length img = (h * w)%nat /\
    forall i j, (i < h)%nat -> (j < w)%nat -> exists r phi v, pixel_radius center size i j r /\ direction center size i j phi /\ nth_error img (i * w + j) = Some v /\
      (r < hd 0 radii \/ last radii 0 < r -> v = None) /\ (hd 0 radii <= r <= last radii 0 -> blended radii angles (px p) r phi v).
Proof.
  intros Sr Lr (S & a0' & a1 & E0' & E1 & T) E0 Hn Hc. assert (a0' = a0) by congruence. subst a0'. unfold rphi_body.
  rewrite (angles_mod angles a0 a1 S E0 E1 T), (sorted_non_decreasing _ (sorted_shift _ a0 S)). cbn [negb].
  pose proof sh_hd as X1; pose proof sh_last as X2; rewrite (X1 angles a0 a1) by assumption; rewrite (X2 angles a0 a1) by assumption; clear X1 X2; rewrite Rplus_0_l. change (a1 - a0 - 2 * PI :: map (fun a => a - a0) angles ++ [2 * PI]) with (ap angles a0 a1).
  rewrite (ap_length angles a0 a1), (sorted_ascending _ (ap_sorted angles a0 a1 S E0 E1 T)), (sorted_ascending _ Sr).
  assert (Hl : (0 < length angles)%nat) by (destruct angles; [discriminate|cbn; lia]).
  replace (nc p =? 0)%nat with false by lia. replace (length radii =? nr p)%nat with true by lia. replace (length angles + 2 =? nc p + 2)%nat with true by lia. replace (2 <=? length radii)%nat with true by lia. cbn [andb negb].
  eexists. split; [reflexivity|]. destruct (C89_radial center size h w) as [L1 R1]. destruct (C89_angle center size h w) as [L2 R2].
  split; [rewrite map_length, combine_length, L1, L2; lia|]. intros i j Hi Hj.
  destruct (R1 i j _ _ Hi Hj eq_refl eq_refl) as (r & Er & Hr & Qr). destruct (R2 i j _ _ Hi Hj eq_refl eq_refl) as (phi & Ep & Bp & Cx & Cy & Z).
  assert (Es : sqrt (snd size * (INR j - snd center) * (snd size * (INR j - snd center)) + fst size * (INR i - fst center) * (fst size * (INR i - fst center))) = r).
  { rewrite <- (sqrt_square r Hr). f_equal. lra. }
  exists r, phi. eexists. split; [split; [exact Hr|lra]|]. split.
  { split; [exact Bp|]. exists r. split; [split; [exact Hr|lra]|]. rewrite Es in Cx, Cy. split; [exact Cx|]. split; [exact Cy|]. intros R0. apply Z; rewrite ?Cx, ?Cy, R0; ring. }
  split; [rewrite nth_error_map, (combine_nth_error _ _ _ _ _ Er Ep); cbn [option_map fst snd]; reflexivity|].
  apply (interpolate_ok radii angles a0 a1 p r phi); assumption.
Qed.
(** ** sets of angles spanning a turn *)
Lemma turn_detected l : forall a, StronglySorted Rle (a :: l) -> (forall k x y, nth_error (a :: l) k = Some x -> nth_error (a :: l) (S k) = Some y -> y - x < 2 * PI) ->
  (exists y, In y l /\ 2 * PI * IZR (Int_part (a / (2 * PI)) + 1) <= y) -> non_decreasing (map fmod (a :: l)) = false.
Proof.
  pose proof PI_RGT_0 as HP.
  induction l as [|b l IH]; intros a S G (y & Hy & L); [destruct Hy|]. change (map fmod (a :: b :: l)) with (fmod a :: fmod b :: map fmod l). cbn [non_decreasing].
  destruct (Rlt_dec (fmod b) (fmod a)) as [|N]; [reflexivity|]. cbn [negb andb]. change (fmod b :: map fmod l) with (map fmod (b :: l)).
  inversion S as [|? ? S' F]; subst. apply IH.
  - exact S'.
  - intros k x y' A B. apply (G (Datatypes.S k)); assumption.
  - inversion F as [|? ? Hab F']; subst. pose proof (G 0%nat a b eq_refl eq_refl) as D.
    pose proof (base_Int_part (a / (2 * PI))) as [A1 A2]. pose proof (base_Int_part (b / (2 * PI))) as [B1 B2]. unfold fmod in N.
    assert (Ea : a / (2 * PI) * (2 * PI) = a) by (field; lra). assert (Eb : b / (2 * PI) * (2 * PI) = b) by (field; lra). set (qa := a / (2 * PI)) in *. set (qb := b / (2 * PI)) in *.
    assert (Z1 : Int_part qb = Int_part qa).
    { set (za := Int_part qa) in *. set (zb := Int_part qb) in *. clearbody za zb qa qb. destruct (Z.lt_trichotomy zb za) as [X|[X|X]]; [|exact X|]; exfalso.
      - assert (IZR zb <= IZR za - 1) by (rewrite <- minus_IZR; apply IZR_le; lia). nra.
      - assert (IZR za + 1 <= IZR zb) by (rewrite <- plus_IZR; apply IZR_le; lia). nra. }
    rewrite Z1. exists y. split; [|exact L]. destruct Hy as [<-|Hy]; [|exact Hy]. exfalso. rewrite plus_IZR in L. rewrite Z1 in B2. nra.
Qed.
(** ** measured points *)
Lemma sorted_nth l : forall i j x y, StronglySorted Rlt l -> nth_error l i = Some x -> nth_error l j = Some y -> (i < j)%nat -> x < y.
Proof.
  induction l as [|a l IH]; intros i j x y S Ex Ey H; [destruct i; discriminate|]. inversion S as [|? ? S' F]; subst. destruct j as [|j]; [lia|]. cbn in Ey. destruct i as [|i].
  - cbn in Ex. injection Ex as <-. exact (proj1 (Forall_forall _ _) F y (nth_error_In _ _ Ey)).
  - cbn in Ex. apply (IH i j x y); auto. lia.
Qed.
Lemma sorted_nth_le l i j x y : StronglySorted Rlt l -> nth_error l i = Some x -> nth_error l j = Some y -> x <= y -> (i <= j)%nat.
Proof. intros S Ex Ey H. destruct (Nat.lt_ge_cases j i) as [L|L]; [|exact L]. pose proof (sorted_nth l j i y x S Ey Ex L). lra. Qed.
Lemma node_angle angles n an z l a b l' : one_turn angles -> nth_error angles n = Some an -> follows angles l a b l' -> a <= an + 2 * PI * IZR z <= b ->
  (an + 2 * PI * IZR z = a /\ l = n) \/ (an + 2 * PI * IZR z = b /\ l' = n).
Proof.
  intros (S & a0 & a1 & E0 & E1 & T) En (El & F) B. pose proof PI_RGT_0.
  assert (R : forall x, In x angles -> a0 <= x <= a1).
  { intros x Hx. pose proof (proj1 (Forall_forall _ _) (sorted_first _ _ S E0) x Hx). pose proof (proj1 (Forall_forall _ _) (sorted_last _ _ S E1) x Hx). cbv beta in *. lra. }
  pose proof (R _ (nth_error_In _ _ En)) as Rn. pose proof (R _ (nth_error_In _ _ El)) as Ra.
  destruct F as [[F ->]|(F & -> & a0' & E0' & ->)].
  - pose proof (R _ (nth_error_In _ _ F)) as Rb. assert (Z0 : z = 0%Z).
    { destruct (Z.lt_trichotomy z 0) as [L|[L|L]]; [|exact L|]; exfalso; [assert (IZR z <= -1) by (apply IZR_le; lia)|assert (1 <= IZR z) by (apply IZR_le; lia)]; nra. }
    subst z. rewrite Rmult_0_r, Rplus_0_r in *. pose proof (sorted_nth_le _ _ _ _ _ S El En (proj1 B)). pose proof (sorted_nth_le _ _ _ _ _ S En F (proj2 B)).
    destruct (Nat.eq_dec l n) as [->|D]; [left; split; congruence|]. assert (n = Datatypes.S l) as -> by lia. right. split; congruence.
  - assert (a0' = a0) by congruence. subst a0'. assert (Z0 : z = 0%Z \/ z = 1%Z).
    { destruct (Z.lt_ge_cases z 0) as [L|L]; [exfalso; assert (IZR z <= -1) by (apply IZR_le; lia); nra|]. destruct (Z.lt_ge_cases 1 z) as [L'|L']; [exfalso; assert (2 <= IZR z) by (apply IZR_le; lia); nra|]. lia. }
    destruct Z0 as [-> | ->]; [rewrite Rmult_0_r, Rplus_0_r in *|rewrite Rmult_1_r in *].
    + left. pose proof (sorted_nth_le _ _ _ _ _ S El En (proj1 B)). assert (n < length angles)%nat by (apply nth_error_Some; congruence). assert (n = l) as -> by lia. split; congruence.
    + right. assert (an = a0) by lra. subst an. split; [reflexivity|]. pose proof (sorted_nth_le _ _ _ _ _ S En E0 ltac:(lra)). lia.
Qed.
Lemma blended_node radii angles meas k l rk al z phi v : StronglySorted Rlt radii -> one_turn angles -> nth_error radii k = Some rk -> nth_error angles l = Some al -> phi = al + 2 * PI * IZR z ->
  (forall k l, (k < length radii)%nat -> (l < length angles)%nat -> meas k l <> None) -> blended radii angles meas rk phi v -> v = meas k l.
Proof.
  intros Sr O Ek El -> K (k' & r0 & r1 & l' & a & b & l'' & z' & A & B & C & Fo & D & V).
  replace (al + 2 * PI * IZR z + 2 * PI * IZR z') with (al + 2 * PI * IZR (z + z')) in * by (rewrite plus_IZR; ring).
  pose proof (node_angle _ _ _ _ _ _ _ _ O El Fo D) as N. pose proof O as (S & a0 & a1 & E0 & E1 & T).
  assert (Hk' : (Datatypes.S k' < length radii)%nat) by (apply nth_error_Some; congruence).
  assert (Hl' : (l' < length angles)%nat) by (destruct Fo as [Fo _]; apply nth_error_Some; congruence).
  assert (Hl'' : (l'' < length angles)%nat) by (destruct Fo as [_ [[Fo ->]|(Fo & -> & _)]]; [apply nth_error_Some; congruence|lia]).
  assert (Hab : a < b). { destruct Fo as [Fa [[Fb ->]|(Fb & -> & a0' & E0' & ->)]]; [apply (sorted_nth _ _ _ _ _ S Fa Fb); lia|]. assert (a0' = a0) by congruence. subst a0'. pose proof (proj1 (Forall_forall _ _) (sorted_last _ _ S E1) a (nth_error_In _ _ Fa)). cbv beta in *. lra. }
  assert (Hr : r0 < r1) by (apply (sorted_nth _ _ _ _ _ Sr A B); lia).
  assert (M : (rk = r0 /\ k = k') \/ (rk = r1 /\ k = Datatypes.S k')).
  { pose proof (sorted_nth_le _ _ _ _ _ Sr A Ek (proj1 C)). pose proof (sorted_nth_le _ _ _ _ _ Sr Ek B (proj2 C)). destruct (Nat.eq_dec k k') as [->|]; [left; split; congruence|]. assert (k = Datatypes.S k') as -> by lia. right; split; congruence. }
  pose proof (K k' l' ltac:(lia) Hl'). pose proof (K k' l'' ltac:(lia) Hl''). pose proof (K (Datatypes.S k') l' Hk' Hl'). pose proof (K (Datatypes.S k') l'' Hk' Hl'').
  destruct (meas k' l') as [v00|] eqn:M00; [|easy]. destruct (meas k' l'') as [v01|] eqn:M01; [|easy]. destruct (meas (Datatypes.S k') l') as [v10|] eqn:M10; [|easy]. destruct (meas (Datatypes.S k') l'') as [v11|] eqn:M11; [|easy].
  destruct V as (x & -> & V). assert (P : (r1 - r0) * (b - a) <> 0) by nra.
  assert (Q : forall y, x * ((r1 - r0) * (b - a)) = y * ((r1 - r0) * (b - a)) -> x = y) by (intros y Hxy; exact (Rmult_eq_reg_r _ _ _ Hxy P)).
  destruct M as [[-> ->]|[-> ->]], N as [[Nt <-]|[Nt <-]]; rewrite Nt in V; rewrite ?M00, ?M01, ?M10, ?M11; f_equal; apply Q; rewrite V; ring.
Qed.
Lemma masked_px p m k l : length (data p) = length m -> px (masked p m) k l = seen (nc p) (data p) (Some m) k l.
Proof.
  unfold px, masked, seen. cbn [nc data]. generalize (k * nc p + l)%nat as i. generalize (data p) as d. intros d. revert m. induction d as [|x d IH]; intros [|y m] i E; try discriminate; [destruct i; reflexivity|]. destruct i as [|i]; [reflexivity|]. cbn [combine map nth]. apply IH. now injection E.
Qed.
