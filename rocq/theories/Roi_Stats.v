From Verif Require Import Common QcArith Sums Roi_Model Roi_Spec Roi_Proofs.
From Coq Require Import Sorted.

(** ** Positions of foreground pixels *)
Lemma map_shift (f : nat -> nat) a w : (forall j, f j = a + j) -> map f (seq 0 w) = seq a w.
Proof.
  intros H. rewrite (map_ext _ _ H). clear H f. revert a. induction w as [|w IH]; intros a; [reflexivity|].
  cbn [seq map]. rewrite Nat.add_0_r. f_equal. rewrite <- seq_shift, map_map, <- (IH (S a)).
  apply map_ext. intros j. lia.
Qed.
Lemma grid_seq h w : concat (tab2 h w (fun i j => flat_index w i j)) = seq 0 (h * w).
Proof.
  unfold tab2, flat_index.
  assert (G : forall s, concat (map (fun i => map (fun j => i * w + j) (seq 0 w)) (seq s h)) = seq (s * w) (h * w)).
  { induction h as [|h IH]; intros s; [reflexivity|]. cbn [seq map concat Nat.mul]. rewrite IH.
    rewrite (map_shift _ (s * w)) by (intros; lia). rewrite seq_app. do 2 f_equal; lia. }
  apply (G 0).
Qed.
Lemma shaped_concat {A} h w (g : list (list A)) : shaped h w g -> length (concat g) = h * w.
Proof. intros [<- HF]. induction HF as [|r g Hr HF IH]; cbn; [reflexivity|]. rewrite app_length, IH, Hr. reflexivity. Qed.

Section Pos.
Variable f : Z -> bool.
Definition sel (L : list Z) (s : nat) : list (Z * nat) := filter (fun p => f (fst p)) (combine L (seq s (length L))).
Lemma sel_cons x L s : sel (x :: L) s = if f x then (x, s) :: sel L (S s) else sel L (S s).
Proof. reflexivity. Qed.
Lemma sel_fst L s : filter f L = map fst (sel L s).
Proof. revert s. induction L as [|x L IH]; intros s; [reflexivity|]. rewrite sel_cons. cbn [filter]. destruct (f x); cbn [map fst]; rewrite (IH (S s)); reflexivity. Qed.
Lemma sel_In L s z p : In (z, p) (sel L s) <-> exists i, p = s + i /\ nth_error L i = Some z /\ f z = true.
Proof.
  revert s. induction L as [|x L IH]; intros s.
  - split; [intros []|]. intros [i [_ [H _]]]. destruct i; discriminate.
  - rewrite sel_cons. split.
    + intros H. assert (H' : (f x = true /\ (z, p) = (x, s)) \/ In (z, p) (sel L (S s))).
      { destruct (f x) eqn:E; [destruct H as [H|H]; [left; auto|right; exact H]|right; exact H]. }
      destruct H' as [[E H']|H'].
      * injection H' as -> ->. exists 0. split; [lia|]. split; [reflexivity|exact E].
      * apply IH in H'. destruct H' as [i [-> [Hi Hf]]]. exists (S i). split; [lia|]. auto.
    + intros [[|i] [-> [Hi Hf]]].
      * cbn in Hi. injection Hi as ->. rewrite Hf. left. f_equal. lia.
      * cbn in Hi. assert (In (z, s + S i) (sel L (S s))) by (apply IH; exists i; split; [lia|auto]).
        destruct (f x); [right|]; assumption.
Qed.
Lemma sel_sorted L s : StronglySorted lt (map snd (sel L s)).
Proof.
  revert s. induction L as [|x L IH]; intros s; [constructor|]. rewrite sel_cons. destruct (f x); [|apply IH].
  cbn [map snd]. constructor; [apply IH|]. apply Forall_forall. intros p Hp. apply in_map_iff in Hp.
  destruct Hp as [[z q] [<- Hq]]. apply sel_In in Hq. destruct Hq as [i [-> _]]. cbn. lia.
Qed.
End Pos.

Theorem extract_ok h w labels : shaped h w labels ->
  let (m, px) := extract_label_indices h w labels in
  length m = length px /\ StronglySorted lt px /\
  (forall i j, i < h -> j < w -> (In (i * w + j) px <-> exists z, get2 labels i j = Some z /\ (0 < z)%Z)) /\
  (forall p, In p px -> p < h * w) /\
  (forall n p, nth_error px n = Some p -> nth_error m n = nth_error (concat labels) p).
Proof.
  intros HS. unfold extract_label_indices. rewrite grid_seq. pose proof (shaped_concat h w labels HS) as HL.
  rewrite <- HL. set (L := concat labels) in *.
  change (filter (fun p => (0 <? fst p)%Z) (combine L (seq 0 (length L)))) with (sel (fun x => (0 <? x)%Z) L 0).
  rewrite (sel_fst (fun x => (0 <? x)%Z) L 0). rewrite !map_length. split; [reflexivity|]. split; [apply sel_sorted|].
  split; [|split].
  - intros i j Hi Hj. rewrite <- (nth_error_concat_rect labels h w HS i j Hj). fold L. split.
    + intros H. apply in_map_iff in H. destruct H as [[z p] [E H]]. cbn in E. subst p. apply sel_In in H.
      destruct H as [k [Ek [H1 H2]]]. cbn in Ek. subst k. exists z. split; [exact H1|lia].
    + intros [z [H1 H2]]. apply in_map_iff. exists (z, i * w + j). split; [reflexivity|]. apply sel_In.
      exists (i * w + j). split; [lia|]. split; [exact H1|lia].
  - intros p H. apply in_map_iff in H. destruct H as [[z q] [<- H]]. apply sel_In in H. destruct H as [k [-> [H _]]].
    cbn. apply nth_error_Some. congruence.
  - intros n p H. rewrite nth_error_map in H. destruct (nth_error (sel _ L 0) n) as [[z q]|] eqn:E; [|discriminate].
    cbn in H. injection H as ->. rewrite nth_error_map, E. cbn. apply nth_error_In, sel_In in E.
    destruct E as [k [-> [E _]]]. cbn. symmetry. exact E.
Qed.

(** ** Selecting pixels *)
Lemma select_picked {A} f labels (image : list A) : length labels = length image -> forall s,
  picked (fun p => exists z, nth_error labels (p - s) = Some z /\ f z = true) s image (select f labels image).
Proof.
  revert image. induction labels as [|z labels IH]; intros [|x image] HL s; cbn in HL; try lia; [constructor|].
  assert (HP : forall P Q i (l r : list A), (forall p, i <= p -> (P p <-> Q p)) -> picked P i l r -> picked Q i l r).
  { clear. intros P Q i l r HPQ H. revert HPQ. induction H; intros HPQ; [constructor| |].
    - apply picked_yes; [apply HPQ; [lia|assumption]|]. apply IHpicked. intros p Hp. apply HPQ. lia.
    - apply picked_no; [rewrite <- HPQ by lia; assumption|]. apply IHpicked. intros p Hp. apply HPQ. lia. }
  unfold select. cbn [combine filter fst]. destruct (f z) eqn:E; cbn [map snd].
  - apply picked_yes.
    + exists z. rewrite Nat.sub_diag. auto.
    + eapply HP; [|apply (IH image ltac:(lia) (S s))]. intros p Hp. replace (p - s) with (S (p - S s)) by lia. reflexivity.
  - apply picked_no.
    + intros [y [H1 H2]]. rewrite Nat.sub_diag in H1. cbn in H1. injection H1 as ->. congruence.
    + eapply HP; [|apply (IH image ltac:(lia) (S s))]. intros p Hp. replace (p - s) with (S (p - S s)) by lia. reflexivity.
Qed.
Lemma picked_iff {A} (P Q : nat -> Prop) i (l r : list A) : (forall p, i <= p -> (P p <-> Q p)) -> picked P i l r -> picked Q i l r.
Proof.
  intros HPQ H. revert HPQ. induction H; intros HPQ; [constructor| |].
  - apply picked_yes; [apply HPQ; [lia|assumption]|]. apply IHpicked. intros p Hp. apply HPQ. lia.
  - apply picked_no; [rewrite <- HPQ by lia; assumption|]. apply IHpicked. intros p Hp. apply HPQ. lia.
Qed.
Lemma select_eq_picked {A} n labels (image : list A) : length labels = length image ->
  picked (fun p => nth_error labels p = Some n) 0 image (select (Z.eqb n) labels image).
Proof.
  intros HL. eapply picked_iff; [|apply (select_picked (Z.eqb n) labels image HL 0)].
  intros p _. cbn beta. split.
  - intros [z [H1 H2]]. apply Z.eqb_eq in H2. rewrite Nat.sub_0_r in H1. subst z. exact H1.
  - intros H. exists n. rewrite Z.eqb_refl, Nat.sub_0_r. auto.
Qed.
Lemma zmax_ge l m : zmax l = Some m -> (forall x, In x l -> (x <= m)%Z) /\ In m l.
Proof.
  destruct l as [|a l]; [discriminate|]. cbn [zmax]. intros E. injection E as <-.
  revert a. induction l as [|b l IH]; intros a; cbn [fold_left].
  - split; [intros x [<-|[]]; lia|left; reflexivity].
  - destruct (IH (Z.max a b)) as [H1 H2]. pose proof (H1 _ (or_introl eq_refl)). split.
    + intros x [<-|[<-|Hx]]; [lia|lia|apply H1; right; exact Hx].
    + destruct H2 as [H2|H2]; [|right; right; exact H2].
      destruct (Z.max_spec a b) as [[_ E]|[_ E]]; rewrite <- H2, E; [right; left|left]; reflexivity.
Qed.
Theorem pixel_values_ok {A} (image : list A) labels index : labels <> [] -> length labels = length image ->
  exists vs idx, roi_pixel_values image labels index = Some (vs, idx) /\
    (forall l, index = Some l -> idx = l) /\
    (index = None -> forall z, In z idx <-> (1 <= z)%Z /\ exists y, In y labels /\ (z <= y)%Z) /\
    Forall2 (fun n v => picked (fun p => nth_error labels p = Some n) 0 image v) idx vs.
Proof.
  intros Hne HL. unfold roi_pixel_values. rewrite (proj2 (Nat.eqb_eq _ _) HL). cbn [negb].
  assert (HF : forall idx, Forall2 (fun n v => picked (fun p => nth_error labels p = Some n) 0 image v) idx
      (map (fun n => select (Z.eqb n) labels image) idx)).
  { induction idx as [|n idx IH]; cbn; constructor; [apply select_eq_picked; exact HL|exact IH]. }
  destruct index as [l|]; cbn [bind].
  - eexists _, _. split; [reflexivity|]. split; [intros l' E; congruence|]. split; [discriminate|]. apply HF.
  - unfold index_default. destruct (zmax labels) as [m|] eqn:Em; [|destruct labels; [congruence|discriminate]].
    cbn [bind]. eexists _, _. split; [reflexivity|]. split; [discriminate|]. split; [|apply HF].
    intros _ z. destruct (zmax_ge _ _ Em) as [H1 H2]. split.
    + intros H. apply in_map_iff in H. destruct H as [k [<- Hk]]. apply in_seq in Hk. split; [lia|].
      exists m. split; [exact H2|]. lia.
    + intros [H3 [y [Hy Hz]]]. specialize (H1 y Hy). apply in_map_iff. exists (Z.to_nat z). split; [lia|]. apply in_seq. lia.
Qed.
(** Grouping the extracted pixels by label gives the same lists. *)
Theorem extract_groups {A} h w labels (image : list A) d n : shaped h w labels -> length image = h * w -> (0 < n)%Z ->
  let (m, px) := extract_label_indices h w labels in
  picked (fun p => nth_error (concat labels) p = Some n) 0 image
    (map snd (filter (fun q => (fst q =? n)%Z) (combine m (map (fun p => nth p image d) px)))).
Proof.
  intros HS HI Hn. unfold extract_label_indices. rewrite grid_seq. pose proof (shaped_concat h w labels HS) as HL.
  rewrite <- HL in *. set (L := concat labels) in *.
  change (filter (fun p => (0 <? fst p)%Z) (combine L (seq 0 (length L)))) with (sel (fun x => (0 <? x)%Z) L 0).
  rewrite (sel_fst (fun x => (0 <? x)%Z) L 0).
  assert (E : forall L (im : list A) s, length L = length im ->
    map snd (filter (fun q => (fst q =? n)%Z) (combine (map fst (sel (fun x => (0 <? x)%Z) L s))
       (map (fun p => nth (p - s) im d) (map snd (sel (fun x => (0 <? x)%Z) L s))))) = select (Z.eqb n) L im).
  { clear -Hn. induction L as [|x L IH]; intros [|y im] s HL; cbn in HL; try lia; [reflexivity|].
    rewrite sel_cons. unfold select. cbn [combine filter fst].
    assert (ES : map (fun p => nth (p - s) (y :: im) d) (map snd (sel (fun x => (0 <? x)%Z) L (S s)))
               = map (fun p => nth (p - S s) im d) (map snd (sel (fun x => (0 <? x)%Z) L (S s)))).
    { apply map_ext_in. intros p Hp. apply in_map_iff in Hp. destruct Hp as [[z q] [<- Hq]]. apply sel_In in Hq.
      destruct Hq as [i [-> _]]. cbn [snd]. replace (S s + i - s) with (S (S s + i - S s)) by lia. reflexivity. }
    destruct (Z.ltb_spec 0 x) as [Hx|Hx].
    - cbn [map combine filter fst snd]. rewrite (Z.eqb_sym x n). rewrite ES. destruct (n =? x)%Z; cbn [map snd].
      + rewrite Nat.sub_diag. cbn [nth]. f_equal. apply IH. lia.
      + apply IH. lia.
    - replace (n =? x)%Z with false by lia. rewrite ES. apply IH. lia. }
  specialize (E L image 0 (eq_sym HI)).
  rewrite (map_ext (fun p => nth p image d) (fun p => nth (p - 0) image d)) by (intros; rewrite Nat.sub_0_r; reflexivity).
  rewrite E. apply select_eq_picked. symmetry. exact HI.
Qed.

(** ** kymograph *)
Lemma bool_select {A} labels num (image : list A) : length labels = length image ->
  select (Z.eqb 1) (bool_labels labels num) image = select (Z.eqb num) labels image.
Proof.
  revert image. induction labels as [|z l IH]; intros [|x image] H; cbn in H; try lia; [reflexivity|].
  unfold select in *. cbn [bool_labels map combine filter fst]. rewrite (Z.eqb_sym num z).
  specialize (IH image ltac:(lia)). destruct (z =? num)%Z; cbn [Z.eqb Pos.eqb map snd]; [f_equal|]; exact IH.
Qed.
Lemma bool_max labels num : labels <> [] -> zmax (bool_labels labels num) = Some (if existsb (Z.eqb num) labels then 1 else 0)%Z.
Proof.
  destruct labels as [|z l]; [congruence|]. intros _. cbn [bool_labels map zmax]. f_equal.
  assert (G : forall l a, (a = 0 \/ a = 1)%Z -> fold_left Z.max (map (fun x => if (x =? num)%Z then 1%Z else 0%Z) l) a
    = if existsb (Z.eqb num) l then 1%Z else a).
  { clear. induction l as [|y l IH]; intros a Ha; [reflexivity|]. cbn [map fold_left existsb]. rewrite IH.
    - rewrite (Z.eqb_sym num y). destruct (y =? num)%Z; cbn [orb]; destruct (existsb _ l); lia.
    - destruct (y =? num)%Z; lia. }
  rewrite G by (destruct (z =? num)%Z; auto). cbn [existsb]. rewrite (Z.eqb_sym num z).
  destruct (z =? num)%Z; cbn [orb]; destruct (existsb _ l); reflexivity.
Qed.
Lemma select_none {A} labels num (image : list A) : existsb (Z.eqb num) labels = false -> select (Z.eqb num) labels image = [].
Proof.
  revert image. induction labels as [|z l IH]; intros image H; [reflexivity|]. cbn in H. apply orb_false_iff in H.
  destruct H as [H1 H2]. destruct image as [|x image]; [reflexivity|]. unfold select. cbn [combine filter fst]. rewrite H1. apply IH. exact H2.
Qed.
Theorem kymograph_ok {A} (images : list (list A)) labels num : images <> [] -> labels <> [] ->
  Forall (fun im => length im = length labels) images ->
  exists rows, kymograph images labels num = Some rows /\
    Forall2 (fun im row => picked (fun p => nth_error labels p = Some num) 0 im row) images rows.
Proof.
  intros Hi Hl HF. unfold kymograph. destruct images as [|i0 rest]; [congruence|].
  generalize dependent (i0 :: rest). clear i0 rest. intros images _ HF.
  induction HF as [|im images Him HF IH].
  - exists []. split; [reflexivity|constructor].
  - destruct IH as [rows [E R]]. cbn [kymo_rows].
    unfold roi_pixel_values. unfold bool_labels at 1. rewrite map_length, Him, Nat.eqb_refl. cbn [negb].
    unfold index_default. rewrite bool_max by exact Hl. cbn [bind].
    destruct (existsb (Z.eqb num) labels) eqn:Ex.
    + change (map Z.of_nat (seq 1 (Z.to_nat 1))) with [1%Z]. cbn [map bind fst concat]. rewrite E. cbn [bind].
      rewrite app_nil_r, bool_select by (symmetry; exact Him). eexists. split; [reflexivity|].
      constructor; [apply select_eq_picked; symmetry; exact Him|exact R].
    + change (map Z.of_nat (seq 1 (Z.to_nat 0))) with (@nil Z). cbn [map bind fst concat]. rewrite E. cbn [bind].
      eexists. split; [reflexivity|]. constructor; [|exact R].
      rewrite <- (select_none labels num im Ex). apply select_eq_picked. symmetry; exact Him.
Qed.

(** ** roi_max_counts *)
Lemma qmax2_ge a b : (a <= qmax2 a b)%Qc /\ (b <= qmax2 a b)%Qc /\ (qmax2 a b = a \/ qmax2 a b = b).
Proof.
  unfold qmax2. destruct (Qc_ltb_spec a b) as [H|H].
  - split; [apply Qclt_le_weak; exact H|]. split; [apply Qcle_refl|right; reflexivity].
  - split; [apply Qcle_refl|]. split; [apply Qcnot_lt_le; exact H|left; reflexivity].
Qed.
Lemma lmax_ok l m : lmax l = Some m -> (forall x, In x l -> (x <= m)%Qc) /\ In m l.
Proof.
  destruct l as [|a l]; [discriminate|]. cbn [lmax]. intros E. apply some_inj in E. subst m.
  revert a. induction l as [|b l IH]; intros a; cbn [fold_left].
  - split; [intros x [<-|[]]; apply Qcle_refl|left; reflexivity].
  - destruct (IH (qmax2 a b)) as [H1 H2]. destruct (qmax2_ge a b) as [G1 [G2 G3]].
    pose proof (H1 _ (or_introl eq_refl)) as H0. split.
    + intros x [<-|[<-|Hx]]; [eauto using Qcle_trans|eauto using Qcle_trans|apply H1; right; exact Hx].
    + destruct H2 as [H2|H2]; [|right; right; exact H2]. rewrite <- H2. destruct G3 as [-> | ->]; [left|right; left]; reflexivity.
Qed.
Definition roi_pixels (labels : list Z) (imgs : list (list Qc)) : list Qc :=
  flat_map (select (fun z => (0 <? z)%Z) labels) imgs.
Lemma is_max0_step m x l1 l2 : is_max0 m l1 -> (forall y, In y l2 -> (y <= x)%Qc) -> In x l2 -> is_max0 (qmax2 m x) (l1 ++ l2).
Proof.
  intros [M1 [M2 M3]] X1 X2. destruct (qmax2_ge m x) as [G1 [G2 G3]]. split; [eauto using Qcle_trans|]. split.
  - intros y Hy. apply in_app_or in Hy. destruct Hy as [Hy|Hy]; eauto using Qcle_trans.
  - destruct G3 as [-> | ->].
    + destruct M3 as [M3|M3]; [left; exact M3|right; apply in_or_app; left; exact M3].
    + right. apply in_or_app. right. exact X2.
Qed.
Lemma max_fold labels imgs : Forall (fun im => length im = length labels) imgs ->
  (exists z, In z labels /\ (0 < z)%Z) -> forall m l0, is_max0 m l0 ->
  exists m', foldM (max_step labels) imgs m = Some m' /\ is_max0 m' (l0 ++ roi_pixels labels imgs).
Proof.
  intros HF [z [Hz1 Hz2]]. induction HF as [|im imgs Him HF IH]; intros m l0 HM.
  - exists m. cbn. rewrite app_nil_r. auto.
  - cbn [foldM roi_pixels flat_map]. unfold max_step at 1.
    destruct (lmax (select (fun z => (0 <? z)%Z) labels im)) as [x|] eqn:E.
    + cbn [bind]. destruct (lmax_ok _ _ E) as [X1 X2]. destruct (IH (qmax2 m x) _ (is_max0_step _ _ _ _ HM X1 X2)) as [m' [E' M']].
      exists m'. split; [exact E'|]. rewrite <- app_assoc in M'. exact M'.
    + exfalso. destruct (select (fun z => (0 <? z)%Z) labels im) as [|? ?] eqn:Es; [|discriminate].
      apply In_nth_error in Hz1. destruct Hz1 as [p Hp].
      destruct (nth_error im p) as [v|] eqn:Ev.
      2:{ apply nth_error_None in Ev. assert (p < length labels) by (apply nth_error_Some; congruence). lia. }
      assert (Hin : In (z, v) (combine labels im)).
      { clear -Hp Ev. revert p im Hp Ev. induction labels as [|a l IH]; intros [|p] [|b im] Hp Ev; cbn in *; try discriminate.
        - left. congruence.
        - right. eapply IH; eauto. }
      assert (In v (select (fun z => (0 <? z)%Z) labels im)).
      { unfold select. apply in_map_iff. exists (z, v). split; [reflexivity|]. apply filter_In. split; [exact Hin|]. cbn. lia. }
      rewrite Es in H. destruct H.
Qed.
Theorem roi_max_ok sets labels : (exists z, In z labels /\ (0 < z)%Z) ->
  Forall (fun im => length im = length labels) (concat sets) ->
  exists m, roi_max_counts sets labels = Some m /\ is_max0 m (roi_pixels labels (concat sets)).
Proof.
  intros Hz HF. unfold roi_max_counts.
  assert (G : forall m l0, is_max0 m l0 -> exists m',
    foldM (fun m imgs => foldM (max_step labels) imgs m) sets m = Some m' /\ is_max0 m' (l0 ++ roi_pixels labels (concat sets))).
  { induction sets as [|s sets IH]; intros m l0 HM.
    - exists m. cbn. rewrite app_nil_r. auto.
    - cbn [concat] in *. apply Forall_app in HF. destruct HF as [H1 H2].
      cbn [foldM]. destruct (max_fold labels s H1 Hz m l0 HM) as [m1 [E1 M1]]. rewrite E1. cbn [bind].
      destruct (IH H2 m1 _ M1) as [m2 [E2 M2]]. exists m2. split; [exact E2|].
      rewrite <- app_assoc in M2. unfold roi_pixels in *. rewrite flat_map_app. exact M2. }
  destruct (G 0%Qc [] ltac:(split; [apply Qcle_refl|]; split; [intros ? []|left; reflexivity])) as [m [E M]]. exists m. auto.
Qed.

(** ** mean_intensity *)
Lemma insert_u_In x l y : In y (insert_u x l) <-> y = x \/ In y l.
Proof.
  induction l as [|a l IH]; cbn; [intuition|]. destruct (Z.ltb_spec x a); [cbn; intuition|].
  destruct (Z.eqb_spec x a) as [->|]; [cbn; intuition|]. cbn. rewrite IH. intuition.
Qed.
Lemma insert_u_sorted x l : StronglySorted Z.lt l -> StronglySorted Z.lt (insert_u x l).
Proof.
  induction 1 as [|a l HS IH HF]; cbn; [repeat constructor|]. destruct (Z.ltb_spec x a).
  - constructor; [constructor; assumption|]. constructor; [assumption|]. eapply Forall_impl; [|exact HF]. cbn. intros; lia.
  - destruct (Z.eqb_spec x a) as [->|]; [constructor; assumption|]. constructor; [exact IH|].
    apply Forall_forall. intros y Hy. apply insert_u_In in Hy. destruct Hy as [->|Hy]; [lia|].
    rewrite Forall_forall in HF. auto.
Qed.
Lemma unique_ok l : StronglySorted Z.lt (unique l) /\ forall y, In y (unique l) <-> In y l.
Proof.
  unfold unique. induction l as [|a l [H1 H2]]; cbn; [split; [constructor|tauto]|].
  split; [apply insert_u_sorted; exact H1|]. intros y. rewrite insert_u_In, H2. intuition.
Qed.
Lemma remove_first_ok x l : StronglySorted Z.lt l ->
  (In x l -> exists r, remove_first x l = Some r /\ StronglySorted Z.lt r /\ forall y, In y r <-> In y l /\ y <> x) /\
  (~ In x l -> remove_first x l = None).
Proof.
  induction 1 as [|a l HS IH HF]; cbn [remove_first].
  - split; [intros []|reflexivity].
  - rewrite Forall_forall in HF. destruct (Z.eqb_spec x a) as [->|Hne].
    + split; [|intros H; exfalso; apply H; left; reflexivity]. intros _. exists l. split; [reflexivity|]. split; [exact HS|].
      intros y. split; [|intros [[<-|Hy] Hn]; [congruence|exact Hy]]. intros Hy. specialize (HF y Hy). split; [right; exact Hy|lia].
    + destruct IH as [IH1 IH2]. split.
      * intros [->|Hx]; [congruence|]. destruct (IH1 Hx) as [r [E [R1 R2]]]. rewrite E. cbn [bind]. eexists. split; [reflexivity|].
        split.
        -- constructor; [exact R1|]. apply Forall_forall. intros y Hy. apply HF, R2. exact Hy.
        -- intros y. cbn. rewrite R2. split; [intros [<-|[H1 H2]]; auto|]. intros [[<-|H1] H2]; auto.
      * intros Hx. rewrite IH2; [reflexivity|]. intros H. apply Hx. right. exact H.
Qed.
Lemma nd_mean_ok labels img n : length labels = length img -> mean_is labels img n (nd_mean labels img n).
Proof. intros H. exists (select (Z.eqb n) labels img). split; [apply select_eq_picked; exact H|]. unfold nd_mean. destruct (select _ _ _); reflexivity. Qed.
Lemma means_ok labels images idx : Forall (fun im => length im = length labels) images ->
  Forall2 (fun img row => Forall2 (mean_is labels img) idx row) images (map (fun img => map (nd_mean labels img) idx) images).
Proof.
  induction 1 as [|im images Him HF IH]; cbn; constructor; [|exact IH].
  clear IH. induction idx as [|n idx IH]; cbn; constructor; [apply nd_mean_ok; symmetry; exact Him|exact IH].
Qed.
Theorem mean_intensity_ok images labels : images <> [] -> Forall (fun im => length im = length labels) images ->
  (In 0%Z labels -> exists out idx, mean_intensity images labels IxAll = Some (out, idx) /\
     StronglySorted Z.lt idx /\ (forall z, In z idx <-> In z labels /\ z <> 0%Z) /\
     Forall2 (fun img row => Forall2 (mean_is labels img) idx row) images out) /\
  (~ In 0%Z labels -> mean_intensity images labels IxAll = None) /\
  (forall l, exists out, mean_intensity images labels (IxList l) = Some (out, l) /\
     Forall2 (fun img row => Forall2 (mean_is labels img) l row) images out).
Proof.
  intros Hne HF. unfold mean_intensity. destruct images as [|im0 rest] eqn:Ei; [congruence|]. rewrite <- Ei in *.
  assert (HL0 : length labels =? length im0 = true).
  { rewrite Ei in HF. inversion HF as [|? ? H0 _]; subst. apply Nat.eqb_eq. symmetry. exact H0. }
  rewrite HL0. cbn [negb]. destruct (unique_ok labels) as [U1 U2]. destruct (remove_first_ok 0%Z _ U1) as [R1 R2]. split; [|split].
  - intros H0. apply U2 in H0. destruct (R1 H0) as [idx [E [S1 S2]]]. rewrite E. cbn [bind]. eexists _, idx. split; [reflexivity|].
    split; [exact S1|]. split; [intros z; rewrite S2, U2; reflexivity|]. apply means_ok. exact HF.
  - intros H0. rewrite R2; [reflexivity|]. rewrite U2. exact H0.
  - intros l. cbn [bind]. eexists. split; [reflexivity|]. apply means_ok. exact HF.
Qed.
(** Every listed label of the default index has pixels, so its mean is a number. *)
Lemma picked_nonempty {A} (P : nat -> Prop) i (l r : list A) p : picked P i l r -> i <= p < i + length l -> P p -> r <> [].
Proof.
  induction 1 as [|i x l r HP H IH|i x l r HP H IH]; intros Hp HPp; [cbn in Hp; lia|discriminate|].
  destruct (Nat.eq_dec p i) as [->|]; [contradiction|]. apply IH; [cbn in Hp; lia|exact HPp].
Qed.
(** ** bar in terms of the specification *)
Lemma inside_half_open x iv : inside Qc_leb x iv <-> half_open x iv.
Proof.
  unfold inside, half_open. pose proof (Qcle_not_lt (snd iv) x). pose proof (Qcnot_le_lt (snd iv) x).
  destruct (Qc_leb_spec (fst iv) x), (Qc_leb_spec (snd iv) x); intuition discriminate.
Qed.
Lemma ordered_nondecreasing l : ordered Qc_leb l = true <-> nondecreasing l.
Proof.
  induction l as [|a l IH].
  - split; [intros _ k x y E; destruct k; discriminate|reflexivity].
  - destruct l as [|b l].
    + split; [intros _ k x y _ E; destruct k as [|[|k]]; discriminate|reflexivity].
    + change (ordered Qc_leb (a :: b :: l)) with (Qc_leb a b && ordered Qc_leb (b :: l)). rewrite andb_true_iff, IH. split.
      * intros [H1 H2] [|k] x y E1 E2; [cbn in E1, E2; apply some_inj in E1; apply some_inj in E2; subst; destruct (Qc_leb_spec x y); [assumption|discriminate]|].
        eapply (H2 k); [exact E1|]. exact E2.
      * intros H. split; [destruct (Qc_leb_spec a b) as [?|N]; [reflexivity|exfalso; apply N; apply (H 0 a b); reflexivity]|]. intros k x y E1 E2. apply (H (S k) x y); [exact E1|exact E2].
Qed.
Lemma right_label_iff {S} (P Q : S -> Prop) l k : (forall s, P s <-> Q s) -> right_label P l k -> right_label Q l k.
Proof.
  intros H [[E N]|[s [Hk [E Hs]]]]; [left|right].
  - split; [exact E|]. intros s Hs HQ. apply (N s Hs), H, HQ.
  - exists s. rewrite <- H. auto.
Qed.
Theorem bar_spec edges h w horizontal values :
  (Nat.even (length edges) = false \/ ~ nondecreasing edges -> bar edges h w horizontal values = None) /\
  (Nat.even (length edges) = true -> nondecreasing edges ->
   (horizontal = true -> match values with Some v => length v = h * w | None => True end) ->
   exists out, bar edges h w horizontal values = Some out /\ length out = h * w /\
     forall i j, i < h -> j < w -> exists x k, bar_value w horizontal values i j = Some x /\
       nth_error out (i * w + j) = Some k /\ right_label (half_open x) (intervals edges) k).
Proof.
  destruct (bar_ok edges h w horizontal values) as [H1 H2]. unfold edges_ok in *. split.
  - intros HB. apply H1. destruct HB as [-> | HB]; [reflexivity|]. destruct (ordered Qc_leb edges) eqn:E; [|apply andb_false_r].
    apply ordered_nondecreasing in E. contradiction.
  - intros HE HN HV. apply ordered_nondecreasing in HN. rewrite HE, HN in H2. destruct (H2 eq_refl HV) as [out [E [L H]]].
    exists out. split; [exact E|]. split; [exact L|]. intros i j Hi Hj. destruct (H i j Hi Hj) as [x [k [K1 [K2 K3]]]].
    exists x, k. split; [exact K1|]. split; [exact K2|]. eapply right_label_iff; [|exact K3]. intros iv. apply inside_half_open.
Qed.
(** A vertical bar can contradict the values it was given. *)
Theorem vertical_values_refuted : exists edges v out, bar edges 1 2 false (Some v) = Some out /\
  ~ (exists k, nth_error out 0 = Some k /\ exists x, nth_error v 0 = Some x /\ right_label (half_open x) (intervals edges) k).
Proof.
  exists [qz 5; qz 6], [qz 5; qz 5], [0; 0]. split; [vm_compute; reflexivity|].
  intros [k [Ek [x [Ex R]]]]. injection Ek as <-. cbn in Ex. apply some_inj in Ex. subst x.
  destruct R as [[_ N]|[s [Hk _]]]; [|congruence].
  apply (N (qz 5, qz 6)); [left; reflexivity|]. apply inside_half_open. split; vm_compute; reflexivity.
Qed.
