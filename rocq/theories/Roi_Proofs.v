From Verif Require Import Common QcArith Roi_Model Roi_Spec.
From Coq Require Import Sorted.

(** ** Arrays *)
Lemma get2_tab {A} h w (f : nat -> nat -> A) i j : i < h -> j < w -> get2 (tab2 h w f) i j = Some (f i j).
Proof.
  intros Hi Hj. unfold get2, tab2. rewrite nth_error_map_seq by exact Hi. cbn [bind].
  apply nth_error_map_seq. exact Hj.
Qed.
Definition shaped {A} (h w : nat) (g : list (list A)) : Prop := length g = h /\ Forall (fun r => length r = w) g.
Lemma tab_shaped {A} h w (f : nat -> nat -> A) : shaped h w (tab2 h w f).
Proof.
  unfold shaped, tab2. rewrite map_length, seq_length. split; [reflexivity|].
  apply Forall_forall. intros r Hr. apply in_map_iff in Hr. destruct Hr as [i [<- _]].
  rewrite map_length, seq_length. reflexivity.
Qed.

(** ** rectangles *)
Lemma rect_hit_iff h w r i j : reaches_image r -> i < h -> j < w ->
  (rect_hit h w r i j = true <-> in_rect r i j).
Proof.
  destruct r as [[[x y] wd] ht]. unfold reaches_image, rect_hit, in_rect, in_slice, pybound.
  intros [H1 H2] Hi Hj. rewrite !andb_true_iff.
  destruct (Z.ltb_spec (Z.max x 0) 0) as [?|_]; [lia|].
  destruct (Z.ltb_spec (Z.min (x + wd) (Z.of_nat h)) 0) as [?|_]; [lia|].
  destruct (Z.ltb_spec (Z.max y 0) 0) as [?|_]; [lia|].
  destruct (Z.ltb_spec (Z.min (y + ht) (Z.of_nat w)) 0) as [?|_]; [lia|]. lia.
Qed.

Definition labelled (h w : nat) (rs : list rect) (g : list (list Z)) : Prop :=
  shaped h w g /\ forall i j, i < h -> j < w -> exists k, get2 g i j = Some (Z.of_nat k) /\
    right_label (fun r => in_rect r i j) rs k.

Lemma right_label_zero {S} (P : S -> Prop) l k : right_label P l k -> (k = 0 <-> forall s, In s l -> ~ P s).
Proof.
  intros [[-> H]|[s [Hk [E H]]]]; [tauto|]. split; [tauto|]. intros H'.
  exfalso. apply (H' s); [eapply nth_error_In; eauto|exact H].
Qed.

Lemma rect_step_ok h w pre g r : reaches_image r -> labelled h w pre g ->
  (rect_step h w g (length pre, r) = None /\
     exists a s i j, i < h /\ j < w /\ nth_error pre a = Some s /\ in_rect s i j /\ in_rect r i j) \/
  (exists g', rect_step h w g (length pre, r) = Some g' /\ labelled h w (pre ++ [r]) g' /\
     forall s i j, i < h -> j < w -> In s pre -> in_rect s i j -> in_rect r i j -> False).
Proof.
  intros Hr [HS HL]. unfold rect_step.
  destruct (existsb _ _) eqn:E.
  - left. split; [reflexivity|]. apply existsb_exists in E. destruct E as [[i j] [Hin E]].
    cbn [fst snd] in E. apply in_prod_iff in Hin. destruct Hin as [Hi Hj].
    apply in_seq in Hi. apply in_seq in Hj. apply andb_true_iff in E. destruct E as [E1 E2].
    assert (Hi' : i < h) by lia. assert (Hj' : j < w) by lia.
    apply (rect_hit_iff h w r i j Hr Hi' Hj') in E1. destruct (HL i j Hi' Hj') as [k [Ek R]].
    unfold getz in E2. rewrite Ek in E2. destruct R as [[-> _]|[s [Hk [Es Hs]]]]; [cbn in E2; discriminate|].
    exists (k - 1), s, i, j. auto 6.
  - right. eexists. split; [reflexivity|].
    assert (HNo : forall i j, i < h -> j < w -> in_rect r i j -> getz g i j = 0%Z).
    { intros i j Hi Hj Hin. rewrite <- not_true_iff_false in E. destruct (Z.eq_dec (getz g i j) 0) as [?|Hne]; [assumption|].
      exfalso. apply E. apply existsb_exists. exists (i, j). split.
      - apply in_prod_iff. split; apply in_seq; lia.
      - cbn [fst snd]. rewrite (proj2 (rect_hit_iff h w r i j Hr Hi Hj) Hin). cbn. apply negb_true_iff, Z.eqb_neq. exact Hne. }
    split.
    + split; [apply tab_shaped|]. intros i j Hi Hj. rewrite get2_tab by assumption.
      destruct (HL i j Hi Hj) as [k [Ek R]].
      destruct (rect_hit h w r i j) eqn:Eh.
      * apply (rect_hit_iff h w r i j Hr Hi Hj) in Eh. exists (length pre + 1). split; [reflexivity|].
        right. exists r. split; [lia|]. split; [|exact Eh].
        replace (length pre + 1 - 1) with (length pre) by lia.
        rewrite nth_error_app2 by lia. rewrite Nat.sub_diag. reflexivity.
      * exists k. unfold getz. rewrite Ek. split; [reflexivity|].
        assert (Hnr : ~ in_rect r i j).
        { intros Hin. apply (rect_hit_iff h w r i j Hr Hi Hj) in Hin. congruence. }
        destruct R as [[-> R]|[s [Hk [Es Hs]]]].
        -- left. split; [reflexivity|]. intros s Hs. apply in_app_or in Hs. destruct Hs as [Hs|[<-|[]]]; auto.
        -- right. exists s. split; [exact Hk|]. split; [|exact Hs].
           rewrite nth_error_app1; [exact Es|]. apply nth_error_Some. congruence.
    + intros s i j Hi Hj Hin Hs Hri. destruct (HL i j Hi Hj) as [k [Ek R]].
      pose proof (HNo i j Hi Hj Hri) as Hz. unfold getz in Hz. rewrite Ek in Hz.
      apply (proj1 (right_label_zero _ _ _ R)) with (s := s); [lia|exact Hin|exact Hs].
Qed.

Definition share (h w : nat) (r s : rect) : Prop := exists i j, i < h /\ j < w /\ in_rect r i j /\ in_rect s i j.

Lemma rect_fold_ok h w coords : Forall reaches_image coords -> forall pre g, labelled h w pre g ->
  ~ overlapping (share h w) pre ->
  let res := foldM (rect_step h w) (combine (seq (length pre) (length coords)) coords) g in
  (res = None <-> overlapping (share h w) (pre ++ coords)) /\
  (forall g', res = Some g' -> labelled h w (pre ++ coords) g').
Proof.
  induction 1 as [|r coords Hr HF IH]; intros pre g HL HN res.
  - subst res. cbn. rewrite app_nil_r. split; [split; [discriminate|contradiction]|].
    intros g' E. injection E as <-. exact HL.
  - subst res. cbn [length seq combine foldM].
    destruct (rect_step_ok h w pre g r Hr HL) as [[E [a [s [i [j [Hi [Hj [Ea [Hs Hri]]]]]]]]]|[g1 [E [HL1 HN1]]]].
    + rewrite E. cbn [bind]. split; [|discriminate]. split; [intros _|reflexivity].
      assert (Ha : a < length pre) by (apply nth_error_Some; congruence).
      exists a, (length pre), s, r. split; [exact Ha|]. split; [rewrite nth_error_app1; assumption|].
      split; [rewrite nth_error_app2 by lia; rewrite Nat.sub_diag; reflexivity|]. exists i, j. auto.
    + rewrite E. cbn [bind].
      assert (HN' : ~ overlapping (share h w) (pre ++ [r])).
      { intros [a [b [s [t [Hab [Ea [Eb [i [j [Hi [Hj [Hs Ht]]]]]]]]]]]].
        assert (Hb : b < length (pre ++ [r])) by (apply nth_error_Some; congruence).
        rewrite app_length in Hb. cbn in Hb.
        destruct (Nat.lt_ge_cases b (length pre)) as [Hbl|Hbl].
        - apply HN. rewrite nth_error_app1 in Ea by lia. rewrite nth_error_app1 in Eb by lia.
          exists a, b, s, t. repeat (split; [assumption|]). exists i, j. auto.
        - assert (b = length pre) by lia. subst b. rewrite nth_error_app2, Nat.sub_diag in Eb by lia.
          cbn in Eb. injection Eb as <-. rewrite nth_error_app1 in Ea by lia.
          eapply HN1; eauto using nth_error_In. }
      specialize (IH (pre ++ [r]) g1 HL1 HN'). rewrite <- app_assoc in IH. cbn [app] in IH.
      rewrite app_length in IH. cbn [length] in IH. rewrite Nat.add_1_r in IH. exact IH.
Qed.

Theorem rectangles_ok coords h w : Forall reaches_image coords ->
  (rectangles coords h w = None <-> overlapping (share h w) coords) /\
  (forall g, rectangles coords h w = Some g -> labelled h w coords g).
Proof.
  intros HF. unfold rectangles.
  apply (rect_fold_ok h w coords HF [] (tab2 h w (fun _ _ => 0%Z))).
  - split; [apply tab_shaped|]. intros i j Hi Hj. exists 0. rewrite get2_tab by assumption. split; [reflexivity|].
    left. split; [reflexivity|]. intros s [].
  - intros [a [b [s [t [_ [E _]]]]]]. destruct a; discriminate.
Qed.

(** A rectangle that ends above the image wraps around: it labels the first row. *)
Theorem rect_wraps x y wd ht h w : (0 <= wd)%Z -> (- Z.of_nat h < x + wd < 0)%Z ->
  (y <= 0 < y + ht)%Z -> 0 < w ->
  exists g, rectangles [(x, y, wd, ht)] h w = Some g /\ get2 g 0 0 = Some 1%Z /\ ~ in_rect (x, y, wd, ht) 0 0.
Proof.
  intros H0 H1 H2 Hw. unfold rectangles. cbn [length seq combine foldM].
  unfold rect_step at 1. destruct (existsb _ _) eqn:E.
  { exfalso. apply existsb_exists in E. destruct E as [[i j] [Hin E]]. apply in_prod_iff in Hin.
      destruct Hin as [Hi Hj]. apply in_seq in Hi. apply in_seq in Hj. cbn [fst snd] in E.
      unfold getz in E. rewrite get2_tab in E by lia. cbn in E. rewrite andb_false_r in E. discriminate. }
  cbn [bind]. eexists. split; [reflexivity|]. split.
  - rewrite get2_tab by lia. replace (rect_hit h w (x, y, wd, ht) 0 0) with true; [reflexivity|].
    symmetry. unfold rect_hit, in_slice, pybound.
    destruct (Z.ltb_spec (Z.max x 0) 0) as [?|_]; [lia|].
    destruct (Z.ltb_spec (Z.min (x + wd) (Z.of_nat h)) 0) as [_|?]; [|lia].
    destruct (Z.ltb_spec (Z.max y 0) 0) as [?|_]; [lia|].
    destruct (Z.ltb_spec (Z.min (y + ht) (Z.of_nat w)) 0) as [?|_]; [lia|]. lia.
  - unfold in_rect. lia.
Qed.

(** ** digitize and _make_roi over any total order *)
Section Order.
Context {A : Type} (leb : A -> A -> bool).
Hypothesis leb_trans : forall x y z, leb x y = true -> leb y z = true -> leb x z = true.

Lemma ordered_head a l : ordered leb (a :: l) = true -> forall b, In b l -> leb a b = true.
Proof.
  revert a. induction l as [|c l IH]; intros a H b Hb; [destruct Hb|].
  cbn [ordered] in H. apply andb_true_iff in H. destruct H as [H1 H2].
  destruct Hb as [<-|Hb]; [exact H1|]. eapply leb_trans; [exact H1|]. apply IH; assumption.
Qed.
Lemma ordered_tail a l : ordered leb (a :: l) = true -> ordered leb l = true.
Proof. destruct l as [|b l]; [reflexivity|]. cbn [ordered]. intros H. apply andb_true_iff in H. apply H. Qed.
Lemma digitize_iff edges x : ordered leb edges = true -> forall k e, nth_error edges k = Some e ->
  (leb e x = true <-> k < digitize leb edges x).
Proof.
  induction edges as [|a l IH]; intros HO [|k] e E; try discriminate.
  - cbn in E. injection E as ->. unfold digitize. cbn [filter]. destruct (leb e x) eqn:Ee; cbn [length].
    + split; [lia|reflexivity].
    + split; [discriminate|]. intros H. exfalso.
      destruct (filter (fun e0 => leb e0 x) l) as [|b f] eqn:F; [cbn in H; lia|].
      assert (Hb : In b (filter (fun e0 => leb e0 x) l)) by (rewrite F; left; reflexivity).
      apply filter_In in Hb. destruct Hb as [Hb1 Hb2].
      pose proof (ordered_head e l HO b Hb1) as Hab. rewrite (leb_trans _ _ _ Hab Hb2) in Ee. discriminate.
  - cbn [nth_error] in E. pose proof (ordered_tail _ _ HO) as HO'.
    specialize (IH HO' k e E). unfold digitize in *. cbn [filter]. destruct (leb a x) eqn:Ea; cbn [length].
    + rewrite IH. lia.
    + rewrite IH. split; [|lia]. intros Hk. exfalso.
      destruct (filter (fun e0 => leb e0 x) l) as [|b f] eqn:F; [cbn in Hk; lia|].
      assert (Hb : In b (filter (fun e0 => leb e0 x) l)) by (rewrite F; left; reflexivity).
      apply filter_In in Hb. destruct Hb as [Hb1 Hb2].
      pose proof (ordered_head a l HO b Hb1) as Hab. rewrite (leb_trans _ _ _ Hab Hb2) in Ea. discriminate.
Qed.
Lemma digitize_le edges x : digitize leb edges x <= length edges.
Proof. unfold digitize. induction edges as [|a l IH]; cbn; [lia|]. destruct (leb a x); cbn; lia. Qed.

Definition inside (x : A) (iv : A * A) : Prop := leb (fst iv) x = true /\ leb (snd iv) x = false.

Lemma intervals_nth (edges : list A) : forall k (iv : A * A), nth_error (intervals edges) k = Some iv <->
  nth_error edges (2 * k) = Some (fst iv) /\ nth_error edges (2 * k + 1) = Some (snd iv).
Proof.
  assert (G : forall n (edges : list A), length edges <= n -> forall k (iv : A * A), nth_error (intervals edges) k = Some iv <->
    nth_error edges (2 * k) = Some (fst iv) /\ nth_error edges (2 * k + 1) = Some (snd iv)).
  2:{ intros. apply (G (length edges)). lia. }
  induction n as [|n IH]; intros [|a [|b r]] Hl k [lo hi]; cbn [length] in Hl; try lia; cbn [fst snd].
  - cbn [intervals]. split; [destruct k; discriminate|]. intros [H _]. destruct k; discriminate.
  - cbn [intervals]. split; [destruct k; discriminate|]. intros [H _]. destruct k; discriminate.
  - cbn [intervals]. split; [destruct k; discriminate|]. intros [_ H].
    replace (2 * k + 1) with (S (2 * k)) in H by lia. cbn [nth_error] in H. destruct (2 * k); discriminate.
  - cbn [intervals]. destruct k as [|k].
    + cbn. split; [intros E; injection E as <- <-; auto|intros [E1 E2]; congruence].
    + cbn [nth_error]. rewrite (IH r ltac:(lia) k (lo, hi)).
      replace (2 * S k) with (S (S (2 * k))) by lia. replace (S (S (2 * k)) + 1) with (S (S (2 * k + 1))) by lia.
      reflexivity.
Qed.
Theorem roi_label_ok edges x : edges_ok leb edges = true ->
  right_label (inside x) (intervals edges) (roi_label (digitize leb edges x)).
Proof.
  unfold edges_ok. intros H. apply andb_true_iff in H. destruct H as [He HO].
  apply Nat.even_spec in He. destruct He as [n Hn].
  set (d := digitize leb edges x). pose proof (digitize_le edges x) as Hd. fold d in Hd.
  unfold roi_label. destruct (Nat.odd d) eqn:Eo.
  - apply Nat.odd_spec in Eo. destruct Eo as [q Hq].
    replace ((d + 1) / 2) with (q + 1) by (apply Nat.div_unique with 0; lia).
    destruct (nth_error edges (2 * q)) as [lo|] eqn:E1; [|apply nth_error_None in E1; lia].
    destruct (nth_error edges (2 * q + 1)) as [hi|] eqn:E2; [|apply nth_error_None in E2; lia].
    right. exists (lo, hi). split; [lia|]. replace (q + 1 - 1) with q by lia.
    split; [apply intervals_nth; auto|]. split; cbn [fst snd].
    + apply (digitize_iff edges x HO _ _ E1). fold d. lia.
    + apply not_true_iff_false. rewrite (digitize_iff edges x HO _ _ E2). fold d. lia.
  - left. split; [reflexivity|]. intros [lo hi] Hin [H1 H2]. cbn [fst snd] in *.
    apply In_nth_error in Hin. destruct Hin as [k Ek]. apply intervals_nth in Ek. cbn [fst snd] in Ek. destruct Ek as [E1 E2].
    apply (digitize_iff edges x HO _ _ E1) in H1. apply not_true_iff_false in H2.
    rewrite (digitize_iff edges x HO _ _ E2) in H2. fold d in H1, H2.
    assert (d = 2 * k + 1) by lia. rewrite <- Nat.negb_even in Eo. apply negb_false_iff in Eo.
    apply Nat.even_spec in Eo. destruct Eo as [q Hq]. lia.
Qed.
(** At most one interval contains a value. *)
Theorem intervals_disjoint edges x a b : edges_ok leb edges = true ->
  forall s t, nth_error (intervals edges) a = Some s -> nth_error (intervals edges) b = Some t ->
  inside x s -> inside x t -> a = b.
Proof.
  unfold edges_ok. intros H. apply andb_true_iff in H. destruct H as [_ HO]. intros [l h] [l' h'] Ea Eb [A1 A2] [B1 B2].
  cbn [fst snd] in *. apply intervals_nth in Ea. apply intervals_nth in Eb. cbn [fst snd] in *.
  destruct Ea as [E1 E2]. destruct Eb as [F1 F2].
  apply (digitize_iff edges x HO _ _ E1) in A1. apply (digitize_iff edges x HO _ _ F1) in B1.
  apply not_true_iff_false in A2. apply not_true_iff_false in B2.
  rewrite (digitize_iff edges x HO _ _ E2) in A2. rewrite (digitize_iff edges x HO _ _ F2) in B2. lia.
Qed.
End Order.

(** ** bar *)
Lemma Qc_leb_trans x y z : Qc_leb x y = true -> Qc_leb y z = true -> Qc_leb x z = true.
Proof.
  destruct (Qc_leb_spec x y), (Qc_leb_spec y z), (Qc_leb_spec x z); try discriminate; try reflexivity.
  intros _ _. exfalso. eauto using Qcle_trans.
Qed.
Lemma nth_error_concat_rect {A} (g : list (list A)) h w : shaped h w g -> forall i j, j < w ->
  nth_error (concat g) (i * w + j) = get2 g i j.
Proof.
  intros [Hl HF]. clear Hl h. unfold get2. induction HF as [|r g Hr HF IH]; intros i j Hj.
  - cbn. destruct (i * w + j), i; reflexivity.
  - cbn [concat]. destruct i as [|i].
    + cbn. rewrite nth_error_app1 by lia. reflexivity.
    + rewrite nth_error_app2 by (cbn; lia). rewrite Hr.
      replace (S i * w + j - w) with (i * w + j) by (cbn; lia). rewrite IH by exact Hj. reflexivity.
Qed.
Lemma concat_tab_length {A} h w (f : nat -> nat -> A) : length (concat (tab2 h w f)) = h * w.
Proof.
  destruct (tab_shaped h w f) as [H1 H2]. revert H1 H2. generalize (tab2 h w f). intros g <- HF.
  induction HF as [|r g Hr HF IH]; cbn; [reflexivity|]. rewrite app_length, IH, Hr. reflexivity.
Qed.
Lemma rows_tab h w : concat (map (fun i => repeat (qn i) w) (seq 0 h)) = concat (tab2 h w (fun i _ => qn i)).
Proof.
  unfold tab2. f_equal. apply map_ext. intros i. generalize (qn i). intros X. generalize 0. induction w as [|w IH]; intros s; cbn; [reflexivity|].
  rewrite (IH (S s)). reflexivity.
Qed.
Lemma cols_tab h w : concat (repeat (map qn (seq 0 w)) h) = concat (tab2 h w (fun _ j => qn j)).
Proof.
  unfold tab2. f_equal. change (map (fun j : nat => qn j) (seq 0 w)) with (map qn (seq 0 w)).
  generalize (map qn (seq 0 w)). intros X. generalize 0.
  induction h as [|h IH]; intros s; cbn; [reflexivity|].
  rewrite (IH (S s)). reflexivity.
Qed.
Theorem bar_ok edges h w horizontal values :
  (edges_ok Qc_leb edges = false -> bar edges h w horizontal values = None) /\
  (edges_ok Qc_leb edges = true ->
   (horizontal = true -> match values with Some v => length v = h * w | None => True end) ->
   exists out, bar edges h w horizontal values = Some out /\ length out = h * w /\
     forall i j, i < h -> j < w -> exists x k, bar_value w horizontal values i j = Some x /\
       nth_error out (i * w + j) = Some k /\ right_label (inside Qc_leb x) (intervals edges) k).
Proof.
  unfold bar. split; [intros ->; reflexivity|]. intros HE HV. rewrite HE. cbn [negb].
  set (v := if horizontal then _ else _).
  assert (Lv : length v = h * w).
  { unfold v. destruct horizontal; [|rewrite cols_tab; apply concat_tab_length].
    destruct values as [u|]; [apply HV; reflexivity|]. rewrite rows_tab. apply concat_tab_length. }
  rewrite Lv, Nat.eqb_refl. eexists. split; [reflexivity|]. unfold make_roi. split; [rewrite map_length; exact Lv|].
  intros i j Hi Hj.
  assert (Hb : i * w + j < length v) by (rewrite Lv; nia).
  assert (E : nth_error v (i * w + j) = bar_value w horizontal values i j).
  { unfold v, bar_value. destruct horizontal.
    - destruct values as [u|]; [reflexivity|]. rewrite rows_tab.
      rewrite (nth_error_concat_rect _ h w (tab_shaped h w _) i j Hj). apply get2_tab; assumption.
    - rewrite cols_tab, (nth_error_concat_rect _ h w (tab_shaped h w _) i j Hj). apply get2_tab; assumption. }
  destruct (nth_error v (i * w + j)) as [x|] eqn:Ex; [|apply nth_error_None in Ex; lia].
  exists x, (roi_label (digitize Qc_leb edges x)). split; [symmetry; exact E|].
  split; [rewrite nth_error_map, Ex; reflexivity|]. apply roi_label_ok; [exact Qc_leb_trans|exact HE].
Qed.
Lemma bar_vertical_ignores edges h w v v' : bar edges h w false v = bar edges h w false v'.
Proof. reflexivity. Qed.

(** ** box *)
Lemma nth_error_flat_map_const {A B} (f : A -> list B) n l : (forall a, length (f a) = n) ->
  forall i j, j < n -> nth_error (flat_map f l) (i * n + j) = (a <- nth_error l i ;; nth_error (f a) j).
Proof.
  intros Hf. induction l as [|a l IH]; intros i j Hj; cbn [flat_map].
  - replace (nth_error [] i) with (@None A) by (destruct i; reflexivity). destruct (i * n + j); reflexivity.
  - destruct i as [|i].
    + cbn. rewrite nth_error_app1 by (rewrite Hf; exact Hj). reflexivity.
    + rewrite nth_error_app2 by (rewrite Hf; cbn; lia). rewrite Hf.
      replace (S i * n + j - n) with (i * n + j) by (cbn; lia). rewrite IH by exact Hj. reflexivity.
Qed.
Lemma box_coords_nth he ve a b h v : nth_error he a = Some h -> nth_error ve b = Some v ->
  nth_error (box_coords he ve) (a * length ve + b) = Some (fst h, fst v, snd h - fst h, snd v - fst v)%Z.
Proof.
  intros Ha Hb. unfold box_coords.
  rewrite (nth_error_flat_map_const _ (length ve)).
  - rewrite Ha. cbn [bind]. rewrite nth_error_map, Hb. reflexivity.
  - intros x. apply map_length.
  - apply nth_error_Some. congruence.
Qed.
Lemma box_coords_In he ve r : In r (box_coords he ve) -> exists h v, In h he /\ In v ve /\
  r = (fst h, fst v, snd h - fst h, snd v - fst v)%Z.
Proof.
  unfold box_coords. intros H. apply in_flat_map in H. destruct H as [h [Hh H]]. apply in_map_iff in H.
  destruct H as [v [<- Hv]]. eauto 6.
Qed.
Definition in_range (e : Z * Z) (i : nat) : Prop := (fst e <= Z.of_nat i < snd e)%Z.
Theorem box_ok shape ve he : Forall (fun e => (0 <= snd e)%Z) he -> Forall (fun e => (0 <= snd e)%Z) ve ->
  forall g, box shape ve (Some he) None = Some g -> shaped (fst shape) (snd shape) g /\
  forall i j, i < fst shape -> j < snd shape ->
    (forall a b h v, nth_error he a = Some h -> nth_error ve b = Some v ->
       (in_range h i /\ in_range v j <-> get2 g i j = Some (Z.of_nat (a * length ve + b + 1)))) /\
    ((forall h v, In h he -> In v ve -> ~ (in_range h i /\ in_range v j)) -> get2 g i j = Some 0%Z).
Proof.
  intros Hh Hv g E. unfold box in E.
  assert (HF : Forall reaches_image (box_coords he ve)).
  { apply Forall_forall. intros r Hr. apply box_coords_In in Hr. destruct Hr as [h [v [H1 [H2 ->]]]].
    rewrite Forall_forall in Hh, Hv. specialize (Hh _ H1). specialize (Hv _ H2). unfold reaches_image. lia. }
  destruct (rectangles_ok (box_coords he ve) (fst shape) (snd shape) HF) as [HNo HL].
  assert (HNov : ~ overlapping (share (fst shape) (snd shape)) (box_coords he ve)).
  { intros HO. apply HNo in HO. congruence. }
  destruct (HL g E) as [HS HG]. split; [exact HS|]. intros i j Hi Hj.
  destruct (HG i j Hi Hj) as [k [Ek R]]. split.
  - intros a b h v Ea Eb. pose proof (box_coords_nth _ _ _ _ _ _ Ea Eb) as En. split.
    + intros [I1 I2]. rewrite Ek. do 2 f_equal.
      assert (Hin : in_rect (fst h, fst v, snd h - fst h, snd v - fst v)%Z i j) by (unfold in_range in *; unfold in_rect; lia).
      destruct R as [[-> R]|[s [Hk [Es Hs]]]]; [exfalso; apply (R _ (nth_error_In _ _ En) Hin)|].
      destruct (Nat.lt_trichotomy (k - 1) (a * length ve + b)) as [Hc|[Hc|Hc]]; [|lia|].
      * exfalso. apply HNov. do 4 eexists. split; [exact Hc|]. split; [exact Es|]. split; [exact En|]. exists i, j. auto.
      * exfalso. apply HNov. do 4 eexists. split; [exact Hc|]. split; [exact En|]. split; [exact Es|]. exists i, j. auto.
    + intros E'. rewrite Ek in E'. injection E' as E'. destruct R as [[-> R]|[s [Hk [Es Hs]]]]; [lia|].
      replace (k - 1) with (a * length ve + b) in Es by lia. rewrite En in Es. injection Es as <-.
      unfold in_rect in Hs. unfold in_range. lia.
  - intros HN. rewrite Ek. do 2 f_equal. destruct R as [[-> R]|[s [Hk [Es Hs]]]]; [reflexivity|].
    exfalso. apply nth_error_In, box_coords_In in Es. destruct Es as [h [v [H1 [H2 ->]]]].
    apply (HN h v H1 H2). unfold in_rect in Hs. unfold in_range. lia.
Qed.

(** ** ring_edges *)
Lemma pairs_rings inner : forall ws ss acc, length ss + 1 = length ws ->
  rings_from (acc + inner)%Qc ws ss (pairs (cumsum acc (interleave (inner :: ss) ws))).
Proof.
  intros ws. revert inner. induction ws as [|w ws IH]; intros inner ss acc H; [cbn in H; lia|].
  cbn [interleave cumsum pairs rings_from]. split; [reflexivity|]. split; [ring|].
  destruct ss as [|s ss].
  - destruct ws as [|w' ws]; [|cbn in H; lia]. auto.
  - apply IH. cbn in *. lia.
Qed.
Definition widths_of (n : nat) (w : scalar_or_list) : list Qc := match w with Sc x => repeat x n | Li l => l end.
Theorem ring_edges_ok inner w s nr (n : nat) :
  (forall wl sl, w = Li wl -> s = Li sl -> False) ->
  n <> 0 -> length (widths_of n w) = n -> length (widths_of (n - 1) s) = n - 1 ->
  (nr = Some (Z.of_nat n) \/ (nr = None /\ forall x y, w = Sc x -> s = Sc y -> False)) ->
  exists l, ring_edges inner w s nr = Rings l /\ length l = n /\
    rings_from inner (widths_of n w) (widths_of (n - 1) s) l.
Proof.
  intros HN Hn Hw Hs Hnr.
  assert (HR : forall ws ss, length ws = n -> length ss = n - 1 ->
    rings_from inner ws ss (pairs (cumsum 0%Qc (interleave (inner :: ss) ws))) /\
    length (pairs (cumsum 0%Qc (interleave (inner :: ss) ws))) = n).
  { intros ws ss Lw Ls. pose proof (pairs_rings inner ws ss 0%Qc ltac:(lia)) as HP. rewrite Qcplus_0_l in HP.
    split; [exact HP|]. subst n. clear -Ls. assert (Hl : length (inner :: ss) = length ws \/ ws = []).
    { destruct ws; [right; reflexivity|left; cbn in *; lia]. }
    clear Ls. revert Hl. generalize (inner :: ss). generalize 0%Qc. induction ws as [|w ws IH]; intros a l Hl; [destruct l; reflexivity|].
    destruct Hl as [Hl|Hl]; [|discriminate]. destruct l as [|x l]; [discriminate|]. cbn [interleave cumsum pairs length].
    f_equal. apply IH. left. cbn in Hl. lia. }
  assert (Hk : (match nr with
    | None => match w, s with Li wl, _ => Some (Z.of_nat (length wl)) | Sc _, Li sl => Some (Z.of_nat (length sl) + 1)%Z | Sc _, Sc _ => None end
    | Some k => if match w with Li wl => negb (k =? Z.of_nat (length wl))%Z | _ => false end
                   || match s with Li sl => negb (k - 1 =? Z.of_nat (length sl))%Z | _ => false end
                then None else Some k end) = Some (Z.of_nat n)).
  { destruct Hnr as [->|[-> Hx]].
    - destruct w as [x|wl], s as [y|sl]; cbn [widths_of] in *; try reflexivity.
      + replace (Z.of_nat n - 1 =? Z.of_nat (length sl))%Z with true by lia. reflexivity.
      + replace (Z.of_nat n =? Z.of_nat (length wl))%Z with true by lia. reflexivity.
      + exfalso; eapply HN; reflexivity.
    - destruct w as [x|wl], s as [y|sl]; cbn [widths_of] in *.
      + exfalso; eapply Hx; reflexivity.
      + f_equal. lia.
      + f_equal. lia.
      + exfalso; eapply HN; reflexivity. }
  unfold ring_edges. rewrite Hk.
  replace (match w, s with Li wl, Li sl => negb (Z.of_nat (length wl) =? Z.of_nat (length sl) - 1)%Z | _, _ => false end) with false
    by (destruct w, s; try reflexivity; exfalso; eapply HN; reflexivity).
  replace (Z.of_nat n <? 0)%Z with false by lia. replace (Z.of_nat n - 1 <? 0)%Z with false by lia.
  replace (match w with Sc _ => false | _ => false end || match s with Sc _ => false | _ => false end) with false
    by (destruct w, s; reflexivity).
  rewrite Nat2Z.id. replace (Z.to_nat (Z.of_nat n - 1)) with (n - 1) by lia.
  change (match w with Sc x => repeat x n | Li l => l end) with (widths_of n w).
  change (match s with Sc x => repeat x (n - 1) | Li l => l end) with (widths_of (n - 1) s).
  replace (length (inner :: widths_of (n - 1) s) =? length (widths_of n w)) with true by (cbn [length]; symmetry; apply Nat.eqb_eq; lia).
  cbn [negb]. destruct (HR _ _ Hw Hs) as [R1 R2]. eexists. split; [reflexivity|]. split; assumption.
Qed.
(** Two lists never work, with or without num_rings. *)
Theorem ring_edges_two_lists inner wl sl nr l : ring_edges inner (Li wl) (Li sl) nr <> Rings l.
Proof.
  unfold ring_edges. destruct (Z.eqb_spec (Z.of_nat (length wl)) (Z.of_nat (length sl) - 1)) as [E|E]; cbn [negb]; [|discriminate].
  destruct (match nr with None => _ | Some k => _ end) as [k|]; [|discriminate]. cbn [orb].
  destruct (Nat.eqb_spec (length (inner :: sl)) (length wl)) as [E'|E']; cbn [negb]; [|discriminate].
  cbn [length] in E'. lia.
Qed.
