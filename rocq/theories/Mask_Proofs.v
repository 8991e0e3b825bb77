From Coq Require Import Reals.
From Verif Require Import Common QcArith Roi_Model Roi_Spec Roi_Proofs Roi_Stats RoiPolar_Model RoiPolar_Spec RoiPolar_Proofs Mask_Model Mask_Spec.
From Coq Require Import Lra.

Lemma Forall2_impl_in {A B} (P Q : A -> B -> Prop) l l' : (forall a b, P a b -> Q a b) -> Forall2 P l l' -> Forall2 Q l l'.
Proof. intros H. induction 1; constructor; auto. Qed.

(** ** margin *)
Theorem margin_ok h w e i j : (0 < e)%Z -> i < h -> j < w ->
  get2 (margin h w e) i j = Some true <->
  (e <= Z.of_nat i < Z.of_nat h - e)%Z /\ (e <= Z.of_nat j < Z.of_nat w - e)%Z.
Proof.
  intros He Hi Hj. unfold margin. rewrite get2_tab by assumption. unfold in_slice, pybound.
  replace (e <? 0)%Z with false by lia. replace (- e <? 0)%Z with true by lia. split.
  - intros E. injection E as E. lia.
  - intros H. f_equal. lia.
Qed.
Theorem margin_shape h w e : shaped h w (margin h w e).
Proof. apply tab_shaped. Qed.
Theorem margin_zero h w i j : i < h -> j < w -> get2 (margin h w 0) i j = Some false.
Proof.
  intros Hi Hj. unfold margin. rewrite get2_tab by assumption. f_equal. unfold in_slice, pybound. cbn. lia.
Qed.

(** ** threshold *)
Lemma thr_map t iv mv p : length iv = length mv -> nth_error (map (fun p => thr_pixel t (fst p) (snd p)) (combine iv mv)) p =
  match nth_error iv p, nth_error mv p with Some x, Some m => Some (thr_pixel t x m) | _, _ => None end.
Proof.
  intros HL. rewrite nth_error_map. revert mv p HL. induction iv as [|x iv IH]; intros [|m mv] p HL; cbn in HL; try lia.
  - destruct p; reflexivity.
  - destruct p; [reflexivity|]. cbn [combine nth_error]. apply IH. lia.
Qed.
Lemma seen_step t ims m0 im p v x m : seen t ims m0 p m -> nth_error im p = Some x -> v = thr_pixel t x m ->
  seen t (ims ++ [im]) m0 p v.
Proof.
  intros H Hx ->. unfold thr_pixel. destruct (Qc_leb_spec t x) as [Ht|Ht].
  - left. split; [|reflexivity]. exists im, x. split; [apply in_or_app; right; left; reflexivity|]. auto.
  - destruct H as [[[im' [x' [Hi [Hx' Hle]]]] ->]|[Ha Hm]].
    + left. split; [|reflexivity]. exists im', x'. split; [apply in_or_app; left; exact Hi|]. auto.
    + right. split; [|exact Hm]. intros im' x' Hi Hx'. apply in_app_or in Hi. destruct Hi as [Hi|[<-|[]]]; [eauto|].
      rewrite Hx in Hx'. apply some_inj in Hx'. subst x'. apply Qcnot_le_lt. exact Ht.
Qed.
Section Thr.
Variables (t : Qc) (a N : nat) (m0 : list Qc).
Lemma thr_loop_ok : forall images vals h pre mv,
  Forall2 (fun im v => nth_error h im = Some v /\ length v = N /\ im <> a) images vals ->
  nth_error h a = Some mv -> length mv = N -> (forall p, p < N -> exists v, nth_error mv p = Some v /\ seen t pre m0 p v) ->
  exists ys, thr_loop t a h images = Some ys /\ length ys = length images /\
    forall k y hp, nth_error ys k = Some (y, hp) -> y = a /\ length hp = length h /\
      (forall b, b <> a -> nth_error hp b = nth_error h b) /\
      exists mk, nth_error hp a = Some mk /\ length mk = N /\
        forall p, p < N -> exists v, nth_error mk p = Some v /\ seen t (pre ++ firstn (S k) vals) m0 p v.
Proof.
  induction images as [|im images IH]; intros vals h pre mv HF Ha HL HI.
  - exists []. split; [reflexivity|]. split; [reflexivity|]. intros k y hp E. destruct k; discriminate.
  - inversion HF as [|? v ? vals' [H1 [H2 H3]] HF']; subst. cbn [thr_loop]. unfold thr_step. rewrite H1, Ha. cbn [bind].
    replace (length v =? length mv) with true by (symmetry; apply Nat.eqb_eq; lia).
    assert (Hb : a < length h) by (apply nth_error_Some; congruence).
    destruct (upd_some h a (map (fun p => thr_pixel t (fst p) (snd p)) (combine v mv)) Hb) as [h' E]. rewrite E. cbn [bind].
    pose proof (upd_nth_eq _ _ _ _ E) as Ea. pose proof (upd_length _ _ _ _ E) as El.
    set (mv' := map (fun p => thr_pixel t (fst p) (snd p)) (combine v mv)) in *.
    assert (Hmv' : forall p, p < length mv -> exists u, nth_error mv' p = Some u /\ seen t (pre ++ [v]) m0 p u).
    { intros p Hp. destruct (HI p Hp) as [m [Em Sm]].
      destruct (nth_error v p) as [x|] eqn:Ex; [|apply nth_error_None in Ex; lia].
      exists (thr_pixel t x m). split; [unfold mv'; rewrite thr_map by lia; rewrite Ex, Em; reflexivity|].
      eapply seen_step; eauto. }
    destruct (IH vals' h' (pre ++ [v]) mv') as [ys [Ey [Ly Hy]]].
    + eapply Forall2_impl_in; [|exact HF']. cbn. intros b u [B1 [B2 B3]]. split; [|auto]. rewrite (upd_nth_ne _ _ _ _ _ E B3). exact B1.
    + exact Ea.
    + unfold mv'. rewrite map_length, combine_length. lia.
    + exact Hmv'.
    + rewrite Ey. cbn [bind]. eexists. split; [reflexivity|]. split; [cbn; lia|].
      intros [|k] y hp Ek.
      * cbn in Ek. injection Ek as <- <-. split; [reflexivity|]. split; [exact El|]. split; [intros b Hb'; apply (upd_nth_ne _ _ _ _ _ E Hb')|].
        exists mv'. split; [exact Ea|]. split; [unfold mv'; rewrite map_length, combine_length; lia|]. cbn [firstn]. exact Hmv'.
      * cbn [nth_error] in Ek. destruct (Hy k y hp Ek) as [Y1 [Y2 [Y3 [mk [Y4 [Y5 Y6]]]]]]. split; [exact Y1|]. split; [lia|].
        split; [intros b Hb'; rewrite (Y3 b Hb'); apply (upd_nth_ne _ _ _ _ _ E Hb')|].
        exists mk. split; [exact Y4|]. split; [exact Y5|]. intros p Hp. destruct (Y6 p Hp) as [u [U1 U2]]. exists u. split; [exact U1|].
        rewrite <- app_assoc in U2. exact U2.
Qed.
End Thr.
(** The array the generator works on: the caller's mask, or a new one of ones. *)
Definition start (h : heap) (N : nat) (mask : option nat) (a : nat) (m0 : list Qc) : Prop :=
  (mask = Some a /\ nth_error h a = Some m0 /\ length m0 = N) \/
  (mask = None /\ a = length h /\ m0 = repeat 1%Qc N).
Theorem threshold_ok h images vals t mask a m0 N : images <> [] ->
  Forall2 (fun im v => nth_error h im = Some v /\ length v = N /\ im <> a) images vals -> start h N mask a m0 ->
  exists ys, threshold h images t mask = Some ys /\ length ys = length images /\
    (forall k y hp, nth_error ys k = Some (y, hp) -> y = a /\
      (forall b, b < length h -> b <> a -> nth_error hp b = nth_error h b) /\
      exists mk, nth_error hp a = Some mk /\ length mk = N /\
        forall p, p < N -> exists v, nth_error mk p = Some v /\ seen t (firstn (S k) vals) m0 p v) /\
    exists final, collected ys = repeat (Some final) (length images) /\ length final = N /\
      forall p, p < N -> exists v, nth_error final p = Some v /\ seen t vals m0 p v.
Proof.
  intros Hne HF HS.
  assert (G : exists h0, threshold h images t mask = thr_loop t a h0 images /\ nth_error h0 a = Some m0 /\ length m0 = N /\
    (forall b, b < length h -> nth_error h0 b = nth_error h b)).
  { destruct HS as [[-> [H1 H2]]|[-> [-> ->]]].
    - exists h. auto.
    - destruct images as [|im images]; [congruence|]. inversion HF as [|? v ? ? [H1 [H2 H3]] _]; subst.
      exists (h ++ [map (fun _ => 1%Qc) v]). cbn [threshold]. rewrite H1. cbn [bind]. split; [reflexivity|]. split.
      + rewrite nth_error_app2 by lia. rewrite Nat.sub_diag. cbn. f_equal. clear. induction v; cbn; congruence.
      + split; [apply repeat_length|]. intros b Hb. apply nth_error_app1. exact Hb. }
  destruct G as [h0 [-> [Ha [HL Hb]]]].
  destruct (thr_loop_ok t a N m0 images vals h0 [] m0) as [ys [E [Ly Hy]]].
  - eapply Forall2_impl_in; [|exact HF]. cbn. intros im v [B1 [B2 B3]]. split; [|auto]. rewrite Hb; [exact B1|]. apply nth_error_Some. congruence.
  - exact Ha.
  - exact HL.
  - intros p Hp. destruct (nth_error m0 p) as [v|] eqn:Ev; [|apply nth_error_None in Ev; lia].
    exists v. split; [reflexivity|]. right. split; [intros ? ? []|exact Ev].
  - exists ys. split; [exact E|]. split; [exact Ly|]. split.
    + intros k y hp Ek. destruct (Hy k y hp Ek) as [Y1 [_ [Y3 Y4]]]. split; [exact Y1|]. split; [|exact Y4].
      intros b B1 B2. rewrite (Y3 b B2). apply Hb. exact B1.
    + assert (HLv : length vals = length images) by (clear -HF; induction HF; cbn; congruence).
      unfold collected. destruct (rev ys) as [|[y fin] r] eqn:Er.
      { exfalso. apply (f_equal (@length _)) in Er. rewrite rev_length in Er. destruct images; [congruence|]. cbn in *. lia. }
      assert (Eys : ys = rev r ++ [(y, fin)]) by (rewrite <- (rev_involutive ys), Er; reflexivity).
      assert (El : nth_error ys (length images - 1) = Some (y, fin)).
      { rewrite Eys. rewrite nth_error_app2.
        - replace (length images - 1 - length (rev r)) with 0; [reflexivity|]. rewrite <- Ly, Eys, app_length. cbn. lia.
        - rewrite <- Ly, Eys, app_length. cbn. lia. }
      destruct (Hy _ _ _ El) as [_ [_ [_ [mk [M1 [M2 M3]]]]]]. exists mk. split; [|split; [exact M2|]].
      * rewrite <- Ly. clear -Hy M1.
        assert (HA : forall q, In q ys -> fst q = a).
        { intros [q hq] Hq. apply In_nth_error in Hq. destruct Hq as [k Hk]. apply (Hy _ _ _ Hk). }
        clear Hy. induction ys as [|q ys IH]; [reflexivity|]. cbn [map length repeat]. f_equal.
        -- rewrite (HA q (or_introl eq_refl)). exact M1.
        -- apply IH. intros q' Hq'. apply HA. right. exact Hq'.
      * cbn [app] in M3. replace (S (length images - 1)) with (length vals) in M3 by (destruct images; [congruence|cbn in *; lia]).
        rewrite firstn_all in M3. exact M3.
Qed.

(** ** bad_to_nan_gen *)
Lemma in_bad n bad : existsb (Z.eqb (Z.of_nat n)) bad = true <-> In (Z.of_nat n) bad.
Proof.
  rewrite existsb_exists. split; [intros [x [H1 H2]]; apply Z.eqb_eq in H2; congruence|]. intros H. exists (Z.of_nat n). split; [exact H|apply Z.eqb_refl].
Qed.
Lemma bad_loop_ok N bad : forall images n ret, Forall (fun im => length im = N) images ->
  match ret with Some v => v = repeat None N | None => True end ->
  length (bad_loop n bad ret images) = length images /\
  forall k im, nth_error images k = Some im ->
    nth_error (bad_loop n bad ret images) k = Some (if existsb (Z.eqb (Z.of_nat (n + k))) bad then repeat None N else im).
Proof.
  induction images as [|im images IH]; intros n ret HF HR.
  - split; [reflexivity|]. intros k im E. destruct k; discriminate.
  - inversion HF as [|? ? H1 HF']; subst. cbn [bad_loop].
    assert (EN : map (fun _ : option Qc => @None Qc) im = repeat None (length im)) by (clear; induction im; cbn; congruence).
    destruct (existsb (Z.eqb (Z.of_nat n)) bad) eqn:E.
    + assert (Ev : (match ret with Some v => v | None => map (fun _ => None) im end) = repeat None (length im)).
      { destruct ret as [v|]; [exact HR|exact EN]. }
      rewrite Ev. destruct (IH (S n) (Some (repeat None (length im))) HF' eq_refl) as [L H]. split; [cbn; lia|].
      intros [|k] im' Ek.
      * rewrite Nat.add_0_r, E. reflexivity.
      * cbn [nth_error] in *. rewrite (H k im' Ek). replace (S n + k) with (n + S k) by lia. reflexivity.
    + destruct (IH (S n) ret HF' HR) as [L H]. split; [cbn; lia|]. intros [|k] im' Ek.
      * rewrite Nat.add_0_r, E. exact Ek.
      * cbn [nth_error] in *. rewrite (H k im' Ek). replace (S n + k) with (n + S k) by lia. reflexivity.
Qed.
Theorem bad_to_nan_ok N images bad : Forall (fun im => length im = N) images ->
  length (bad_to_nan_gen images bad) = length images /\
  forall k im, nth_error images k = Some im ->
    (In (Z.of_nat k) bad -> nth_error (bad_to_nan_gen images bad) k = Some (repeat None N)) /\
    (~ In (Z.of_nat k) bad -> nth_error (bad_to_nan_gen images bad) k = Some im).
Proof.
  intros HF. destruct (bad_loop_ok N bad images 0 None HF I) as [L H]. split; [exact L|]. intros k im Ek.
  unfold bad_to_nan_gen. rewrite (H k im Ek). cbn [Nat.add]. pose proof (in_bad k bad) as HB. split; intros Hb.
  - rewrite (proj2 HB Hb). reflexivity.
  - destruct (existsb _ _); [exfalso; apply Hb, HB; reflexivity|reflexivity].
Qed.

(** ** binned_outlier *)
Local Open Scope R_scope.
Lemma Rltb_iff x y : Rltb x y = true <-> x < y.
Proof. unfold Rltb. destruct (Rlt_dec x y); split; intros; auto; discriminate. Qed.
Lemma Rltb_trans x y z : Rltb x y = true -> Rltb y z = true -> Rltb x z = true.
Proof. rewrite !Rltb_iff. intros H1 H2. apply (Rlt_trans x y z); assumption. Qed.
Lemma strict_ordered leb l : (forall x y, x < y -> leb x y = true) -> strictly_increasing l -> ordered leb l = true.
Proof.
  intros Hle. induction l as [|a l IH]; intros H; [reflexivity|]. destruct l as [|b l]; [reflexivity|].
  change (ordered leb (a :: b :: l)) with (leb a b && ordered leb (b :: l))%bool. apply andb_true_iff. split.
  - apply Hle. apply (H 0%nat 1%nat); [lia|reflexivity|reflexivity].
  - apply IH. intros i j x y Hij Ex Ey. apply (H (S i) (S j)); [lia|exact Ex|exact Ey].
Qed.
Lemma total_rsum l : rsum l = total l.
Proof. induction l as [|x l IH]; cbn; [reflexivity|]. unfold rsum in IH. rewrite IH. reflexivity. Qed.
Lemma total_nonneg l : (forall x, In x l -> 0 <= x) -> 0 <= total l.
Proof.
  induction l as [|x l IH]; intros H; cbn; [lra|]. pose proof (H x (or_introl eq_refl)).
  assert (0 <= total l) by (apply IH; intros y Hy; apply H; right; exact Hy). lra.
Qed.
Lemma len_pos {A} (l : list A) : l <> [] -> 0 < INR (length l).
Proof. intros H. apply lt_0_INR. destruct l; [congruence|cbn; lia]. Qed.
Lemma rmean_ok l : l <> [] -> is_mean l (rmean l).
Proof. intros H. pose proof (len_pos l H). split; [exact H|]. unfold rmean. rewrite total_rsum. field. lra. Qed.
Lemma rstd_ok l : l <> [] -> is_std l (rmean l) (rstd l).
Proof.
  intros H. pose proof (len_pos l H). split; [apply sqrt_pos|]. unfold rstd. rewrite sqrt_sqrt.
  - unfold rvar. rewrite total_rsum. field. lra.
  - unfold rvar. rewrite total_rsum. apply Rmult_le_pos; [|left; apply Rinv_0_lt_compat; assumption].
    apply total_nonneg. intros x Hx. apply in_map_iff in Hx. destruct Hx as [y [<- _]]. apply Rle_0_sqr.
Qed.
Lemma mean_unique l m m' : is_mean l m -> is_mean l m' -> m = m'.
Proof. intros [H1 H2] [_ H3]. pose proof (len_pos l H1). apply (Rmult_eq_reg_r (INR (length l))); lra. Qed.
Lemma std_unique l m s s' : l <> [] -> is_std l m s -> is_std l m s' -> s = s'.
Proof.
  intros H1 [H2 H3] [H4 H5]. pose proof (len_pos l H1).
  assert (s * s = s' * s') by (apply (Rmult_eq_reg_r (INR (length l))); lra). nra.
Qed.
Section Bins.
Variable bins : list R.
Hypothesis Hs : strictly_increasing bins.
Hypothesis H2 : (2 <= length bins)%nat.
Lemma bins_ordered : ordered Rleb bins = true.
Proof. apply strict_ordered; [|exact Hs]. intros. apply Rleb_iff. lra. Qed.
Lemma bins_nth k : (k < length bins)%nat -> exists e, nth_error bins k = Some e.
Proof. intros H. destruct (nth_error bins k) as [e|] eqn:E; [eauto|]. apply nth_error_None in E. lia. Qed.
Lemma stat_bin_iff x k : stat_bin bins x = Some k <-> in_stat_bin bins k x.
Proof.
  unfold stat_bin, in_stat_bin. set (d := digitize Rleb bins x).
  pose proof (digitize_iff Rleb Rleb_trans bins x bins_ordered) as D. fold d in D.
  pose proof (digitize_le Rleb Rleb_trans bins x) as DL. fold d in DL.
  destruct (Nat.eqb_spec d 0) as [E0|E0].
  - split; [discriminate|]. intros [lo [hi [E1 [E2 [H _]]]]]. apply Rleb_iff in H. rewrite (D _ _ E1) in H. lia.
  - destruct (Nat.ltb_spec d (length bins)) as [Hd|Hd].
    + split.
      * intros E. injection E as <-. destruct (bins_nth (d - 1) ltac:(lia)) as [lo Elo]. destruct (bins_nth d ltac:(lia)) as [hi Ehi].
        exists lo, hi. split; [exact Elo|]. replace (d - 1 + 1)%nat with d by lia. split; [exact Ehi|]. split.
        -- apply Rleb_iff, (D _ _ Elo). lia.
        -- left. apply Rnot_le_lt. rewrite <- Rleb_iff, (D _ _ Ehi). lia.
      * intros [lo [hi [E1 [E2 [H [H'|[H' Hk]]]]]]].
        -- f_equal. apply Rleb_iff in H. rewrite (D _ _ E1) in H.
           assert (~ (k + 1 < d)%nat) by (rewrite <- (D _ _ E2), Rleb_iff; lra). lia.
        -- exfalso. assert (Hc : Rleb hi x = true) by (apply Rleb_iff; lra). rewrite (D _ _ E2) in Hc. lia.
    + assert (d = length bins) by lia. destruct (bins_nth (d - 1) ltac:(lia)) as [e Ee]. rewrite Ee.
      destruct (Rleb x e) eqn:Ex.
      * apply Rleb_iff in Ex. split.
        -- intros E. injection E as <-. destruct (bins_nth (d - 2) ltac:(lia)) as [lo Elo]. exists lo, e. split; [exact Elo|].
           replace (d - 2 + 1)%nat with (d - 1)%nat by lia. split; [exact Ee|]. split; [apply Rleb_iff, (D _ _ Elo); lia|].
           right. split; [|lia]. assert (Hc : Rleb e x = true) by (apply (D _ _ Ee); lia). apply Rleb_iff in Hc. lra.
        -- intros [lo [hi [E1 [E2 [_ [H'|[H' Hk]]]]]]]; [|f_equal; lia].
           exfalso. assert (Hc : Rleb hi x = true) by (apply (D _ _ E2); apply Nat.lt_le_trans with (length bins); [apply nth_error_Some; congruence|lia]).
           apply Rleb_iff in Hc. lra.
      * apply Rleb_false in Ex. split; [discriminate|].
        intros [lo [hi [E1 [E2 [_ H']]]]]. exfalso.
        assert (Hk : (k + 1 <= d - 1)%nat) by (assert (k + 1 < length bins)%nat by (apply nth_error_Some; congruence); lia).
        assert (hi <= e).
        { destruct (Nat.eq_dec (k + 1) (d - 1)) as [Eq|Ne]; [rewrite Eq in E2; right; congruence|]. left. apply (Hs (k + 1)%nat (d - 1)%nat); [lia|exact E2|exact Ee]. }
        destruct H' as [H'|[H' _]]; lra.
Qed.
Lemma nth_removelast {A} (l : list A) k : (k + 1 < length l)%nat -> nth_error (removelast l) k = nth_error l k.
Proof.
  revert k. induction l as [|a l IH]; intros k H; [cbn in H; lia|]. destruct l as [|b l]; [cbn in H; lia|].
  change (removelast (a :: b :: l)) with (a :: removelast (b :: l)). destruct k as [|k]; [reflexivity|]. cbn [nth_error]. apply IH. cbn in *. lia.
Qed.
Lemma len_removelast {A} (l : list A) : length (removelast l) = (length l - 1)%nat.
Proof.
  induction l as [|a l IH]; [reflexivity|]. destruct l as [|b l]; [reflexivity|].
  change (removelast (a :: b :: l)) with (a :: removelast (b :: l)). cbn [length] in *. lia.
Qed.
Lemma int_r_iff r k : (int_r bins r = k) <-> compared_with bins k r.
Proof.
  unfold int_r, compared_with. change (length (filter (fun e => Rltb e r) (removelast bins))) with (digitize Rltb (removelast bins) r).
  assert (HO : ordered Rltb (removelast bins) = true).
  { apply strict_ordered; [intros; apply Rltb_iff; assumption|]. intros i j a b Hij Ea Eb.
    assert (j < length (removelast bins))%nat by (apply nth_error_Some; congruence). rewrite len_removelast in H.
    rewrite nth_removelast in Ea by lia. rewrite nth_removelast in Eb by lia. exact (Hs i j a b Hij Ea Eb). }
  set (d := digitize Rltb (removelast bins) r).
  pose proof (digitize_iff Rltb Rltb_trans (removelast bins) r HO) as D. fold d in D.
  pose proof (digitize_le Rltb Rltb_trans (removelast bins) r) as DL. fold d in DL. rewrite len_removelast in DL.
  assert (D' : forall i e, (i + 1 < length bins)%nat -> nth_error bins i = Some e -> (e < r <-> (i < d)%nat)).
  { intros i e Hi Ee. rewrite <- (nth_removelast bins i Hi) in Ee. rewrite <- (D _ _ Ee), Rltb_iff. reflexivity. }
  destruct (bins_nth 0 ltac:(lia)) as [e0 E0]. pose proof (D' 0%nat e0 ltac:(lia) E0) as D0.
  destruct d as [|d'] eqn:Ed.
  - split.
    + intros <-. right. exists e0. split; [exact E0|]. split; [|lia]. apply Rnot_lt_le. rewrite D0. lia.
    + intros [[lo [Elo [Hlo [Hk _]]]]|[lo [Elo [Hlo Hk]]]]; [|lia]. rewrite (D' k lo Hk Elo) in Hlo. lia.
  - split.
    + intros <-. left. destruct (bins_nth d' ltac:(lia)) as [lo Elo]. exists lo. split; [exact Elo|]. split; [apply (D' d' lo ltac:(lia) Elo); lia|].
      split; [lia|]. intros hi Hk Ehi. apply Rnot_lt_le. rewrite (D' (d' + 1)%nat hi ltac:(lia) Ehi). lia.
    + intros [[lo [Elo [Hlo [Hk Hhi]]]]|[lo [Elo [Hlo Hk]]]].
      * rewrite (D' k lo Hk Elo) in Hlo. destruct (Nat.eq_dec (k + 2) (length bins)); [lia|].
        destruct (bins_nth (k + 1) ltac:(lia)) as [hi Ehi]. specialize (Hhi hi ltac:(lia) Ehi).
        assert (~ (k + 1 < S d')%nat) by (rewrite <- (D' (k + 1)%nat hi ltac:(lia) Ehi); lra). lia.
      * assert (lo = e0) by congruence. subst lo. exfalso. assert (e0 < r) by (apply D0; lia). lra.
Qed.
Lemma members_ok k : forall mask r img s, length mask = length img -> length r = length img ->
  picked (fun p => nth_error mask (p - s) = Some true /\ exists x, nth_error r (p - s) = Some x /\ in_stat_bin bins k x) s img
    (members bins (combine mask (combine r img)) k).
Proof.
  intros mask r img. revert mask r. induction img as [|v img IH]; intros [|m mask] [|x r] s L1 L2; cbn in L1, L2; try lia; [constructor|].
  unfold members. cbn [combine filter fst snd map].
  assert (Hin : (m && match stat_bin bins x with Some k' => (k' =? k)%nat | None => false end)%bool = true <-> (m = true /\ in_stat_bin bins k x)).
  { rewrite andb_true_iff, <- stat_bin_iff. destruct (stat_bin bins x) as [k'|].
    - rewrite Nat.eqb_eq. split; intros [? ?]; split; congruence.
    - split; intros [? ?]; discriminate. }
  assert (HT : picked (fun p => nth_error (m :: mask) (p - s) = Some true /\ exists y, nth_error (x :: r) (p - s) = Some y /\ in_stat_bin bins k y)
    (S s) img (members bins (combine mask (combine r img)) k)).
  { eapply picked_iff; [|apply (IH mask r (S s)); lia]. intros p Hp. cbn beta. replace (p - s)%nat with (S (p - S s)) by lia. reflexivity. }
  destruct (m && _)%bool.
  - cbn [map snd]. apply picked_yes; [|exact HT]. rewrite Nat.sub_diag. cbn [nth_error].
    destruct (proj1 Hin eq_refl) as [-> HB]. split; [reflexivity|]. eauto.
  - apply picked_no; [|exact HT]. rewrite Nat.sub_diag. cbn [nth_error]. intros [E [y [Ey HB]]].
    assert (false = true) by (apply Hin; split; congruence). discriminate.
Qed.
End Bins.
Lemma picked_unique {A} (P : nat -> Prop) i (l r r' : list A) : picked P i l r -> picked P i l r' -> r = r'.
Proof.
  intros H. revert r'. induction H as [i|i x l r HP H IH|i x l r HP H IH]; intros r' H'; inversion H'; subst; try reflexivity; try contradiction.
  - f_equal. apply IH. assumption.
  - apply IH. assumption.
Qed.
Lemma nth_combine {A B} (l : list A) (l' : list B) k a b : nth_error l k = Some a -> nth_error l' k = Some b -> nth_error (combine l l') k = Some (a, b).
Proof.
  revert l' k. induction l as [|x l IH]; intros [|y l'] [|k] Ha Hb; cbn in *; try discriminate; [congruence|]. apply IH; assumption.
Qed.
Theorem outlier_ok img r alpha bins mask : strictly_increasing bins -> (2 <= length bins)%nat ->
  let m := match mask with Some m => m | None => map (fun _ => true) img end in
  length m = length img -> length r = length img -> length (alphas alpha (length bins - 1)) = (length bins - 1)%nat ->
  exists out, binned_outlier img r alpha bins mask = Some out /\ length out = length img /\
  forall p x v b k a, nth_error r p = Some x -> nth_error img p = Some v -> nth_error m p = Some b ->
    compared_with bins k x -> nth_error (alphas alpha (length bins - 1)) k = Some a ->
    (nth_error out p = Some true <-> b = true /\
       exists vs mu sd, bin_values bins r img m k vs /\ is_mean vs mu /\ is_std vs mu sd /\ mu - a * sd < v < mu + a * sd).
Proof.
  intros Hs H2 m L1 L2 L3. unfold binned_outlier. fold m.
  replace (negb _) with false.
  2:{ symmetry. apply negb_false_iff. rewrite !andb_true_iff. repeat split; try (apply Nat.eqb_eq; assumption); [apply Nat.leb_le; exact H2|].
      apply bins_ordered; assumption. }
  eexists. split; [reflexivity|]. split; [rewrite map_length, !combine_length; lia|].
  intros p x v b k a Er Ei Em HC Ea. rewrite nth_error_map.
  rewrite (nth_combine _ _ _ _ _ Em (nth_combine _ _ _ _ _ Er Ei)). cbn [option_map].
  unfold outlier_pixel, limits. cbn [fst snd]. apply (int_r_iff bins Hs H2) in HC. rewrite HC, Ea. cbn [bind].
  pose proof (members_ok bins Hs H2 k m r img 0 L1 L2) as HM. set (vs := members _ _ _) in *.
  assert (HM' : bin_values bins r img m k vs).
  { eapply picked_iff; [|exact HM]. intros q _. cbn beta. rewrite Nat.sub_0_r. reflexivity. }
  clear HM. clearbody vs. split.
  - intros E. injection E as E. destruct vs as [|v0 vs']; [discriminate|]. rewrite !andb_true_iff, !Rltb_iff in E.
    split; [tauto|]. exists (v0 :: vs'). do 2 eexists. split; [exact HM'|]. split; [apply rmean_ok; discriminate|]. split; [apply rstd_ok; discriminate|].
    split; tauto.
  - intros [-> [vs' [mu [sd [H3 [H4 [H5 H6]]]]]]]. rewrite (picked_unique _ _ _ _ _ H3 HM') in *. pose proof (proj1 H4) as Hne.
    assert (Emu : mu = rmean vs) by (eapply mean_unique; [exact H4|apply rmean_ok; exact Hne]). subst mu.
    assert (Esd : sd = rstd vs) by (eapply std_unique; [exact Hne|exact H5|apply rstd_ok; exact Hne]). subst sd.
    destruct vs as [|v0 vs0]; [congruence|]. f_equal. rewrite !andb_true_iff, !Rltb_iff. tauto.
Qed.
(** Strictly inside a bin the pixel is compared with its own bin; on an inner edge
    with the bin below; on the first edge with the last bin. *)
Lemma compared_inside bins k x lo hi : nth_error bins k = Some lo -> nth_error bins (k + 1) = Some hi -> lo < x < hi -> compared_with bins k x.
Proof.
  intros E1 E2 H. left. exists lo. split; [exact E1|]. split; [lra|]. split; [apply nth_error_Some; congruence|]. intros hi' _ E. rewrite E2 in E. injection E as <-. lra.
Qed.
Lemma compared_edge bins k lo hi : strictly_increasing bins -> nth_error bins k = Some lo -> nth_error bins (k + 1) = Some hi -> compared_with bins k hi.
Proof.
  intros Hs E1 E2. left. exists lo. split; [exact E1|]. split; [apply (Hs k (k + 1)%nat); [lia|assumption|assumption]|].
  split; [apply nth_error_Some; congruence|]. intros hi' _ E. rewrite E2 in E. injection E as <-. lra.
Qed.
Lemma compared_first bins lo : (2 <= length bins)%nat -> nth_error bins 0 = Some lo -> compared_with bins (length bins - 2) lo.
Proof. intros H E. right. exists lo. split; [exact E|]. split; [lra|lia]. Qed.

(** An image whose third pixel sits exactly on the inner edge 1. *)
Lemma ex_bin0 x : in_stat_bin [0; 1; 2] 0 x <-> 0 <= x < 1.
Proof.
  unfold in_stat_bin. cbn. split.
  - intros [lo [hi [E1 [E2 [H [H'|[_ H']]]]]]]; [|lia]. injection E1 as <-. injection E2 as <-. lra.
  - intros H. exists 0, 1. repeat split; try lra. all: left; lra.
Qed.
Lemma ex_bin1 x : in_stat_bin [0; 1; 2] 1 x <-> 1 <= x <= 2.
Proof.
  unfold in_stat_bin. cbn. split.
  - intros [lo [hi [E1 [E2 [H H']]]]]. injection E1 as <-. injection E2 as <-. destruct H' as [H'|[H' _]]; lra.
  - intros H. exists 1, 2. split; [reflexivity|]. split; [reflexivity|]. split; [lra|]. destruct (Rle_lt_or_eq_dec x 2 ltac:(lra)); [left; lra|right; split; [lra|lia]].
Qed.
Lemma ex_strict : strictly_increasing [0; 1; 2].
Proof.
  assert (HE : forall k e, nth_error [0; 1; 2] k = Some e -> e = INR k /\ (k < 3)%nat).
  { intros k e E. assert (k < 3)%nat by (change 3%nat with (length [0; 1; 2]); apply nth_error_Some; congruence).
    destruct k as [|[|[|k]]]; [| | |lia]; cbn in E; injection E as <-; cbn; split; (lra || lia). }
  intros i j a b Hij Ea Eb. apply HE in Ea. apply HE in Eb. destruct Ea as [-> _]. destruct Eb as [-> _]. apply lt_INR. exact Hij.
Qed.
Definition ex_img := [0; 2; 10; 12].
Definition ex_r := [1 / 2; 1 / 2; 1; 3 / 2].
Lemma ex_values0 : bin_values [0; 1; 2] ex_r ex_img [true; true; true; true] 0 [0; 2].
Proof.
  unfold bin_values, ex_r, ex_img.
  apply picked_yes; [split; [reflexivity|]; eexists; split; [reflexivity|]; apply ex_bin0; lra|].
  apply picked_yes; [split; [reflexivity|]; eexists; split; [reflexivity|]; apply ex_bin0; lra|].
  apply picked_no; [intros [_ [x [E H]]]; cbn in E; injection E as <-; apply ex_bin0 in H; lra|].
  apply picked_no; [intros [_ [x [E H]]]; cbn in E; injection E as <-; apply ex_bin0 in H; lra|]. constructor.
Qed.
Lemma ex_values1 : bin_values [0; 1; 2] ex_r ex_img [true; true; true; true] 1 [10; 12].
Proof.
  unfold bin_values, ex_r, ex_img.
  apply picked_no; [intros [_ [x [E H]]]; cbn in E; injection E as <-; apply ex_bin1 in H; lra|].
  apply picked_no; [intros [_ [x [E H]]]; cbn in E; injection E as <-; apply ex_bin1 in H; lra|].
  apply picked_yes; [split; [reflexivity|]; eexists; split; [reflexivity|]; apply ex_bin1; lra|].
  apply picked_yes; [split; [reflexivity|]; eexists; split; [reflexivity|]; apply ex_bin1; lra|]. constructor.
Qed.
Theorem edge_refuted : exists img r bins a out p k mu sd vs,
  binned_outlier img r (AOne a) bins None = Some out /\
  (exists x, nth_error r p = Some x /\ in_stat_bin bins k x) /\
  bin_values bins r img (map (fun _ => true) img) k vs /\ is_mean vs mu /\ is_std vs mu sd /\
  (exists v, nth_error img p = Some v /\ mu - a * sd < v < mu + a * sd) /\ nth_error out p = Some false.
Proof.
  destruct (outlier_ok ex_img ex_r (AOne (3 / 2)) [0; 1; 2] None ex_strict ltac:(cbn; lia) eq_refl eq_refl eq_refl) as [out [E [L H]]].
  exists ex_img, ex_r, [0; 1; 2], (3 / 2), out, 2%nat, 1%nat, 11, 1, [10; 12].
  split; [exact E|]. split; [exists 1; split; [reflexivity|apply ex_bin1; lra]|]. split; [apply ex_values1|].
  split; [split; [discriminate|cbn; lra]|]. split; [split; [lra|cbn; lra]|]. split; [exists 10; split; [reflexivity|lra]|].
  specialize (H 2%nat 1 10 true 0%nat (3 / 2) eq_refl eq_refl eq_refl).
  assert (HC : compared_with [0; 1; 2] 0 1) by (apply (compared_edge _ 0 0 1 ex_strict); reflexivity).
  specialize (H HC eq_refl). destruct (nth_error out 2) as [[|]|] eqn:Eo; [|reflexivity|].
  - exfalso. destruct (proj1 H eq_refl) as [_ [vs [mu [sd [H1 [H2 [H3 H4]]]]]]].
    rewrite (picked_unique _ _ _ _ _ H1 ex_values0) in *. destruct H2 as [_ H2]. cbn in H2. destruct H3 as [H3 H3']. cbn in H3'.
    assert (mu = 1) by lra. subst mu. assert (sd = 1) by nra. subst sd. lra.
  - apply nth_error_None in Eo. rewrite L in Eo. cbn in Eo. lia.
Qed.
Theorem bad_sizes_refuted : exists images bad k im out, In (Z.of_nat k) bad /\ nth_error images k = Some im /\
  nth_error (bad_to_nan_gen images bad) k = Some out /\ length out <> length im.
Proof.
  exists [[Some 0%Qc]; [Some 0%Qc; Some 0%Qc]], [0; 1]%Z, 1%nat, [Some 0%Qc; Some 0%Qc], [None].
  split; [right; left; reflexivity|]. split; [reflexivity|]. split; [reflexivity|]. cbn. lia.
Qed.

Lemma alphas_given alpha n k a : (k < n)%nat ->
  match alpha with AOne x => a = x | ATuple x y => spread x y n k a | AArray l => length l = n /\ nth_error l k = Some a end ->
  length (alphas alpha n) = n /\ nth_error (alphas alpha n) k = Some a.
Proof.
  intros Hk. destruct alpha as [x|x y|l]; cbn [alphas].
  - intros ->. rewrite repeat_length. split; [reflexivity|]. apply nth_error_repeat. exact Hk.
  - intros [H0 H]. rewrite map_length, seq_length. split; [reflexivity|]. rewrite nth_error_map, nth_error_nth' with (d := O) by (rewrite seq_length; exact Hk).
    rewrite seq_nth by exact Hk. cbn [option_map]. f_equal. rewrite Nat.add_0_l.
    destruct k as [|k]. { rewrite (H0 eq_refl). cbn [INR]. ring. }
    rewrite (minus_INR (n - 1) (S k)) in H by lia. assert (HN : INR (n - 1) <> 0) by (apply not_0_INR; lia).
    apply Rmult_eq_reg_r with (INR (n - 1)); [|exact HN]. rewrite H. field. exact HN.
  - tauto.
Qed.
Lemma compared_lt bins k x : (2 <= length bins)%nat -> compared_with bins k x -> (k < length bins - 1)%nat.
Proof. intros H2 [[lo [_ [_ [H _]]]]|[lo [_ [_ H]]]]; lia. Qed.
Theorem outlier_given img r alpha bins mask : strictly_increasing bins -> (2 <= length bins)%nat ->
  let m := match mask with Some m => m | None => map (fun _ => true) img end in
  let n := (length bins - 1)%nat in
  length m = length img -> length r = length img -> (forall l, alpha = AArray l -> length l = n) ->
  exists out, binned_outlier img r alpha bins mask = Some out /\ length out = length img /\
  forall p x v b k a, nth_error r p = Some x -> nth_error img p = Some v -> nth_error m p = Some b ->
    compared_with bins k x -> match alpha with AOne c => a = c | ATuple c d => spread c d n k a | AArray l => nth_error l k = Some a end ->
    (nth_error out p = Some true <-> b = true /\
       exists vs mu sd, bin_values bins r img m k vs /\ is_mean vs mu /\ is_std vs mu sd /\ mu - a * sd < v < mu + a * sd).
Proof.
  intros Hs H2 m n L1 L2 L3.
  destruct (outlier_ok img r alpha bins mask Hs H2 L1 L2) as [out [E [Lo H]]].
  { fold n. destruct alpha as [x|x y|l]; cbn [alphas]; [apply repeat_length|rewrite map_length; apply seq_length|apply L3; reflexivity]. }
  exists out. split; [exact E|]. split; [exact Lo|]. intros p x v b k a Er Ei Em HC Ha.
  apply (H p x v b k a Er Ei Em HC). apply (alphas_given alpha n k a (compared_lt _ _ _ H2 HC)).
  destruct alpha as [c|c d|l]; [exact Ha|exact Ha|split; [apply L3; reflexivity|exact Ha]].
Qed.
