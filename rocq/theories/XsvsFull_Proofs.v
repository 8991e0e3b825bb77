(* The whole of xsvs in binary64: each entry of its tables is the entry model on the histograms of
   the frames its level holds.  The loop invariant is that of Xsvs_Proofs with doubles. *)
From Verif Require Import Common F64 GridF_Model RunMean_Model XsvsF_Model XsvsF_Spec XsvsF_Proofs.
From Verif Require Import Roi_Model Xsvs_Model Xsvs_Spec Xsvs_Proofs XsvsFull_Model.
Local Open Scope nat_scope.
Local Notation fmul := F64.fmul.

Section Loop.
Context (conv : Z -> Z) (T num_times : nat) (labels : list Z) (max_cts : nat) (imgs : list frame).
Hypothesis conv_0 : conv 0%Z = 0%Z.
Hypothesis conv_add : forall a b, conv (conv a + conv b)%Z = conv (a + b)%Z.
Hypothesis HT : 2 <= T.
Hypothesis Hlen : forall x, In (Some x) imgs -> length x = length labels /\ Forall (fun v => conv v = v) x.
Notation np := (length labels).
Notation mix := (mixed_as conv np imgs).
Definition zslot (n : nat) : nat := n mod T.                         (* slot of frame n *)
Definition pslot (n : nat) : nat := (n + T - 1) mod T.               (* slot of frame n - 1 *)
(** the histogram the frame of level l gives for entry (l, j, b) *)
Definition ev (l j b m : nat) : option (Z * Z) := option_map (hist_counts labels max_cts l j b) (mix l m).
Definition pkn (l j b n : nat) : f64 := updates fzero 1 (map spe_hist (given (map (ev l j b) (seq 0 n)))).
Definition pwn (l j b n : nat) : f64 := updates fzero 1 (map (fun c => fmul (spe_hist c) (spe_hist c)) (given (map (ev l j b) (seq 0 n)))).
Lemma given_app {A} (a b : list (option A)) : given (a ++ b) = given a ++ given b.
Proof. unfold given. apply flat_map_app. Qed.
Lemma given_goods l j b n : length (given (map (ev l j b) (seq 0 n))) = goods (mix l) n.
Proof.
  induction n as [|n IH]; [reflexivity|]. rewrite goods_S, seq_S, map_app, given_app, app_length, IH. cbn [Nat.add map]. unfold ev. destruct (mix l n); reflexivity.
Qed.
Lemma pkn_S l j b n : pkn l j b (S n) = match ev l j b n with Some c => update (pkn l j b n) (Z.of_nat (goods (mix l) n) + 1) (spe_hist c) | None => pkn l j b n end.
Proof.
  unfold pkn. rewrite seq_S, map_app, given_app, map_app, updates_app, map_length, given_goods. cbn [Nat.add map given flat_map]. destruct (ev l j b n); cbn [app map updates]; [|reflexivity].
  f_equal. lia.
Qed.
Lemma pwn_S l j b n : pwn l j b (S n) = match ev l j b n with Some c => update (pwn l j b n) (Z.of_nat (goods (mix l) n) + 1) (fmul (spe_hist c) (spe_hist c)) | None => pwn l j b n end.
Proof.
  unfold pwn. rewrite seq_S, map_app, given_app, map_app, updates_app, map_length, given_goods. cbn [Nat.add map given flat_map]. destruct (ev l j b n); cbn [app map updates]; [|reflexivity].
  f_equal. lia.
Qed.
(** level l after n frames *)
Definition counted (s : stF) (l n : nat) : Prop :=
  iplF s l = n /\ badF s l = n - goods (mix l) n /\
  (forall j b, pkF s l j b = pkn l j b n) /\ (forall j b, pwF s l j b = pwn l j b n).
Definition waiting (s : stF) (l n : nat) : Prop :=
  (curF s l mod Z.of_nat T = Z.of_nat n mod Z.of_nat T)%Z /\ trkF s l = false /\ bufF s l (pslot n) = before conv np imgs l n /\ counted s l n.
Definition done (s : stF) (l n : nat) : Prop :=
  slot T (curF s l) = Some (zslot n) /\ (curF s l mod Z.of_nat T = Z.of_nat (n + 1) mod Z.of_nat T)%Z /\ trkF s l = false /\
  bufF s l (zslot n) = mix l n /\ bufF s l (pslot n) = before conv np imgs l n /\ counted s l (n + 1).
Lemma slots_differ n : zslot n <> pslot n.
Proof.
  unfold zslot, pslot. intros E. pose proof (Nat.div_mod n T ltac:(lia)) as D. set (q := n / T) in *. set (r := n mod T) in *.
  assert (r < T) by (apply Nat.mod_upper_bound; lia). clearbody q r. subst n. destruct r as [|r].
  - assert (H0 : (T - 1) = (T * q + 0 + T - 1) mod T) by (apply (Nat.mod_unique _ _ q); lia). lia.
  - assert (H0 : r = (T * q + S r + T - 1) mod T) by (apply (Nat.mod_unique _ _ (q + 1)); lia). lia.
Qed.
Lemma pslot_S n : pslot (n + 1) = zslot n.
Proof. unfold pslot, zslot. replace (n + 1 + T - 1) with (n + 1 * T) by lia. apply Nat.mod_add. lia. Qed.
Lemma done_waiting s l n : done s l n -> waiting s l (n + 1).
Proof.
  intros [_ [H2 [H3 [H4 [_ H6]]]]]. split; [exact H2|]. split; [exact H3|]. split; [|exact H6]. rewrite pslot_S, H4, Nat.add_1_r. reflexivity.
Qed.
Lemma process_counted lvl sl s n : counted s lvl n -> bufF s lvl sl = mix lvl n -> counted (processF labels max_cts lvl sl s) lvl (n + 1).
Proof.
  intros [H1 [H2 [H3 H4]]] E. unfold processF. rewrite E, (Nat.add_1_r n). pose proof (goods_le (mix lvl) n) as Hg.
  unfold counted. rewrite goods_S.
  assert (KP : forall j b, pkn lvl j b (S n) = match ev lvl j b n with Some c => update (pkn lvl j b n) (Z.of_nat (goods (mix lvl) n) + 1) (spe_hist c) | None => pkn lvl j b n end) by (intros; apply pkn_S).
  assert (KW : forall j b, pwn lvl j b (S n) = match ev lvl j b n with Some c => update (pwn lvl j b n) (Z.of_nat (goods (mix lvl) n) + 1) (fmul (spe_hist c) (spe_hist c)) | None => pwn lvl j b n end) by (intros; apply pwn_S).
  unfold ev in KP, KW.
  destruct (mix lvl n) as [px|] eqn:Em; cbn [iplF badF pkF pwF is_good option_map] in *; unfold set1; rewrite ?Nat.eqb_refl, H1.
  - split; [lia|]. split; [lia|].
    assert (Ec : (Z.of_nat (n + 1) - Z.of_nat (badF s lvl))%Z = (Z.of_nat (goods (mix lvl) n) + 1)%Z) by lia.
    rewrite Ec. split; intros j b; rewrite ?Nat.eqb_refl; [rewrite H3, KP|rewrite H4, KW]; reflexivity.
  - split; [lia|]. split; [lia|]. split; intros j b; [rewrite H3, KP|rewrite H4, KW]; reflexivity.
Qed.
Lemma process_keeps lvl sl s : let s' := processF labels max_cts lvl sl s in bufF s' = bufF s /\ curF s' = curF s /\ trkF s' = trkF s.
Proof. cbv zeta. unfold processF. destruct (bufF s lvl sl); auto. Qed.
Lemma process_other lvl sl s l n : l <> lvl -> counted s l n -> counted (processF labels max_cts lvl sl s) l n.
Proof.
  intros N H. unfold processF. assert (E : (l =? lvl) = false) by (apply Nat.eqb_neq; exact N).
  destruct (bufF s lvl sl); unfold counted in *; cbn [iplF badF pkF pwF]; unfold set1; rewrite ?E; [|exact H].
  destruct H as [H1 [H2 [H3 H4]]]. split; [exact H1|]. split; [exact H2|]. split; intros j b; rewrite ?E; [apply H3|apply H4].
Qed.
Lemma slot_of c n : (c mod Z.of_nat T = Z.of_nat (n + 1) mod Z.of_nat T)%Z -> (0 <= c <= Z.of_nat T)%Z -> slot T c = Some (zslot n).
Proof.
  intros E B. unfold slot, pyindex, zslot.
  assert (Ec : ((c - 1) mod Z.of_nat T = Z.of_nat n mod Z.of_nat T)%Z).
  { rewrite Zminus_mod, E, <- Zminus_mod. f_equal. lia. }
  rewrite <- Nat2Z.inj_mod in Ec.
  destruct ((0 <=? c - 1)%Z && (c - 1 <? Z.of_nat T)%Z) eqn:E1.
  - rewrite Z.mod_small in Ec by lia. f_equal. lia.
  - replace ((- Z.of_nat T <=? c - 1)%Z && (c - 1 <? 0)%Z) with true by lia. f_equal.
    assert (c = 0)%Z by lia. subst c. replace ((0 - 1) mod Z.of_nat T)%Z with (Z.of_nat T - 1)%Z in Ec by (apply (Z.mod_unique _ _ (-1)); lia). lia.
Qed.
Lemma slot_prev c n : (c mod Z.of_nat T = Z.of_nat (n + 1) mod Z.of_nat T)%Z -> slot T (1 + (c - 2) mod Z.of_nat T) = Some (pslot n).
Proof.
  intros E. unfold slot, pyindex, pslot. replace (1 + (c - 2) mod Z.of_nat T - 1)%Z with ((c - 2) mod Z.of_nat T)%Z by lia.
  pose proof (Z.mod_pos_bound (c - 2) (Z.of_nat T) ltac:(lia)) as B.
  assert (Ec : ((c - 2) mod Z.of_nat T = Z.of_nat (n + T - 1) mod Z.of_nat T)%Z).
  { rewrite Zminus_mod, E, <- Zminus_mod. replace (Z.of_nat (n + T - 1)) with (Z.of_nat (n + 1) - 2 + 1 * Z.of_nat T)%Z by lia. rewrite Z.mod_add by lia. reflexivity. }
  rewrite <- Nat2Z.inj_mod in Ec. set (r := ((c - 2) mod Z.of_nat T)%Z) in *. clearbody r. set (m := (n + T - 1) mod T) in *. clearbody m.
  replace ((0 <=? r)%Z && (r <? Z.of_nat T)%Z) with true by lia. f_equal. lia.
Qed.
Definition cur_ok (s : stF) : Prop := forall l, (0 <= curF s l <= Z.of_nat T)%Z.
Lemma levels_ok n : forall m lvl s fuel, 1 <= lvl -> lvl + m = num_times \/ (m = 0 /\ num_times <= lvl) -> 2 * m < fuel -> cur_ok s ->
  (forall l, l < lvl -> done s l n) -> (forall l, lvl <= l -> l < num_times -> waiting s l n) ->
  exists s', levelsF conv T num_times labels max_cts fuel lvl s = Some s' /\ cur_ok s' /\ forall l, l < Nat.max lvl num_times -> done s' l n.
Proof.
  induction m as [|m IH]; intros lvl s fuel Hl Hm Hf HC HD HW.
  - destruct fuel as [|fuel]; [lia|]. cbn [levelsF]. replace (lvl <? num_times) with false by lia. exists s. split; [reflexivity|]. split; [exact HC|].
    intros l Hl'. apply HD. lia.
  - destruct Hm as [Hm|Hm]; [|lia]. destruct fuel as [|[|fuel]]; [lia|lia|]. cbn [levelsF]. replace (lvl <? num_times) with true by lia.
    destruct (HW lvl ltac:(lia) ltac:(lia)) as [W1 [W2 [W3 W4]]]. rewrite W2. cbn [negb trkF curF bufF]. unfold set1 at 1. rewrite Nat.eqb_refl. cbn [negb].
    destruct (HD (lvl - 1) ltac:(lia)) as [D1 [D2 [D3 [D4 [D5 D6]]]]].
    rewrite (slot_prev _ n D2). cbn [bind]. rewrite D1. cbn [bind].
    set (c := (1 + curF s lvl mod Z.of_nat T)%Z).
    assert (Bc : (0 <= c <= Z.of_nat T)%Z) by (unfold c; pose proof (Z.mod_pos_bound (curF s lvl) (Z.of_nat T) ltac:(lia)); lia).
    assert (Ec : (c mod Z.of_nat T = Z.of_nat (n + 1) mod Z.of_nat T)%Z).
    { unfold c. rewrite W1. rewrite Zplus_mod_idemp_r. f_equal. lia. }
    rewrite (slot_of c n Ec Bc). cbn [bind]. rewrite D4, D5.
    assert (Em : Xsvs_Model.fadd conv (before conv np imgs (lvl - 1) n) (mix (lvl - 1) n) = mix lvl n) by (rewrite <- mixed_step by assumption; f_equal; lia). rewrite Em.
    set (s1 := StF (set2 (bufF s) lvl (zslot n) (mix lvl n)) (set1 (curF s) lvl c) (set1 (set1 (trkF s) lvl true) lvl false) (iplF s) (badF s) (pkF s) (pwF s)).
    destruct (process_keeps lvl (zslot n) s1) as [P1 [P2 P3]].
    assert (B1 : bufF s1 lvl (zslot n) = mix lvl n). { unfold s1, set2, set1. cbn [bufF]. rewrite !Nat.eqb_refl. reflexivity. }
    destruct (IH (lvl + 1) (processF labels max_cts lvl (zslot n) s1) fuel) as [s' [E [C' D']]].
    + lia.
    + lia.
    + lia.
    + intros l. rewrite P2. unfold s1, set1. cbn [curF]. destruct (l =? lvl); [exact Bc|apply HC].
    + intros l Hl'. unfold done. rewrite P1, P2, P3. destruct (Nat.eq_dec l lvl) as [->|Ne].
      * unfold s1 at 1 2 3. cbn [curF trkF]. unfold set1. rewrite Nat.eqb_refl. split; [apply slot_of; assumption|]. split; [exact Ec|]. split; [reflexivity|].
        split; [exact B1|]. split.
        -- unfold s1, set2, set1. cbn [bufF]. rewrite Nat.eqb_refl. replace (pslot n =? zslot n) with false; [exact W3|]. symmetry. apply Nat.eqb_neq. intros X. symmetry in X. exact (slots_differ n X).
        -- apply process_counted; [exact W4|exact B1].
      * destruct (HD l ltac:(lia)) as [G1 [G2 [G3 [G4 [G5 G6]]]]]. assert (Ef : (l =? lvl) = false) by (apply Nat.eqb_neq; exact Ne).
        unfold s1 at 1 2 3 4 5. cbn [curF trkF bufF]. unfold set2, set1. rewrite Ef. repeat (split; [assumption|]). apply process_other; [exact Ne|exact G6].
    + intros l Hl1 Hl2. unfold waiting. rewrite P1, P2, P3. destruct (HW l ltac:(lia) Hl2) as [G1 [G2 [G3 G4]]].
      assert (Ne : l <> lvl) by lia. assert (Ef : (l =? lvl) = false) by (apply Nat.eqb_neq; exact Ne).
      unfold s1 at 1 2 3. cbn [curF trkF bufF]. unfold set2, set1. rewrite Ef. repeat (split; [assumption|]). apply process_other; [exact Ne|exact G4].
    + exists s'. split; [exact E|]. split; [exact C'|]. intros l Hl'. apply D'. lia.
Qed.
Lemma image_ok n s img : 1 <= num_times -> nth_error imgs n = Some img -> cur_ok s -> (forall l, l < num_times -> waiting s l n) ->
  exists s', one_imageF conv T num_times labels max_cts s img = Some s' /\ cur_ok s' /\ forall l, l < num_times -> done s' l n.
Proof.
  intros Hn Ei HC HW. unfold one_imageF. destruct (HW 0 ltac:(lia)) as [W1 [W2 [W3 W4]]].
  set (c := ((1 + curF s 0) mod Z.of_nat T)%Z).
  assert (Bc : (0 <= c <= Z.of_nat T)%Z) by (unfold c; pose proof (Z.mod_pos_bound (1 + curF s 0) (Z.of_nat T) ltac:(lia)); lia).
  assert (Ec : (c mod Z.of_nat T = Z.of_nat (n + 1) mod Z.of_nat T)%Z).
  { unfold c. rewrite Z.mod_mod by lia. rewrite <- Zplus_mod_idemp_r, W1, Zplus_mod_idemp_r. f_equal. lia. }
  rewrite (slot_of c n Ec Bc). cbn [bind].
  assert (Em : img = mix 0 n). { symmetry. apply mixed_0; [exact Ei|]. intros x ->. apply Hlen. eapply nth_error_In; exact Ei. }
  set (s1 := StF (set2 (bufF s) 0 (zslot n) img) (set1 (curF s) 0 c) (trkF s) (iplF s) (badF s) (pkF s) (pwF s)).
  destruct (process_keeps 0 (zslot n) s1) as [P1 [P2 P3]].
  assert (B1 : bufF s1 0 (zslot n) = mix 0 n). { unfold s1, set2, set1. cbn [bufF]. rewrite !Nat.eqb_refl. exact Em. }
  destruct (levels_ok n (num_times - 1) 1 (processF labels max_cts 0 (zslot n) s1) (2 * num_times + 1)) as [s' [E [C' D']]].
  - lia.
  - lia.
  - lia.
  - intros l. rewrite P2. unfold s1, set1. cbn [curF]. destruct (l =? 0); [exact Bc|apply HC].
  - intros l Hl. assert (l = 0) by lia. subst l. unfold done. rewrite P1, P2, P3. unfold s1 at 1 2 3. cbn [curF trkF]. unfold set1. rewrite Nat.eqb_refl.
    split; [apply slot_of; assumption|]. split; [exact Ec|]. split; [exact W2|]. split; [exact B1|]. split.
    + unfold s1, set2, set1. cbn [bufF]. rewrite Nat.eqb_refl. replace (pslot n =? zslot n) with false; [exact W3|]. symmetry. apply Nat.eqb_neq. intros X. symmetry in X. exact (slots_differ n X).
    + apply process_counted; [exact W4|exact B1].
  - intros l Hl1 Hl2. unfold waiting. rewrite P1, P2, P3. destruct (HW l Hl2) as [G1 [G2 [G3 G4]]]. assert (Ne : l <> 0) by lia.
    assert (Ef : (l =? 0) = false) by (apply Nat.eqb_neq; exact Ne).
    unfold s1 at 1 2 3. cbn [curF trkF bufF]. unfold set2, set1. rewrite Ef. repeat (split; [assumption|]). apply process_other; [exact Ne|exact G4].
  - exists s'. split; [exact E|]. split; [exact C'|]. intros l Hl. apply D'. lia.
Qed.
Lemma start_waiting l : waiting (startF T labels) l 0.
Proof.
  unfold waiting, startF. cbn [curF trkF bufF]. split; [change (Z.of_nat 0) with 0%Z; rewrite Z_mod_same_full, Zmod_0_l; reflexivity|]. split; [reflexivity|]. split; [reflexivity|].
  unfold counted, goods. cbn. split; [reflexivity|]. split; [reflexivity|]. split; intros; reflexivity.
Qed.
Lemma start_cur : cur_ok (startF T labels). Proof. intros l. unfold startF. cbn [curF]. lia. Qed.
(** ** The tables after each image *)
Definition entry_at (l j b n : nat) (a ap : f64) : entry := Entry (Z.of_nat (goods (mix l) n)) (pkn l j b n) (pwn l j b n) a ap.
Lemma entry_step i l j b n a ap : entry_image i (entry_at l j b n a ap) (ev l j b n) =
  entry_at l j b (S n) (update a (Z.of_nat (i + 1)) (pkn l j b (S n))) (update ap (Z.of_nat (i + 1)) (pwn l j b (S n))).
Proof.
  unfold entry_image, entry_at. cbn [good XsvsF_Model.pk XsvsF_Model.pw all allp]. rewrite pkn_S, pwn_S, goods_S. unfold ev. destruct (mix l n) as [px|] eqn:E; cbn [option_map is_good].
  - f_equal. lia.
  - f_equal. lia.
Qed.
Lemma images_ok i : 1 <= num_times -> forall rest n s al alp, imgs = firstn n imgs ++ rest -> n <= length imgs -> cur_ok s -> (forall l, l < num_times -> waiting s l n) ->
  exists s' al' alp', foldM (image_bodyF conv T num_times labels max_cts i) rest (s, al, alp) = Some (s', al', alp') /\
    forall l j b, l < num_times -> let t := fold_left (entry_image i) (map (ev l j b) (seq n (length rest))) (entry_at l j b n (al l j b) (alp l j b)) in
      al' l j b = all t /\ alp' l j b = allp t.
Proof.
  intros Hn. induction rest as [|img rest IH]; intros n s al alp Hi Hl HC HW.
  - exists s, al, alp. split; [reflexivity|]. intros l j b _. split; reflexivity.
  - assert (Lf : length (firstn n imgs) = n) by (rewrite firstn_length; lia).
    assert (Ei : nth_error imgs n = Some img). { rewrite Hi, nth_error_app2 by lia. rewrite Lf, Nat.sub_diag. reflexivity. }
    assert (Bn : n < length imgs) by (apply nth_error_Some; congruence).
    cbn [foldM]. unfold image_bodyF at 1. destruct (image_ok n s img Hn Ei HC HW) as [s1 [E1 [C1 D1]]]. rewrite E1. cbn [bind].
    destruct (IH (n + 1) s1 (blendF i al (pkF s1)) (blendF i alp (pwF s1))) as [s' [all' [allp' [E' H']]]].
    + rewrite Nat.add_1_r.
      assert (Es : firstn (S n) imgs = firstn n imgs ++ [img]).
      { clear -Ei. revert n Ei. induction imgs as [|a l IH]; intros [|n] E; cbn in E; try discriminate; [injection E as ->; reflexivity|]. cbn [firstn app]. f_equal. apply IH. exact E. }
      rewrite Es, <- app_assoc. exact Hi.
    + lia.
    + exact C1.
    + intros l Hl'. apply done_waiting, D1, Hl'.
    + exists s', all', allp'. split; [exact E'|]. intros l j b Hl'. cbv zeta. destruct (H' l j b Hl') as [H1 H2]. cbn [length seq map fold_left].
      destruct (D1 l Hl') as [_ [_ [_ [_ [_ [_ [_ [Hp Hq]]]]]]]].
      rewrite entry_step. rewrite H1, H2. unfold blendF. rewrite Hp, Hq. rewrite Nat.add_1_r. split; reflexivity.
Qed.
End Loop.
Section Sets.
Context (conv : Z -> Z) (T num_times : nat) (labels : list Z) (max_cts : nat).
Hypothesis conv_0 : conv 0%Z = 0%Z.
Hypothesis conv_add : forall a b, conv (conv a + conv b)%Z = conv (a + b)%Z.
Hypothesis HT : 2 <= T.
Hypothesis Hn : 1 <= num_times.
Definition evs (l j b : nat) (imgs : list frame) : list (option (Z * Z)) := map (ev conv labels max_cts imgs l j b) (seq 0 (length imgs)).
Lemma sets_ok : forall image_sets i al alp, Forall (well_sized conv labels) image_sets ->
  exists r, setsF conv T num_times labels max_cts i image_sets al alp = Some r /\ forall l j b, l < num_times ->
    (fst r l j b, snd r l j b) = entry_sets i (map (evs l j b) image_sets) (al l j b) (alp l j b).
Proof.
  induction image_sets as [|imgs rest IH]; intros i al alp HF.
  - exists (al, alp). split; [reflexivity|]. intros. reflexivity.
  - inversion HF as [|? ? Hw HR]; subst. cbn [setsF].
    destruct (images_ok conv T num_times labels max_cts imgs conv_0 conv_add HT Hw i Hn imgs 0 (startF T labels) al alp) as [s' [all' [allp' [E H]]]].
    + reflexivity.
    + lia.
    + eapply start_cur; eassumption.
    + intros l _. eapply start_waiting; eassumption.
    + rewrite E. cbn [bind fst snd]. destruct (IH (i + 1) all' allp' HR) as [r [Er Hr]]. exists r. split; [exact Er|]. intros l j b Hl.
      rewrite (Hr l j b Hl). destruct (H l j b Hl) as [G1 G2]. cbn [map entry_sets]. rewrite G1, G2. reflexivity.
Qed.
Theorem xsvsF_ok image_sets : Forall (well_sized conv labels) image_sets ->
  exists p v, xsvsF conv T num_times labels max_cts image_sets = Some (p, v) /\ forall l j b, l < num_times ->
    (p l j b, v l j b) = xsvs_entry (map (evs l j b) image_sets).
Proof.
  intros HF. unfold xsvsF. destruct (sets_ok image_sets 0 (fun _ _ _ => fzero) (fun _ _ _ => fzero) HF) as [r [E H]]. rewrite E. cbn [bind].
  eexists _, _. split; [reflexivity|]. intros l j b Hl. cbv beta. unfold xsvs_entry. rewrite <- (H l j b Hl). reflexivity.
Qed.
End Sets.
