(* End to end: the array of the float two-time correlator is that of TTimeF_Spec.v. *)
From Flocq Require Import IEEE754.BinarySingleNaN.
From Verif Require Import Common F64 MultiTau_Model MultiTau_Spec MultiTau_Labels MultiTau_Proofs MultiTau_Main.
From Verif Require Import MTauF_Model MTauF_Spec MTauF_Proofs MTauF_Main TTimeF_Model TTimeF_Spec TTimeF_Proofs.
From Coq Require Import ZifyBool ZifyNat.

Section Cells.
Variable labels : list Z.
Variable images : list (list f64).
Let pos := all_positions labels.
Let P := length pos.
Let fs := map (gpix labels) images.

Lemma bincount_fsum f r :
  fold_left fadd (map snd (filter (fun p => fst p =? r) (combine (clabels labels) (map f pos)))) fzero = fsum labels f r.
Proof.
  unfold clabels, fsum. fold pos. rewrite combine_map_same, filter_map_comm. cbn [fst].
  rewrite map_map. cbn [snd]. unfold pos, all_positions, roi_positions.
  rewrite filter_filter. reflexivity.
Qed.

Lemma npix_roi r : length (filter (fun l => l =? r) (clabels labels)) = length (roi_positions labels r).
Proof.
  unfold clabels. fold pos. rewrite filter_map_comm, map_length.
  unfold pos, all_positions, roi_positions. rewrite filter_filter. reflexivity.
Qed.

Lemma V_spec l k i : i <= k -> (k + 1) * 2 ^ l <= length images ->
  V (clabels labels) (mkblk fs P) l k i
  = map (fun r => float_tt labels images l (k - i) k r) (seq 1 (n_rois labels)).
Proof.
  intros Hi Hk. unfold V.
  assert (Hk2 : (k - i + 1) * 2 ^ l <= length images) by nia.
  unfold fs, P, pos. rewrite (blk_fblock labels images l k Hk), (blk_fblock labels images l (k - i) Hk2).
  fold pos. unfold cell_values, bincount_w, bincount_n. rewrite max_clabels.
  rewrite !combine_map_same, map_map. apply map_ext. intros r. cbn [fst snd].
  unfold vmap2. rewrite combine_map_same, map_map. cbn [fst snd].
  rewrite !bincount_fsum, npix_roi. reflexivity.
Qed.
End Cells.

Lemma lazy2_run c : forall images s,
  (forall im, In im images -> forall p, In p (pixel_list c) -> p < length im) ->
  lazy_two_time c s images
  = foldM (step2 c) (map (fun im => map (fun p => nth p im fzero) (pixel_list c)) images) s.
Proof.
  induction images as [|im images IH]; intros s Hin; cbn [map foldM lazy_two_time]; [reflexivity|].
  rewrite gather_ok by (apply Hin; left; auto). cbn [bind].
  destruct (step2 c s _) as [s1|]; cbn [bind]; [|reflexivity].
  apply IH. intros; eapply Hin; eauto. right; auto.
Qed.

Lemma clabels_nil labels : clabels labels = [] -> n_rois labels = 0.
Proof. intros H. rewrite <- max_clabels, H. reflexivity. Qed.

Lemma symm_entry K n g q a b : q < K -> a < n -> b < n ->
  fentry (symmetrise K n g) q a b = Some (fsub (fadd (tril g q a b) (tril g q b a)) (diagm g q a b)).
Proof.
  intros Hq Ha Hb. unfold fentry, symmetrise.
  rewrite nth_error_map_seq by exact Ha. cbn [bind].
  rewrite nth_error_map_seq by exact Hb. cbn [bind].
  rewrite nth_error_map_seq by exact Hq. rewrite ?Nat.add_0_l. reflexivity.
Qed.

Lemma add_zero (x : f64) : fsub (fadd x fzero) fzero = plain_zero x.
Proof. destruct x as [[]|[]| |s m e B]; reflexivity. Qed.
Lemma zero_add (x : f64) : fsub (fadd fzero x) fzero = plain_zero x.
Proof. destruct x as [[]|[]| |s m e B]; reflexivity. Qed.

Lemma symm_low g q a b : b <= a ->
  fsub (fadd (tril g q a b) (tril g q b a)) (diagm g q a b) = shown a b (mget g q a b).
Proof.
  intros H. unfold tril, diagm, shown. replace (b <=? a) with true by lia.
  destruct (Nat.eqb_spec a b) as [->|Hne].
  - rewrite Nat.leb_refl. reflexivity.
  - replace (a <=? b) with false by lia. apply add_zero.
Qed.
Lemma symm_comm g q a b :
  fsub (fadd (tril g q a b) (tril g q b a)) (diagm g q a b)
  = fsub (fadd (tril g q b a) (tril g q a b)) (diagm g q b a).
Proof.
  destruct (Nat.eq_dec a b) as [->|Hne]; [reflexivity|].
  unfold tril, diagm. rewrite (Nat.eqb_sym b a). replace (a =? b) with false by lia.
  destruct (Nat.le_gt_cases b a).
  - replace (b <=? a) with true by lia. replace (a <=? b) with false by lia. rewrite add_zero, zero_add. reflexivity.
  - replace (b <=? a) with false by lia. replace (a <=? b) with true by lia. rewrite add_zero, zero_add. reflexivity.
Qed.

Lemma nonempty_match {A B} (l : list A) (x : option B) : l <> [] ->
  match l with [] => None | _ :: _ => x end = x.
Proof. destruct l; [congruence|reflexivity]. Qed.

Section Main.
Variable nb L nf : nat.
Variable labels : list Z.
Variable images : list (list f64).
Hypothesis He : nb mod 2 = 0.
Hypothesis Hb : 2 <= nb.
Hypothesis HL : 1 <= L.
Hypothesis Him : forall im, In im images -> length im = length labels.

Lemma cfg2 : init_cfg nb L labels
  = Some (mkcfg (nb / 2) L (clabels labels) (all_positions labels) (lags2 (nb / 2) L)).
Proof.
  destruct (init_cfg_eq nb L labels He) as [lags Hc].
  pose proof (lag_steps_init nb L labels _ He Hc) as E. cbn [mkcfg lag_steps] in E.
  rewrite Hc. f_equal. f_equal. rewrite E. unfold lags2. 
  rewrite <- (even_half nb He). reflexivity.
Qed.

Let h := nb / 2.
Let c := mkcfg h L (clabels labels) (all_positions labels) (lags2 h L).
Let fs := map (gpix labels) images.
Let P := length (all_positions labels).

Lemma Hlen2 l k : length (mkblk fs P l k) = length (clabels labels).
Proof.
  replace (length (clabels labels)) with P by (unfold clabels; rewrite map_length; reflexivity).
  apply mkblk_len. apply fs_len.
Qed.

Lemma h1 : 1 <= h.
Proof. unfold h. pose proof (even_half nb He). lia. Qed.

Lemma lazy2_eq : lazy_two_time c (init_state2 c nf) images
  = foldM (step2 c) (map (mkblk fs P 0) (seq 0 (length images))) (init_state2 c nf).
Proof.
  rewrite lazy2_run.
  - f_equal. replace (length images) with (length fs) by apply map_length.
    rewrite blk0_frames. reflexivity.
  - intros im Hm p Hp. rewrite (Him im Hm).
    change (pixel_list c) with (all_positions labels) in Hp. apply all_positions_In in Hp. tauto.
Qed.

Lemma tt_main : length images <= nf -> images <> [] -> 1 <= n_rois labels ->
  exists g, two_time_corr labels images nf nb L = Some g /\ float_two_time nb L nf labels images g.
Proof.
  intros Hn Hne HK. unfold two_time_corr. rewrite cfg2. cbn [bind]. fold h. fold c.
  pose proof (init2_ok h L nf (clabels labels) (all_positions labels) h1 HL (mkblk fs P) Hlen2
               (fun l k => eq_refl)) as HI0. fold c in HI0.
  destruct (run2_ok h L nf (clabels labels) (all_positions labels) h1 HL (mkblk fs P) Hlen2
               (fun l k => eq_refl) (length images) 0 _ HI0 ltac:(lia)) as (s & E & HI).
  fold c in E. rewrite <- lazy2_eq in E. rewrite E. cbn [bind].
  cbn [Nat.add] in HI. destruct HI as (_ & (Hsq & HA & HB) & _).
  rewrite nonempty_match by exact Hne.
  change (label_array c) with (clabels labels). rewrite max_clabels.
  rewrite nonempty_match.
  2:{ intros Ecl. rewrite (clabels_nil labels Ecl) in HK. lia. }
  set (K := n_rois labels) in *. exists (symmetrise K nf (g2 s)). split; [reflexivity|].
  assert (Hnb : 2 * h = nb) by (unfold h; pose proof (even_half nb He); lia).
  rewrite Hnb in HA, HB.
  split; [unfold symmetrise; rewrite map_length, seq_length; reflexivity|].
  split.
  { intros row Hrow. apply in_map_iff in Hrow as (a & <- & _).
    rewrite map_length, seq_length; reflexivity. }
  split.
  { intros row v Hrow Hv. apply in_map_iff in Hrow as (a & <- & _).
    apply in_map_iff in Hv as (b & <- & _). rewrite map_length, seq_length; reflexivity. }
  split.
  { intros q a b Hq Ha Hbb. rewrite !symm_entry by auto. f_equal. apply symm_comm. }
  split.
  - intros q a b l k i Hq (Hlag & Hik & Hk & sh & Hs & Ea & Eb).
    pose proof (pow2_pos l).
    rewrite symm_entry by (auto; nia). f_equal. rewrite symm_low by nia. f_equal. subst a b.
    assert (Hkc : k < cnt l (length images)).
    { unfold cnt. apply Nat.div_le_lower_bound; nia. }
    specialize (HA l i k sh Hlag Hkc Hik Hs).
    unfold cell in HA. unfold mget.
    destruct (nth_error (g2 s) (k * 2 ^ l + sh)) as [row|]; cbn [bind] in HA; [|discriminate].
    rewrite HA. unfold fs, P. rewrite V_spec by lia. fold K.
    rewrite nth_error_map, nth_error_seq by exact Hq. cbn [option_map]. f_equal. lia.
  - intros q a b Hq [Hba Ha] Hno. rewrite symm_entry by (auto; lia). f_equal.
    rewrite symm_low by lia.
    assert (HZ : cell (g2 s) a b = Some (repeat fzero (max_label (clabels labels)))).
    { apply HB; try lia. intros l i k sh Hlag Hkc Hik Hs Ea Eb.
      apply (Hno l k i). split; [exact Hlag|]. split; [exact Hik|]. split; [|exists sh; auto].
      pose proof (cnt_mul l (length images)). unfold cnt in *. nia. }
    unfold cell in HZ. unfold mget.
    destruct (nth_error (g2 s) a) as [row|]; cbn [bind] in HZ; [|discriminate].
    rewrite HZ, nth_error_repeat by (rewrite max_clabels; exact Hq). unfold shown. destruct (a =? b); reflexivity.
Qed.

Lemma tt_overflow : nf < length images -> two_time_corr labels images nf nb L = None.
Proof.
  intros Hn. unfold two_time_corr. rewrite cfg2. cbn [bind]. fold h. fold c.
  pose proof (init2_ok h L nf (clabels labels) (all_positions labels) h1 HL (mkblk fs P) Hlen2
               (fun l k => eq_refl)) as HI0. fold c in HI0.
  pose proof (run2_overflow h L nf (clabels labels) (all_positions labels) h1 HL (mkblk fs P) Hlen2
               (fun l k => eq_refl) (length images) 0 _ HI0 ltac:(lia) ltac:(lia)) as E.
  fold c in E. rewrite <- lazy2_eq in E. rewrite E. cbn [bind].
  destruct images; reflexivity.
Qed.
End Main.

(** Near the diagonal the entries are the frame-by-frame correlation. *)
Lemma tt_level0 nb L nf labels images g q a b :
  1 <= L -> length images <= nf -> float_two_time nb L nf labels images g ->
  q < n_rois labels -> a < length images -> b < length images ->
  a < b + nb -> b < a + nb ->
  fentry g q a b = Some (shown a b (float_tt labels images 0 (Nat.min a b) (Nat.max a b) (q + 1))).
Proof.
  intros HL Hn (_ & _ & _ & Hsym & Hlag & _) Hq Ha Hb H1 H2.
  assert (Hlow : forall a b, a < length images -> b <= a -> a < b + nb ->
    fentry g q a b = Some (shown a b (float_tt labels images 0 b a (q + 1)))).
  { clear - HL Hq Hlag. intros a b Ha Hba H1.
    rewrite (Hlag q a b 0 a (a - b) Hq).
    - f_equal. f_equal. f_equal. lia.
    - split; [split; [lia|split; [lia|auto]]|]. split; [lia|]. cbn [Nat.pow]. split; [lia|].
      exists 0. lia. }
  assert (Hs : forall x, shown a b x = shown b a x) by (intros x; unfold shown; rewrite Nat.eqb_sym; reflexivity).
  destruct (Nat.le_gt_cases b a) as [Hle|Hgt].
  - rewrite Nat.min_r, Nat.max_l by lia. apply Hlow; auto.
  - rewrite Nat.min_l, Nat.max_r by lia. rewrite Hs, Hsym by lia. apply Hlow; auto; lia.
Qed.
