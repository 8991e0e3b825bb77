(* End to end: the results of the float correlator are those of MTauF_Spec.v. *)
From Flocq Require Import IEEE754.BinarySingleNaN.
From Verif Require Import Common F64 RunMean_Model MultiTau_Model MultiTau_Spec MultiTau_Labels MultiTau_Proofs MultiTau_Main MultiTau_Out.
From Verif Require Import MTauF_Model MTauF_Spec MTauF_Proofs.
From Coq Require Import ZifyBool ZifyNat.

Fixpoint mkblk (fs : list (list f64)) (P l k : nat) : list f64 :=
  match l with
  | 0 => nth k fs (repeat fzero P)
  | S l' => vmap2 pavg (mkblk fs P l' (2 * k)) (mkblk fs P l' (2 * k + 1))
  end.
Lemma mkblk_len fs P l k :
  (forall f, In f fs -> length f = P) -> length (mkblk fs P l k) = P.
Proof.
  intros H. revert k; induction l as [|l IH]; intros k; cbn [mkblk].
  - destruct (Nat.lt_ge_cases k (length fs)) as [Hk|Hk].
    + apply H, nth_In; exact Hk.
    + rewrite nth_overflow by exact Hk. apply repeat_length.
  - rewrite fvmap2_length; rewrite !IH; reflexivity.
Qed.

Section Blocks.
Variable labels : list Z.
Variable images : list (list f64).
Let pos := all_positions labels.
Let P := length pos.
Definition gpix (im : list f64) : list f64 := map (fun p => nth p im fzero) pos.
Let fs := map gpix images.

Lemma fs_len f : In f fs -> length f = P.
Proof. intros H. apply in_map_iff in H as (im & <- & _). apply map_length. Qed.

Lemma blk_fblock l : forall k, (k + 1) * 2 ^ l <= length images -> mkblk fs P l k = map (fblock images l k) pos.
Proof.
  induction l as [|l IH]; intros k Hk.
  - cbn [mkblk]. cbn [Nat.pow] in Hk.
    assert (Hlt : k < length images) by lia.
    unfold fs. rewrite nth_indep with (d' := gpix []) by (rewrite map_length; exact Hlt).
    rewrite map_nth. reflexivity.
  - assert (H1 : (2 * k + 1) * 2 ^ l <= length images) by (cbn in Hk; nia).
    assert (H2 : (2 * k + 1 + 1) * 2 ^ l <= length images) by (cbn in Hk; nia).
    cbn [mkblk]. rewrite (IH (2 * k) H1), (IH (2 * k + 1) H2).
    unfold vmap2. rewrite combine_map_same, map_map. reflexivity.
Qed.

Lemma blk_good l k : (k + 1) * 2 ^ l <= length images -> gd (mkblk fs P) l k = fgood labels images l k.
Proof.
  intros Hk. unfold gd. rewrite blk_fblock by exact Hk. unfold fgood. fold pos. unfold has_nan.
  clearbody pos. clear. induction pos as [|p ps IH]; cbn [map existsb forallb]; [reflexivity|].
  rewrite negb_orb, IH. reflexivity.
Qed.

Lemma blk_pairs l i : pairs (mkblk fs P) l i (cnt l (length images)) = fgood_pairs labels images l i.
Proof.
  unfold pairs, fgood_pairs, cnt. apply filter_ext_in. intros k Hk.
  apply in_seq in Hk.
  assert (Hb : forall k', k' < length images / 2 ^ l -> (k' + 1) * 2 ^ l <= length images).
  { intros k' Hk'. pose proof (pow2_pos l).
    pose proof (Nat.mul_div_le (length images) (2 ^ l) ltac:(lia)). nia. }
  rewrite !blk_good; auto; apply Hb; lia.
Qed.

Lemma fgood_pairs_In l i k : In k (fgood_pairs labels images l i) ->
  (k + 1) * 2 ^ l <= length images /\ (k + i + 1) * 2 ^ l <= length images /\
  fgood labels images l k = true /\ fgood labels images l (k + i) = true.
Proof.
  intros H. apply filter_In in H as [H1 H2]. apply in_seq in H1.
  apply andb_true_iff in H2.
  pose proof (pow2_pos l).
  pose proof (Nat.mul_div_le (length images) (2 ^ l) ltac:(lia)).
  repeat split; try tauto; nia.
Qed.

Lemma rmean_froi f r : rmean (clabels labels) (map f pos) r = froi labels f r.
Proof.
  unfold rmean, clabels. fold pos.
  assert (E : map snd (filter (fun p => fst p =? r) (combine (map (fun p => roi_no labels (nth p labels 0%Z)) pos) (map f pos)))
              = map f (roi_positions labels r)).
  { rewrite combine_map_same, filter_map_comm. cbn [fst]. rewrite map_map. cbn [snd]. f_equal.
    unfold pos, all_positions, roi_positions. rewrite filter_filter. reflexivity. }
  assert (N : length (filter (fun l => l =? r) (map (fun p => roi_no labels (nth p labels 0%Z)) pos)) = length (roi_positions labels r)).
  { rewrite filter_map_comm, map_length. unfold pos, all_positions, roi_positions. rewrite filter_filter. reflexivity. }
  rewrite E, N. reflexivity.
Qed.

Lemma rows_G l i :
  row (clabels labels) (fG (clabels labels) (mkblk fs P) l i) (pairs (mkblk fs P) l i (cnt l (length images)))
  = map (float_G labels images l i) (seq 1 (n_rois labels)).
Proof.
  rewrite blk_pairs. unfold row. rewrite max_clabels. apply map_ext. intros r.
  unfold float_G. f_equal. apply map_ext_in. intros k Hk.
  apply fgood_pairs_In in Hk as (H1 & H2 & H3 & H4).
  unfold fG. rewrite !blk_fblock by auto. unfold vmap2. rewrite combine_map_same, map_map. apply rmean_froi.
Qed.
Lemma rows_P l i :
  row (clabels labels) (fP (clabels labels) (mkblk fs P) l i) (pairs (mkblk fs P) l i (cnt l (length images)))
  = map (float_past labels images l i) (seq 1 (n_rois labels)).
Proof.
  rewrite blk_pairs. unfold row. rewrite max_clabels. apply map_ext. intros r.
  unfold float_past. f_equal. apply map_ext_in. intros k Hk.
  apply fgood_pairs_In in Hk as (H1 & H2 & H3 & H4).
  unfold fP. rewrite !blk_fblock by auto. apply rmean_froi.
Qed.
Lemma rows_F l i :
  row (clabels labels) (fF (clabels labels) (mkblk fs P) l i) (pairs (mkblk fs P) l i (cnt l (length images)))
  = map (float_fut labels images l i) (seq 1 (n_rois labels)).
Proof.
  rewrite blk_pairs. unfold row. rewrite max_clabels. apply map_ext. intros r.
  unfold float_fut. f_equal. apply map_ext_in. intros k Hk.
  apply fgood_pairs_In in Hk as (H1 & H2 & H3 & H4).
  unfold fF. rewrite !blk_fblock by auto. apply rmean_froi.
Qed.

Lemma gather_ok im ps : (forall p, In p ps -> p < length im) ->
  gather im ps = Some (map (fun p => nth p im fzero) ps).
Proof.
  induction ps as [|p ps IH]; cbn; intros H; [reflexivity|].
  rewrite nth_error_nth_lt with (d := fzero) by (apply H; left; auto). cbn [bind].
  rewrite IH by (intros; apply H; right; auto). reflexivity.
Qed.
End Blocks.

Lemma lazy_run c : forall images s s',
  (forall im, In im images -> forall p, In p (pixel_list c) -> p < length im) ->
  foldM (step c) (map (fun im => map (fun p => nth p im fzero) (pixel_list c)) images) s = Some s' ->
  exists outs, lazy_one_time c s images = Some (outs, s') /\ length outs = length images /\
    (images <> [] -> exists o', outs = o' ++ [outputs c s']).
Proof.
  induction images as [|im images IH]; intros s s' Hin H; cbn [map foldM lazy_one_time] in *.
  - injection H as <-. exists []. repeat split. congruence.
  - rewrite gather_ok by (apply Hin; left; auto). cbn [bind].
    destruct (step c s _) as [s1|]; cbn [bind] in *; [|discriminate].
    destruct (IH s1 s' (fun im0 Hm => Hin im0 (or_intror Hm)) H) as (outs & E & Hl & Hlast).
    rewrite E. cbn [bind fst snd]. eexists; split; [reflexivity|]. split; [cbn; lia|].
    intros _. destruct images as [|im2 images].
    + cbn in *. injection E as <- <-. exists []. reflexivity.
    + destruct (Hlast ltac:(discriminate)) as [o' ->]. exists (outputs c s1 :: o'). reflexivity.
Qed.

(** What is known about the state after [images]. *)
Definition state_ok (nb L : nat) (labels : list Z) (images : list (list f64)) (s : state) : Prop :=
  (forall l i, is_lag nb L l i ->
     nth_error (G s) (lag_pos nb l i) = Some (map (float_G labels images l i) (seq 1 (n_rois labels))) /\
     nth_error (past s) (lag_pos nb l i) = Some (map (float_past labels images l i) (seq 1 (n_rois labels))) /\
     nth_error (fut s) (lag_pos nb l i) = Some (map (float_fut labels images l i) (seq 1 (n_rois labels)))) /\
  length (G s) = (L + 1) * nb / 2 /\ length (past s) = (L + 1) * nb / 2 /\
  length (fut s) = (L + 1) * nb / 2.

(** Lengths of the accumulators never change. *)
Definition lens (s : state) := (length (G s), length (past s), length (fut s)).
Lemma body_lens c l bn ni s i s' : otp_body c l bn ni s i = Some s' -> lens s' = lens s.
Proof.
  unfold otp_body. intros H.
  repeat match type of H with
  | bind ?e _ = Some _ => destruct e eqn:?; cbn [bind] in H; [|discriminate]
  | (if ?b then _ else _) = Some _ => destruct b
  end; try discriminate.
  - injection H as <-. reflexivity.
  - unfold acc_at in *. destruct (nth_error (G s) _); cbn [bind] in *; [|discriminate].
    destruct (nth_error (past s) _); cbn [bind] in *; [|discriminate].
    destruct (nth_error (fut s) _); cbn [bind] in *; [|discriminate].
    injection H as <-. unfold lens, set_acc; cbn [G past fut].
    repeat match goal with E : upd _ _ _ = Some _ |- _ => apply upd_length in E; rewrite E; clear E end.
    reflexivity.
Qed.
Lemma process_lens c l bn s s' : one_time_process c l bn s = Some s' -> lens s' = lens s.
Proof.
  unfold one_time_process. intros H.
  destruct (nth_error (ipl s) l) as [n0|]; cbn [bind] in H; [|discriminate].
  destruct (upd (ipl s) l (n0 + 1)) as [ipl'|]; cbn [bind] in H; [|discriminate].
  change (lens s) with (lens (set_ipl s ipl')).
  revert H. generalize (set_ipl s ipl'). generalize (seq (if l =? 0 then 0 else num_bufs c / 2)
    (Nat.min (n0 + 1) (num_bufs c) - (if l =? 0 then 0 else num_bufs c / 2))).
  intros is; induction is as [|i is IH]; intros s0 H; cbn [foldM] in H.
  - injection H as <-; reflexivity.
  - destruct (otp_body _ _ _ _ s0 i) as [s1|] eqn:E; cbn [bind] in H; [|discriminate].
    rewrite (IH _ H). eapply body_lens; eauto.
Qed.
Lemma set_buf_lens s l i v s' : set_buf_at s l i v = Some s' -> lens s' = lens s.
Proof.
  unfold set_buf_at. intros H.
  repeat match type of H with
  | bind ?e _ = Some _ => destruct e eqn:?; cbn [bind] in H; [|discriminate] end.
  injection H as <-. reflexivity.
Qed.
Lemma level_loop_lens fuel : forall c l s s', level_loop fuel c l s = Some s' -> lens s' = lens s.
Proof.
  induction fuel as [|fuel IH]; intros c l s s' H; cbn [level_loop] in H; [discriminate|].
  destruct (nth_error (track s) l) as [[|]|]; cbn [bind negb] in H; try discriminate.
  - repeat match type of H with
    | bind ?e _ = Some _ => destruct e eqn:?; cbn [bind] in H; [|discriminate] end.
    match goal with E : set_buf_at _ _ _ _ = Some _ |- _ => apply set_buf_lens in E end.
    match goal with E : one_time_process _ _ _ _ = Some _ |- _ => apply process_lens in E end.
    match type of H with (if ?b then _ else _) = _ => destruct b end.
    + apply IH in H. unfold lens in *; cbn in *; congruence.
    + injection H as <-. unfold lens in *; cbn in *; congruence.
  - destruct (upd (track s) l true); cbn [bind] in H; [|discriminate].
    injection H as <-. reflexivity.
Qed.
Lemma step_lens c s v s' : step c s v = Some s' -> lens s' = lens s.
Proof.
  unfold step. intros H.
  repeat match type of H with
  | bind ?e _ = Some _ => destruct e eqn:?; cbn [bind] in H; [|discriminate] end.
  match goal with E : set_buf_at _ _ _ _ = Some _ |- _ => apply set_buf_lens in E end.
  match goal with E : one_time_process _ _ _ _ = Some _ |- _ => apply process_lens in E end.
  destruct (1 <? num_levels c).
  - apply level_loop_lens in H. unfold lens in *; cbn in *; congruence.
  - injection H as <-. unfold lens in *; cbn in *; congruence.
Qed.
Lemma foldM_lens c vs : forall s s', foldM (step c) vs s = Some s' -> lens s' = lens s.
Proof.
  induction vs as [|v vs IH]; intros s s' H; cbn [foldM] in H; [congruence|].
  destruct (step c s v) as [s1|] eqn:E; cbn [bind] in H; [|discriminate].
  rewrite (IH _ _ H). eapply step_lens; eauto.
Qed.

Lemma blk0_frames fs P : map (mkblk fs P 0) (seq 0 (length fs)) = fs.
Proof.
  apply nth_error_ext_len; rewrite map_length, seq_length; [reflexivity|].
  intros n Hn. rewrite nth_error_map_seq by exact Hn.
  symmetry. cbn [mkblk]. apply nth_error_nth_lt; exact Hn.
Qed.

Lemma main nb L labels images :
  nb mod 2 = 0 -> 2 <= nb -> 1 <= L ->
  (forall im, In im images -> length im = length labels) ->
  exists c outs s, init_cfg nb L labels = Some c /\
    lazy_one_time c (init_state c) images = Some (outs, s) /\
    length outs = length images /\
    (images <> [] -> exists o', outs = o' ++ [outputs c s]) /\
    state_ok nb L labels images s.
Proof.
  intros He Hb HL Him.
  destruct (init_cfg_eq nb L labels He) as [lags Hc].
  pose proof (even_half nb He) as Hnb.
  set (h := nb / 2) in *. set (c := mkcfg h L (clabels labels) (all_positions labels) lags) in *.
  set (fs := map (gpix labels) images).
  set (P := length (all_positions labels)).
  assert (HP : P = length (clabels labels)) by (unfold clabels; rewrite map_length; reflexivity).
  assert (Hlen : forall l k, length (mkblk fs P l k) = length (clabels labels)).
  { intros l k. rewrite <- HP. apply mkblk_len. apply fs_len. }
  assert (Hh1 : 1 <= h) by lia.
  destruct (run_ok h L (clabels labels) (all_positions labels) lags Hh1 HL
              (mkblk fs P) Hlen (fun l k => eq_refl) (length fs) 0 (init_state c)
              (init_ok h L _ _ _ Hh1 HL (mkblk fs P) Hlen (fun l k => eq_refl)))
    as (s & Erun & HI).
  rewrite blk0_frames in Erun. cbn [Nat.add] in HI.
  assert (Hfl : length fs = length images) by (unfold fs; apply map_length).
  rewrite Hfl in HI.
  destruct (lazy_run c images (init_state c) s) as (outs & E & Hl & Hlast).
  { intros im Hm p Hp. rewrite (Him im Hm).
    change (pixel_list c) with (all_positions labels) in Hp.
    apply all_positions_In in Hp. tauto. }
  { exact Erun. }
  exists c, outs, s. split; [exact Hc|]. split; [exact E|]. split; [exact Hl|].
  split; [exact Hlast|].
  - assert (Hlens := foldM_lens _ _ _ _ Erun).
    unfold lens, init_state in Hlens. cbn [G past fut] in Hlens.
    rewrite repeat_length in Hlens.
    change (num_levels c) with L in Hlens.
    change (num_bufs c) with (2 * h) in Hlens. rewrite <- Hnb in Hlens.
    injection Hlens as HlG HlP HlF.
    split; [|repeat split; assumption].
    intros l i (Hl1 & Hi & Hor).
    destruct (HI l Hl1) as [(_ & _ & _ & _ & (HG & HPp & HF)) _].
    assert (Hir : imin h l <= i < 2 * h).
    { unfold imin. destruct (Nat.eqb_spec l 0); [lia|]. destruct Hor as [|Hor]; [lia|]. change (h <= i) in Hor. lia. }
    unfold lag_pos. fold h.
    rewrite (HG i Hir), (HPp i Hir), (HF i Hir).
    unfold fs, P. rewrite rows_G, rows_P, rows_F. repeat split; reflexivity.
Qed.

Lemma fzr_le m : first_zero_row m <= length m.
Proof. induction m as [|r m IH]; cbn; [lia|]. destruct (existsb _ r); lia. Qed.
Lemma fzr_before m : forall t r, t < first_zero_row m -> nth_error m t = Some r ->
  forall x, In x r -> Beqb fzero x = false.
Proof.
  induction m as [|r0 m IH]; intros t r Ht Hr x Hx; cbn in Ht; [lia|].
  destruct (existsb (Beqb fzero) r0) eqn:E; [lia|].
  destruct t as [|t].
  - injection Hr as ->. destruct (Beqb fzero x) eqn:B; [|reflexivity].
    assert (existsb (Beqb fzero) r = true); [|congruence].
    apply existsb_exists. exists x. auto.
  - eapply IH; eauto. lia.
Qed.
Lemma fzr_at m : first_zero_row m < length m ->
  exists r, nth_error m (first_zero_row m) = Some r /\ exists x, In x r /\ Beqb fzero x = true.
Proof.
  induction m as [|r0 m IH]; cbn; intros H; [lia|].
  destruct (existsb (Beqb fzero) r0) eqn:E.
  - exists r0. split; [reflexivity|]. apply existsb_exists in E as (x & Hx & Ex). eauto.
  - apply IH. lia.
Qed.


Lemma outputs_ok nb L labels images c s :
  nb mod 2 = 0 -> 2 <= nb -> 1 <= L ->
  init_cfg nb L labels = Some c -> state_ok nb L labels images s ->
  float_result nb L labels images (fst (outputs c s)) (snd (outputs c s)).
Proof.
  intros He Hb HL Hc (HS & HlG & HlP & HlF).
  pose proof (even_half nb He) as Hnb.
  assert (HT : 2 * ((L + 1) * nb / 2) = (L + 1) * nb).
  { replace ((L + 1) * nb) with ((L + 1) * (nb / 2) * 2) by lia.
    rewrite Nat.div_mul by lia. lia. }
  unfold outputs. cbn [fst snd].
  set (gm := first_zero_row (past s)) in *.
  assert (Hgm : gm <= (L + 1) * nb / 2) by (rewrite <- HlP; apply fzr_le).
  assert (Hlg : length (map (fun x : list f64 * (list f64 * list f64) =>
      g2_row (fst x) (fst (snd x)) (snd (snd x)))
      (combine (firstn gm (G s)) (combine (firstn gm (past s)) (firstn gm (fut s))))) = gm).
  { rewrite map_length, !combine_length, !firstn_length. lia. }
  unfold float_result. rewrite Hlg.
  rewrite (lag_steps_init _ _ _ _ He Hc).
  split. { rewrite firstn_length, (lags_length nb L He HL). lia. }
  split; [lia|]. split.
  - intros l i Hi Hp. destruct (HS l i Hi) as (EG & EP & EF).
    split; [rewrite nth_error_firstn by exact Hp; apply lags_nth; auto|]. split.
    + erewrite map_nth_error.
      2:{ apply nth_error_combine; [rewrite nth_error_firstn by exact Hp; exact EG|].
          apply nth_error_combine; rewrite nth_error_firstn by exact Hp; [exact EP|exact EF]. }
      cbn [fst snd]. unfold g2_row. rewrite !combine_map_same, map_map. reflexivity.
    + intros r Hr. apply (fzr_before _ _ _ Hp EP). apply in_map_iff. exists r.
      split; [reflexivity|]. apply in_seq; lia.
  - intros Hlt. assert (Hlt' : gm < length (past s)) by lia.
    destruct (fzr_at _ Hlt') as (row & Hrow & x & H0 & Hz). fold gm in Hrow.
    destruct (pos_lag nb L gm He Hb HL ltac:(lia)) as (l & i & Hi & Hpos).
    destruct (HS l i Hi) as (_ & EP & _). rewrite <- Hpos, Hrow in EP. injection EP as ->.
    apply in_map_iff in H0 as (r & <- & Hr). apply in_seq in Hr.
    exists l, i, r. repeat split; auto; try lia; apply Hi.
Qed.

Lemma corr_ok nb L labels images :
  nb mod 2 = 0 -> 2 <= nb -> 1 <= L -> images <> [] ->
  (forall im, In im images -> length im = length labels) ->
  exists g2 lags, multi_tau_auto_corr nb L labels images = Some (g2, lags) /\
    float_result nb L labels images g2 lags.
Proof.
  intros He Hb HL Hne Him.
  destruct (main nb L labels images He Hb HL Him)
    as (c & outs & s & Hc & Hlazy & _ & Hlast & Hst).
  destruct (Hlast Hne) as [o' ->].
  unfold multi_tau_auto_corr. rewrite Hc; cbn [bind]. rewrite Hlazy; cbn [bind fst].
  rewrite rev_app_distr. cbn [rev app].
  exists (fst (outputs c s)), (snd (outputs c s)). rewrite <- surjective_pairing.
  split; [reflexivity|]. eapply outputs_ok; eauto.
Qed.

