(* End-to-end facts about the one-time correlator: the state after any frame
   sequence is given by the specification. *)
From Verif Require Import Common MultiTau_Model MultiTau_Spec MultiTau_Labels MultiTau_Proofs.
From Coq Require Import ZifyBool ZifyNat.

(* ------------------------------------------------------------------ *)
(** * multi_tau_lags *)
Lemma even_half nb : nb mod 2 = 0 -> nb = 2 * (nb / 2).
Proof. intros H. lia. Qed.

Lemma level_lags_length ch i : length (level_lags ch i) = ch / 2.
Proof. unfold level_lags. rewrite map_length, seq_length. reflexivity. Qed.

Lemma map_length_const {A B} (f : A -> list B) n l :
  (forall x, In x l -> length (f x) = n) -> map (@length B) (map f l) = repeat n (length l).
Proof.
  induction l as [|a l IH]; cbn; intros H; [reflexivity|].
  rewrite H by (left; auto). f_equal. apply IH. intros; apply H; right; auto.
Qed.

Lemma init_cfg_eq nb L labels :
  nb mod 2 = 0 ->
  exists lags, init_cfg nb L labels
    = Some (mkcfg (nb / 2) L (clabels labels) (all_positions labels) lags).
Proof.
  intros He. unfold init_cfg. rewrite extract_sel.
  replace (nb mod 2 =? 0) with true by lia. cbn [negb].
  unfold multi_tau_lags. replace (nb mod 2 =? 0) with true by lia. cbn [negb bind].
  eexists. f_equal. unfold mkcfg. rewrite remap_clabels, map_fst_sel.
  rewrite <- (even_half nb He). f_equal. cbn [map length]. rewrite seq_length. f_equal.
  rewrite map_length_const with (n := nb / 2).
  - rewrite seq_length; reflexivity.
  - intros; apply level_lags_length.
Qed.

(* ------------------------------------------------------------------ *)
(** * Blocks *)
Fixpoint mkblk (fs : list vec) (P l k : nat) : vec :=
  match l with
  | 0 => nth k fs (repeat (Some 0%Qc) P)
  | S l' => vmap2 pavg (mkblk fs P l' (2 * k)) (mkblk fs P l' (2 * k + 1))
  end.

Lemma mkblk_len fs P l k :
  (forall f, In f fs -> length f = P) -> length (mkblk fs P l k) = P.
Proof.
  intros H. revert k; induction l as [|l IH]; intros k; cbn [mkblk].
  - destruct (Nat.lt_ge_cases k (length fs)) as [Hk|Hk].
    + apply H, nth_In; exact Hk.
    + rewrite nth_overflow by exact Hk. apply repeat_length.
  - rewrite vmap2_length; rewrite !IH; reflexivity.
Qed.

Lemma mean_app2 u v : length u = length v -> length u <> 0 ->
  mean (u ++ v) = ((mean u + mean v) / (1 + 1))%Qc.
Proof.
  intros E Hne. rewrite !mean_eq, qsum_app, app_length, qn_add, <- E.
  assert (qn (length u) <> 0%Qc) by (apply qn_neq0; auto).
  assert ((1 + 1)%Qc <> 0%Qc) by discriminate.
  set (n := qn _) in *. field. repeat split; auto.
  replace (n + n)%Qc with (n * (1 + 1))%Qc by ring.
  intros H'. apply Qcmult_integral in H' as [?|?]; auto.
Qed.

Lemma pmean_app u v : length u = length v -> length u <> 0 ->
  pavg (pmean u) (pmean v) = pmean (u ++ v).
Proof.
  intros E Hne. unfold pmean. rewrite forallb_app, map_app.
  destruct (forallb is_num u) eqn:E1, (forallb is_num v) eqn:E2; cbn [pavg andb]; try reflexivity.
  f_equal. symmetry. apply mean_app2; rewrite !map_length; auto.
Qed.

Lemma block_frames_length {A} (fs : list A) l k :
  (k + 1) * 2 ^ l <= length fs -> length (block_frames fs l k) = 2 ^ l.
Proof.
  intros H. unfold block_frames. rewrite firstn_length, skipn_length. lia.
Qed.

Lemma firstn_add {A} (l : list A) a b :
  firstn (a + b) l = firstn a l ++ firstn b (skipn a l).
Proof.
  revert l; induction a as [|a IH]; intros [|x l]; cbn; auto.
  - rewrite firstn_nil; reflexivity.
  - rewrite IH; reflexivity.
Qed.

Lemma skipn_skipn' {A} (l : list A) a b : skipn a (skipn b l) = skipn (b + a) l.
Proof. revert l; induction b as [|b IH]; intros [|x l]; cbn; auto. apply skipn_nil. Qed.

Lemma block_frames_S {A} (fs : list A) l k :
  block_frames fs (S l) k = block_frames fs l (2 * k) ++ block_frames fs l (2 * k + 1).
Proof.
  unfold block_frames. replace (2 ^ S l) with (2 ^ l + 2 ^ l) by (cbn; lia).
  rewrite firstn_add, skipn_skipn'.
  replace (k * (2 ^ l + 2 ^ l)) with (2 * k * 2 ^ l) by lia.
  replace (2 * k * 2 ^ l + 2 ^ l) with ((2 * k + 1) * 2 ^ l) by lia. reflexivity.
Qed.

Lemma pow2_pos l : 1 <= 2 ^ l.
Proof. pose proof (Nat.pow_nonzero 2 l). lia. Qed.

Section Blocks.
Variable labels : list Z.
Variable images : list (list pix).
Let pos := all_positions labels.
Let P := length pos.
Definition gpix (im : list pix) : vec := map (fun p => nth p im None) pos.
Let fs := map gpix images.

Lemma fs_len f : In f fs -> length f = P.
Proof. intros H. apply in_map_iff in H as (im & <- & _). apply map_length. Qed.

Lemma blk_pmean l : forall k, (k + 1) * 2 ^ l <= length images ->
  mkblk fs P l k
  = map (fun p => pmean (map (fun f => nth p f None) (block_frames images l k))) pos.
Proof.
  induction l as [|l IH]; intros k Hk.
  - cbn [mkblk]. cbn [Nat.pow] in Hk.
    assert (Hlt : k < length images) by lia.
    unfold fs. rewrite nth_indep with (d' := gpix []) by (rewrite map_length; exact Hlt).
    rewrite map_nth. unfold gpix. apply map_ext. intros p.
    unfold block_frames. cbn [Nat.pow]. rewrite Nat.mul_1_r.
    assert (E : exists r, skipn k images = nth k images [] :: r).
    { clear -Hlt. revert k Hlt; induction images as [|x l IH]; intros [|k] H; cbn in *; try lia.
      - eauto.
      - apply IH; lia. }
    destruct E as [r ->]. cbn [firstn map]. unfold pmean. cbn.
    destruct (nth p (nth k images []) None) as [x|]; cbn; [|reflexivity].
    f_equal. rewrite Qcplus_0_r. change (qn 1) with 1%Qc. field. discriminate.
  - assert (H1 : (2 * k + 1) * 2 ^ l <= length images) by (cbn in Hk; nia).
    assert (H2 : (2 * k + 1 + 1) * 2 ^ l <= length images) by (cbn in Hk; nia).
    cbn [mkblk]. rewrite (IH (2 * k) H1), (IH (2 * k + 1) H2).
    unfold vmap2. rewrite combine_map_same, map_map. apply map_ext. intros p. cbn [fst snd].
    pose proof (pow2_pos l).
    rewrite pmean_app.
    + rewrite <- map_app, <- block_frames_S. reflexivity.
    + rewrite !map_length, !block_frames_length by lia. reflexivity.
    + rewrite map_length, block_frames_length by lia. lia.
Qed.

Lemma forallb_swap {A B} (f : A -> B -> bool) la lb :
  forallb (fun a => forallb (f a) lb) la = forallb (fun b => forallb (fun a => f a b) la) lb.
Proof.
  apply eq_true_iff_eq. rewrite !forallb_forall. split.
  - intros H b Hb. apply forallb_forall. intros a Ha.
    specialize (H a Ha). rewrite forallb_forall in H. auto.
  - intros H a Ha. apply forallb_forall. intros b Hb.
    specialize (H b Hb). rewrite forallb_forall in H. auto.
Qed.

Lemma forallb_map {A B} (f : A -> B) (p : B -> bool) l :
  forallb p (map f l) = forallb (fun x => p (f x)) l.
Proof. induction l as [|a l IH]; cbn; [reflexivity|rewrite IH; reflexivity]. Qed.

Lemma blk_good l k : (k + 1) * 2 ^ l <= length images ->
  gd (mkblk fs P) l k = good labels images l k.
Proof.
  intros Hk. unfold gd. rewrite blk_pmean by exact Hk. unfold good. fold pos.
  rewrite forallb_swap. unfold has_nan.
  clearbody pos. clear P fs. induction pos as [|p ps IH]; cbn; [reflexivity|].
  rewrite negb_orb, IH. f_equal. unfold pmean.
  rewrite forallb_map.
  destruct (forallb (fun x => is_num (nth p x None)) (block_frames images l k)); reflexivity.
Qed.

Lemma blk_vals l k : (k + 1) * 2 ^ l <= length images ->
  good labels images l k = true ->
  mkblk fs P l k = map (fun p => Some (block_pix images l k p)) pos.
Proof.
  intros Hk Hg. rewrite blk_pmean by exact Hk.
  unfold good in Hg. fold pos in Hg. rewrite forallb_swap in Hg.
  rewrite forallb_forall in Hg.
  apply map_ext_in. intros p Hp. specialize (Hg p Hp).
  unfold pmean. rewrite forallb_map, Hg. unfold block_pix. rewrite map_map. reflexivity.
Qed.

Lemma blk_pairs l i :
  pairs (mkblk fs P) l i (cnt l (length images)) = good_pairs labels images l i.
Proof.
  unfold pairs, good_pairs, cnt. apply filter_ext_in. intros k Hk.
  apply in_seq in Hk.
  assert (Hb : forall k', k' < length images / 2 ^ l -> (k' + 1) * 2 ^ l <= length images).
  { intros k' Hk'. pose proof (pow2_pos l).
    pose proof (Nat.mul_div_le (length images) (2 ^ l) ltac:(lia)). nia. }
  rewrite !blk_good; auto; apply Hb; lia.
Qed.

Lemma good_pairs_In l i k : In k (good_pairs labels images l i) ->
  (k + 1) * 2 ^ l <= length images /\ (k + i + 1) * 2 ^ l <= length images /\
  good labels images l k = true /\ good labels images l (k + i) = true.
Proof.
  intros H. apply filter_In in H as [H1 H2]. apply in_seq in H1.
  apply andb_true_iff in H2.
  pose proof (pow2_pos l).
  pose proof (Nat.mul_div_le (length images) (2 ^ l) ltac:(lia)).
  repeat split; try tauto; nia.
Qed.

Lemma rmean_roi_avg f r :
  rmean (clabels labels) (map (fun p => Some (f p)) pos) r = roi_avg labels f r.
Proof.
  unfold rmean, roi_mean, vals, clabels. fold pos.
  rewrite map_map. rewrite combine_map_same, filter_map_comm. cbn [fst].
  rewrite map_map. cbn [snd]. unfold roi_avg. f_equal.
  unfold pos, all_positions, roi_positions. rewrite filter_filter. reflexivity.
Qed.

Lemma rows_G l i :
  row (clabels labels) (fG (clabels labels) (mkblk fs P) l i)
      (pairs (mkblk fs P) l i (cnt l (length images)))
  = map (spec_G labels images l i) (seq 1 (n_rois labels)).
Proof.
  rewrite blk_pairs. unfold row. rewrite max_clabels. apply map_ext. intros r.
  unfold spec_G. f_equal. apply map_ext_in. intros k Hk.
  apply good_pairs_In in Hk as (H1 & H2 & H3 & H4).
  unfold fG. rewrite !blk_vals by auto. unfold vmap2. rewrite combine_map_same, map_map.
  cbn [fst snd pmul]. apply rmean_roi_avg.
Qed.
Lemma rows_P l i :
  row (clabels labels) (fP (clabels labels) (mkblk fs P) l i)
      (pairs (mkblk fs P) l i (cnt l (length images)))
  = map (spec_past labels images l i) (seq 1 (n_rois labels)).
Proof.
  rewrite blk_pairs. unfold row. rewrite max_clabels. apply map_ext. intros r.
  unfold spec_past. f_equal. apply map_ext_in. intros k Hk.
  apply good_pairs_In in Hk as (H1 & H2 & H3 & H4).
  unfold fP. rewrite !blk_vals by auto. apply rmean_roi_avg.
Qed.
Lemma rows_F l i :
  row (clabels labels) (fF (clabels labels) (mkblk fs P) l i)
      (pairs (mkblk fs P) l i (cnt l (length images)))
  = map (spec_fut labels images l i) (seq 1 (n_rois labels)).
Proof.
  rewrite blk_pairs. unfold row. rewrite max_clabels. apply map_ext. intros r.
  unfold spec_fut. f_equal. apply map_ext_in. intros k Hk.
  apply good_pairs_In in Hk as (H1 & H2 & H3 & H4).
  unfold fF. rewrite !blk_vals by auto. apply rmean_roi_avg.
Qed.

Lemma gather_ok im ps : (forall p, In p ps -> p < length im) ->
  gather im ps = Some (map (fun p => nth p im None) ps).
Proof.
  induction ps as [|p ps IH]; cbn; intros H; [reflexivity|].
  rewrite nth_error_nth_lt with (d := None) by (apply H; left; auto). cbn [bind].
  rewrite IH by (intros; apply H; right; auto). reflexivity.
Qed.

End Blocks.

(* ------------------------------------------------------------------ *)
(** * The lag axis *)
Lemma lags_nth nb L l i :
  nb mod 2 = 0 -> is_lag nb L l i ->
  nth_error (seq 0 nb ++ concat (map (level_lags nb) (seq 2 (L - 1)))) (lag_pos nb l i)
  = Some (i * 2 ^ l).
Proof.
  intros He (Hl & Hi & Hor). unfold lag_pos.
  pose proof (even_half nb He) as Hnb.
  destruct l as [|l].
  - rewrite nth_error_app1 by (rewrite seq_length; lia).
    rewrite nth_error_seq by lia. f_equal. cbn. lia.
  - destruct Hor as [|Hor]; [lia|].
    rewrite nth_error_app2 by (rewrite seq_length; nia).
    rewrite seq_length.
    set (h := nb / 2) in *.
    replace (S l * h + i - nb) with (l * h + (i - h)) by nia.
    assert (Hc : forall n a l, l < n -> forall j, j < h ->
       nth_error (concat (map (level_lags nb) (seq (2 + a) n))) (l * h + j)
       = Some ((h + j) * 2 ^ (a + l + 1))).
    { clear -Hnb. induction n as [|n IH]; intros a l Hl j Hj; [lia|].
      cbn [seq map concat]. destruct l as [|l].
      - rewrite nth_error_app1 by (rewrite level_lags_length; fold h; lia).
        unfold level_lags. fold h. rewrite nth_error_map_seq by lia.
        f_equal. f_equal. f_equal. lia.
      - rewrite nth_error_app2 by (rewrite level_lags_length; fold h; lia).
        rewrite level_lags_length. fold h.
        replace (S l * h + j - h) with (l * h + j) by lia.
        replace (S (2 + a)) with (2 + S a) by lia.
        rewrite IH by lia. f_equal. f_equal. f_equal. lia. }
    rewrite (Hc (L - 1) 0 l) by lia. f_equal.
    replace (h + (i - h)) with i by lia. f_equal. f_equal. lia.
Qed.

Lemma lags_length nb L : nb mod 2 = 0 -> 1 <= L ->
  length (seq 0 nb ++ concat (map (level_lags nb) (seq 2 (L - 1)))) = (L + 1) * nb / 2.
Proof.
  intros He HL. pose proof (even_half nb He) as Hnb.
  rewrite app_length, seq_length. set (h := nb / 2) in *.
  assert (E : forall n a, length (concat (map (level_lags nb) (seq a n))) = n * h).
  { induction n as [|n IH]; intros a; cbn [seq map concat]; [reflexivity|].
    rewrite app_length, level_lags_length, IH. fold h. lia. }
  rewrite E. replace ((L + 1) * nb) with ((L + 1) * h * 2) by lia.
  rewrite Nat.div_mul by lia. nia.
Qed.

(** Every position below the total is the position of exactly one lag. *)
Lemma pos_lag nb L t : nb mod 2 = 0 -> 2 <= nb -> 1 <= L -> t < (L + 1) * nb / 2 ->
  exists l i, is_lag nb L l i /\ t = lag_pos nb l i.
Proof.
  intros He Hb HL Ht. pose proof (even_half nb He) as Hnb. unfold is_lag, lag_pos.
  set (h := nb / 2) in *. replace ((L + 1) * nb) with ((L + 1) * h * 2) in Ht by lia.
  rewrite Nat.div_mul in Ht by lia.
  destruct (Nat.lt_ge_cases t nb) as [Hlt|Hge].
  - exists 0, t. repeat split; lia.
  - exists (t / h - 1), (t - (t / h - 1) * h).
    pose proof (Nat.div_mod t h ltac:(lia)) as D.
    pose proof (Nat.mod_upper_bound t h ltac:(lia)).
    set (q := t / h) in *.
    assert (2 <= q) by nia. assert (q < L + 1) by nia.
    repeat split; nia.
Qed.

Lemma lag_pos_inj nb L l i l' i' : nb mod 2 = 0 -> 2 <= nb ->
  is_lag nb L l i -> is_lag nb L l' i' -> lag_pos nb l i = lag_pos nb l' i' -> l = l' /\ i = i'.
Proof.
  intros He Hb (H1 & H2 & H3) (H1' & H2' & H3') E. unfold lag_pos in E.
  pose proof (even_half nb He) as Hnb. set (h := nb / 2) in *.
  assert (l = l') by (destruct H3 as [E1|E1], H3' as [E2|E2]; try rewrite E1 in *; try rewrite E2 in *; nia).
  split; [auto|nia].
Qed.

Lemma pos_lag_bound nb L l i : nb mod 2 = 0 -> is_lag nb L l i ->
  lag_pos nb l i < (L + 1) * nb / 2.
Proof.
  intros He (H1 & H2 & H3). pose proof (even_half nb He) as Hnb. unfold lag_pos.
  set (h := nb / 2) in *. replace ((L + 1) * nb) with ((L + 1) * h * 2) by lia.
  rewrite Nat.div_mul by lia. nia.
Qed.

Lemma lag_steps_init nb L labels c : nb mod 2 = 0 -> init_cfg nb L labels = Some c ->
  lag_steps c = seq 0 nb ++ concat (map (level_lags nb) (seq 2 (L - 1))).
Proof.
  intros He H. unfold init_cfg in H. rewrite extract_sel in H.
  replace (nb mod 2 =? 0) with true in H by lia. cbn [negb] in H.
  unfold multi_tau_lags in H. replace (nb mod 2 =? 0) with true in H by lia.
  cbn [negb bind] in H. injection H as <-. reflexivity.
Qed.

(* ------------------------------------------------------------------ *)
(** * Running the generator *)
Lemma lazy_app c a : forall b s,
  lazy_one_time c s (a ++ b)
  = (r1 <- lazy_one_time c s a ;; r2 <- lazy_one_time c (snd r1) b ;;
     Some (fst r1 ++ fst r2, snd r2)).
Proof.
  induction a as [|im a IH]; intros b s; cbn [app lazy_one_time].
  - cbn [bind fst snd app]. destruct (lazy_one_time c s b) as [[o s']|]; reflexivity.
  - destruct (gather im (pixel_list c)) as [v|]; cbn [bind]; [|reflexivity].
    destruct (step c s v) as [s1|]; cbn [bind]; [|reflexivity].
    rewrite IH. destruct (lazy_one_time c s1 a) as [[o1 s2]|]; cbn [bind fst snd]; [|reflexivity].
    destruct (lazy_one_time c s2 b) as [[o2 s3]|]; cbn [bind fst snd app]; reflexivity.
Qed.

Lemma lazy_run c : forall images s s',
  (forall im, In im images -> forall p, In p (pixel_list c) -> p < length im) ->
  foldM (step c) (map (fun im => map (fun p => nth p im None) (pixel_list c)) images) s = Some s' ->
  exists outs, lazy_one_time c s images = Some (outs, s') /\ length outs = length images /\
    (images <> [] -> exists o', outs = o' ++ [outputs c s']).
Proof.
  induction images as [|im images IH]; intros s s' Hin H; cbn [map foldM lazy_one_time] in *.
  - injection H as <-. exists []. repeat split. congruence.
  - rewrite gather_ok by (apply Hin; left; auto). cbn [bind].
    destruct (step c s _) as [s1|]; cbn [bind] in *; [|discriminate].
    destruct (IH s1 s' (fun im0 Hm => Hin im0 (or_intror Hm)) H) as (outs & E & Hl & Hlast).
    rewrite E. cbn [bind fst snd]. eexists; split; [reflexivity|]. split; [cbn; lia|].
    intros _. destruct images as [|im2 images].
    + cbn in *. injection E as <- <-. exists []. reflexivity.
    + destruct (Hlast ltac:(discriminate)) as [o' ->]. exists (outputs c s1 :: o'). reflexivity.
Qed.

(** What is known about the state after [images]. *)
Definition state_ok (nb L : nat) (labels : list Z) (images : list (list pix)) (s : state) : Prop :=
  (forall l i, is_lag nb L l i ->
     nth_error (G s) (lag_pos nb l i) = Some (map (spec_G labels images l i) (seq 1 (n_rois labels))) /\
     nth_error (past s) (lag_pos nb l i) = Some (map (spec_past labels images l i) (seq 1 (n_rois labels))) /\
     nth_error (fut s) (lag_pos nb l i) = Some (map (spec_fut labels images l i) (seq 1 (n_rois labels)))) /\
  length (G s) = (L + 1) * nb / 2 /\ length (past s) = (L + 1) * nb / 2 /\
  length (fut s) = (L + 1) * nb / 2.

(** Lengths of the accumulators never change. *)
Definition lens (s : state) := (length (G s), length (past s), length (fut s)).
Lemma body_lens c l bn ni s i s' : otp_body c l bn ni s i = Some s' -> lens s' = lens s.
Proof.
  unfold otp_body. intros H.
  repeat match type of H with
  | bind ?e _ = Some _ => destruct e eqn:?; cbn [bind] in H; [|discriminate]
  | (if ?b then _ else _) = Some _ => destruct b
  end; try discriminate.
  - injection H as <-. reflexivity.
  - unfold acc_at in *. destruct (nth_error (G s) _); cbn [bind] in *; [|discriminate].
    destruct (nth_error (past s) _); cbn [bind] in *; [|discriminate].
    destruct (nth_error (fut s) _); cbn [bind] in *; [|discriminate].
    injection H as <-. unfold lens, set_acc; cbn [G past fut].
    repeat match goal with E : upd _ _ _ = Some _ |- _ => apply upd_length in E; rewrite E; clear E end.
    reflexivity.
Qed.
Lemma process_lens c l bn s s' : one_time_process c l bn s = Some s' -> lens s' = lens s.
Proof.
  unfold one_time_process. intros H.
  destruct (nth_error (ipl s) l) as [n0|]; cbn [bind] in H; [|discriminate].
  destruct (upd (ipl s) l (n0 + 1)) as [ipl'|]; cbn [bind] in H; [|discriminate].
  change (lens s) with (lens (set_ipl s ipl')).
  revert H. generalize (set_ipl s ipl'). generalize (seq (if l =? 0 then 0 else num_bufs c / 2)
    (Nat.min (n0 + 1) (num_bufs c) - (if l =? 0 then 0 else num_bufs c / 2))).
  intros is; induction is as [|i is IH]; intros s0 H; cbn [foldM] in H.
  - injection H as <-; reflexivity.
  - destruct (otp_body _ _ _ _ s0 i) as [s1|] eqn:E; cbn [bind] in H; [|discriminate].
    rewrite (IH _ H). eapply body_lens; eauto.
Qed.
Lemma set_buf_lens s l i v s' : set_buf_at s l i v = Some s' -> lens s' = lens s.
Proof.
  unfold set_buf_at. intros H.
  repeat match type of H with
  | bind ?e _ = Some _ => destruct e eqn:?; cbn [bind] in H; [|discriminate] end.
  injection H as <-. reflexivity.
Qed.
Lemma level_loop_lens fuel : forall c l s s', level_loop fuel c l s = Some s' -> lens s' = lens s.
Proof.
  induction fuel as [|fuel IH]; intros c l s s' H; cbn [level_loop] in H; [discriminate|].
  destruct (nth_error (track s) l) as [[|]|]; cbn [bind negb] in H; try discriminate.
  - repeat match type of H with
    | bind ?e _ = Some _ => destruct e eqn:?; cbn [bind] in H; [|discriminate] end.
    match goal with E : set_buf_at _ _ _ _ = Some _ |- _ => apply set_buf_lens in E end.
    match goal with E : one_time_process _ _ _ _ = Some _ |- _ => apply process_lens in E end.
    match type of H with (if ?b then _ else _) = _ => destruct b end.
    + apply IH in H. unfold lens in *; cbn in *; congruence.
    + injection H as <-. unfold lens in *; cbn in *; congruence.
  - destruct (upd (track s) l true); cbn [bind] in H; [|discriminate].
    injection H as <-. reflexivity.
Qed.
Lemma step_lens c s v s' : step c s v = Some s' -> lens s' = lens s.
Proof.
  unfold step. intros H.
  repeat match type of H with
  | bind ?e _ = Some _ => destruct e eqn:?; cbn [bind] in H; [|discriminate] end.
  match goal with E : set_buf_at _ _ _ _ = Some _ |- _ => apply set_buf_lens in E end.
  match goal with E : one_time_process _ _ _ _ = Some _ |- _ => apply process_lens in E end.
  destruct (1 <? num_levels c).
  - apply level_loop_lens in H. unfold lens in *; cbn in *; congruence.
  - injection H as <-. unfold lens in *; cbn in *; congruence.
Qed.
Lemma foldM_lens c vs : forall s s', foldM (step c) vs s = Some s' -> lens s' = lens s.
Proof.
  induction vs as [|v vs IH]; intros s s' H; cbn [foldM] in H; [congruence|].
  destruct (step c s v) as [s1|] eqn:E; cbn [bind] in H; [|discriminate].
  rewrite (IH _ _ H). eapply step_lens; eauto.
Qed.

Lemma blk0_frames fs P : map (mkblk fs P 0) (seq 0 (length fs)) = fs.
Proof.
  apply nth_error_ext_len; rewrite map_length, seq_length; [reflexivity|].
  intros n Hn. rewrite nth_error_map_seq by exact Hn.
  symmetry. cbn [mkblk]. apply nth_error_nth_lt; exact Hn.
Qed.

(** Slot contents of the rings (C02). *)
Definition ring_ok (nb L : nat) (labels : list Z) (images : list (list pix)) (s : state) : Prop :=
  forall l i, l < L -> i < nb -> i < length images / 2 ^ l ->
  exists ring cu, nth_error (buf s) l = Some ring /\ nth_error (cur s) l = Some cu /\
    length ring = nb /\
    nth_error ring (Z.to_nat ((cu - 1 - Z.of_nat i) mod Z.of_nat nb))
    = Some (map (fun p => pmean (map (fun f => nth p f None)
                                     (block_frames images l (length images / 2 ^ l - 1 - i))))
                (all_positions labels)).

Lemma main nb L labels images :
  nb mod 2 = 0 -> 2 <= nb -> 1 <= L ->
  (forall im, In im images -> length im = length labels) ->
  exists c outs s, init_cfg nb L labels = Some c /\
    lazy_one_time c (init_state c) images = Some (outs, s) /\
    length outs = length images /\
    (images <> [] -> exists o', outs = o' ++ [outputs c s]) /\
    state_ok nb L labels images s /\ ring_ok nb L labels images s.
Proof.
  intros He Hb HL Him.
  destruct (init_cfg_eq nb L labels He) as [lags Hc].
  pose proof (even_half nb He) as Hnb.
  set (h := nb / 2) in *. set (c := mkcfg h L (clabels labels) (all_positions labels) lags) in *.
  set (fs := map (gpix labels) images).
  set (P := length (all_positions labels)).
  assert (HP : P = length (clabels labels)) by (unfold clabels; rewrite map_length; reflexivity).
  assert (Hlen : forall l k, length (mkblk fs P l k) = length (clabels labels)).
  { intros l k. rewrite <- HP. apply mkblk_len. apply fs_len. }
  assert (Hh1 : 1 <= h) by lia.
  destruct (run_ok h L (clabels labels) (all_positions labels) lags Hh1 HL
              (mkblk fs P) Hlen (fun l k => eq_refl) (length fs) 0 (init_state c)
              (init_ok h L _ _ _ Hh1 HL (mkblk fs P) Hlen (fun l k => eq_refl)))
    as (s & Erun & HI).
  rewrite blk0_frames in Erun. cbn [Nat.add] in HI.
  assert (Hfl : length fs = length images) by (unfold fs; apply map_length).
  rewrite Hfl in HI.
  destruct (lazy_run c images (init_state c) s) as (outs & E & Hl & Hlast).
  { intros im Hm p Hp. rewrite (Him im Hm).
    change (pixel_list c) with (all_positions labels) in Hp.
    apply all_positions_In in Hp. tauto. }
  { exact Erun. }
  exists c, outs, s. split; [exact Hc|]. split; [exact E|]. split; [exact Hl|].
  split; [exact Hlast|]. split.
  - assert (Hlens := foldM_lens _ _ _ _ Erun).
    unfold lens, init_state in Hlens. cbn [G past fut] in Hlens.
    rewrite repeat_length in Hlens.
    change (num_levels c) with L in Hlens.
    change (num_bufs c) with (2 * h) in Hlens. rewrite <- Hnb in Hlens.
    injection Hlens as HlG HlP HlF.
    split; [|repeat split; assumption].
    intros l i (Hl1 & Hi & Hor).
    destruct (HI l Hl1) as [(_ & _ & _ & _ & (HG & HPp & HF)) _].
    assert (Hir : imin h l <= i < 2 * h).
    { unfold imin. destruct (Nat.eqb_spec l 0); [lia|]. destruct Hor as [|Hor]; [lia|]. change (h <= i) in Hor. lia. }
    unfold lag_pos. fold h.
    rewrite (HG i Hir), (HPp i Hir), (HF i Hir).
    unfold fs, P. rewrite rows_G, rows_P, rows_F. repeat split; reflexivity.
  - intros l i Hl1 Hi Hm.
    destruct (HI l Hl1) as [(_ & Hcur & (ring & Hring & Hrl & Hk) & _ & _) _].
    exists ring. eexists. split; [exact Hring|]. split; [exact Hcur|].
    split; [lia|].
    change (length images / 2 ^ l) with (cnt l (length images)) in *.
    set (m := cnt l (length images)) in *.
    pose proof (pyindex_delay h L _ Hh1 HL (mkblk fs P) Hlen (fun l k => eq_refl) l m i (Nat.lt_le_incl _ _ Hm) ltac:(lia)) as Hpi.
    rewrite <- Hnb in Hpi.
    assert (Hz : Z.to_nat ((curval h l m - 1 - Z.of_nat i) mod Z.of_nat nb) = (m - i) mod nb).
    { unfold pyindex in Hpi.
      assert (0 <= (curval h l m - 1 - Z.of_nat i) mod Z.of_nat nb < Z.of_nat nb)%Z
        by (apply Z.mod_pos_bound; lia).
      destruct (_ && _) eqn:Eb in Hpi; [injection Hpi; auto|lia]. }
    rewrite Hz. specialize (Hk (m - 1 - i) ltac:(lia) ltac:(lia)).
    replace (m - 1 - i + 1) with (m - i) in Hk by lia. rewrite <- Hnb in Hk. rewrite Hk.
    f_equal. apply blk_pmean.
    pose proof (pow2_pos l).
    pose proof (Nat.mul_div_le (length images) (2 ^ l) ltac:(lia)).
    unfold m, cnt in *. nia.
Qed.
