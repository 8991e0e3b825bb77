(* Reported results of the one-time correlator. *)
From Verif Require Import Common MultiTau_Model MultiTau_Spec MultiTau_Labels MultiTau_Proofs MultiTau_Main.
From Coq Require Import ZifyBool ZifyNat.

(* ------------------------------------------------------------------ *)
(** * Lag axis *)
Lemma lag_lt nb L l i l' i' : nb mod 2 = 0 -> 2 <= nb ->
  is_lag nb L l i -> is_lag nb L l' i' -> lag_pos nb l i < lag_pos nb l' i' ->
  i * 2 ^ l < i' * 2 ^ l'.
Proof.
  intros He Hb (H1 & H2 & H3) (H1' & H2' & H3') E. unfold lag_pos in E.
  pose proof (even_half nb He) as Hnb. set (h := nb / 2) in *.
  pose proof (pow2_pos l).
  destruct (Nat.lt_trichotomy l l') as [Hlt|[<-|Hgt]].
  - destruct H3' as [->|H3']; [lia|].
    assert (2 * 2 ^ l <= 2 ^ l').
    { replace (2 * 2 ^ l) with (2 ^ S l) by (cbn; lia). apply Nat.pow_le_mono_r; lia. }
    nia.
  - nia.
  - exfalso. destruct H3 as [->|H3]; [lia|]. nia.
Qed.

Lemma lags_facts levels ch :
  1 <= levels -> ch mod 2 = 0 -> 2 <= ch ->
  exists tot lags dict, multi_tau_lags levels ch = Some (tot, lags, dict) /\
    tot = length lags /\ 2 * length lags = (levels + 1) * ch /\
    length dict = levels /\ concat dict = lags /\
    nth_error dict 0 = Some (seq 0 ch) /\
    (forall l, 1 <= l < levels -> exists d, nth_error dict l = Some d /\
        length d = ch / 2 /\ forall x, In x d -> exists q, x = q * 2 ^ l) /\
    (forall l i, is_lag ch levels l i -> nth_error lags (lag_pos ch l i) = Some (i * 2 ^ l)) /\
    nth_error lags 0 = Some 0 /\
    (forall t t' x x', t < t' -> nth_error lags t = Some x -> nth_error lags t' = Some x' -> x < x').
Proof.
  intros HL He Hb. unfold multi_tau_lags.
  replace (ch mod 2 =? 0) with true by lia. cbn [negb].
  do 3 eexists. split; [reflexivity|].
  pose proof (even_half ch He) as Hch.
  pose proof (lags_length ch levels He HL) as Hlen.
  split; [symmetry; exact Hlen|].
  split. { rewrite Hlen. replace ((levels + 1) * ch) with ((levels + 1) * (ch / 2) * 2) by lia.
           rewrite Nat.div_mul by lia. lia. }
  split. { cbn [length]. rewrite map_length, seq_length. lia. }
  split; [reflexivity|]. split; [reflexivity|].
  split.
  { intros l Hl. destruct l as [|l]; [lia|]. cbn [nth_error].
    exists (level_lags ch (2 + l)). split.
    - rewrite nth_error_map, nth_error_seq by lia. reflexivity.
    - split; [apply level_lags_length|]. intros x Hx. unfold level_lags in Hx.
      apply in_map_iff in Hx as (j & <- & _). exists (ch / 2 + j).
      replace (2 + l - 1) with (S l) by lia. reflexivity. }
  split. { intros l i Hl. apply lags_nth; auto. }
  split. { destruct ch; [lia|reflexivity]. }
  intros t t' x x' Htt Ht Ht'.
  assert (Hb1 : t < (levels + 1) * ch / 2)
    by (rewrite <- Hlen; apply nth_error_Some; rewrite Ht; discriminate).
  assert (Hb2 : t' < (levels + 1) * ch / 2)
    by (rewrite <- Hlen; apply nth_error_Some; rewrite Ht'; discriminate).
  destruct (pos_lag ch levels t He Hb HL Hb1) as (l & i & Hi & ->).
  destruct (pos_lag ch levels t' He Hb HL Hb2) as (l' & i' & Hi' & ->).
  rewrite (lags_nth _ _ _ _ He Hi) in Ht. injection Ht as <-.
  rewrite (lags_nth _ _ _ _ He Hi') in Ht'. injection Ht' as <-.
  eapply lag_lt; eauto.
Qed.

Lemma lags_odd levels ch : ch mod 2 <> 0 -> multi_tau_lags levels ch = None.
Proof.
  intros H. unfold multi_tau_lags. replace (ch mod 2 =? 0) with false by lia. reflexivity.
Qed.
Lemma corr_odd nb L labels images : nb mod 2 <> 0 -> multi_tau_auto_corr nb L labels images = None.
Proof.
  intros H. unfold multi_tau_auto_corr, init_cfg.
  replace (nb mod 2 =? 0) with false by lia. reflexivity.
Qed.

(* ------------------------------------------------------------------ *)
(** * Truncation and normalisation *)
Lemma fzr_le m : first_zero_row m <= length m.
Proof. induction m as [|r m IH]; cbn; [lia|]. destruct (existsb _ r); lia. Qed.
Lemma fzr_before m : forall t r, t < first_zero_row m -> nth_error m t = Some r ->
  forall x, In x r -> x <> 0%Qc.
Proof.
  induction m as [|r0 m IH]; intros t r Ht Hr x Hx; cbn in Ht; [lia|].
  destruct (existsb (Qc_eqb 0%Qc) r0) eqn:E; [lia|].
  destruct t as [|t].
  - injection Hr as ->. intros ->.
    assert (existsb (Qc_eqb 0%Qc) r = true); [|congruence].
    apply existsb_exists. exists 0%Qc. split; [exact Hx|]. destruct (Qc_eqb_spec 0 0); auto.
  - eapply IH; eauto. lia.
Qed.
Lemma fzr_at m : first_zero_row m < length m ->
  exists r, nth_error m (first_zero_row m) = Some r /\ In 0%Qc r.
Proof.
  induction m as [|r0 m IH]; cbn; intros H; [lia|].
  destruct (existsb (Qc_eqb 0%Qc) r0) eqn:E.
  - exists r0. split; [reflexivity|]. apply existsb_exists in E as (x & Hx & Ex).
    destruct (Qc_eqb_spec 0 x); [subst; auto|discriminate].
  - apply IH. lia.
Qed.

Lemma nth_error_firstn {A} (l : list A) n t : t < n -> nth_error (firstn n l) t = nth_error l t.
Proof.
  revert l t; induction n as [|n IH]; intros [|a l] [|t] H; cbn; try lia; auto.
  apply IH; lia.
Qed.
Lemma nth_error_combine {A B} (l1 : list A) (l2 : list B) t a b :
  nth_error l1 t = Some a -> nth_error l2 t = Some b -> nth_error (combine l1 l2) t = Some (a, b).
Proof.
  revert l2 t; induction l1 as [|x l1 IH]; intros [|y l2] [|t] H1 H2; cbn in *; try discriminate.
  - congruence.
  - apply IH; auto.
Qed.

Definition out_ok nb L labels images (g2 : list (list pix)) (lags : list nat) : Prop :=
  length g2 = length lags /\ 2 * length g2 <= (L + 1) * nb /\
  (forall l i, is_lag nb L l i -> lag_pos nb l i < length g2 ->
     nth_error lags (lag_pos nb l i) = Some (i * 2 ^ l) /\
     nth_error g2 (lag_pos nb l i)
     = Some (map (spec_g2 labels images l i) (seq 1 (n_rois labels))) /\
     forall r, 1 <= r <= n_rois labels -> spec_past labels images l i r <> 0%Qc) /\
  (2 * length g2 < (L + 1) * nb ->
     exists l i r, is_lag nb L l i /\ lag_pos nb l i = length g2 /\
       1 <= r <= n_rois labels /\ spec_past labels images l i r = 0%Qc).

Lemma outputs_ok nb L labels images c s :
  nb mod 2 = 0 -> 2 <= nb -> 1 <= L ->
  init_cfg nb L labels = Some c -> state_ok nb L labels images s ->
  out_ok nb L labels images (fst (outputs c s)) (snd (outputs c s)).
Proof.
  intros He Hb HL Hc (HS & HlG & HlP & HlF).
  pose proof (even_half nb He) as Hnb.
  assert (HT : 2 * ((L + 1) * nb / 2) = (L + 1) * nb).
  { replace ((L + 1) * nb) with ((L + 1) * (nb / 2) * 2) by lia.
    rewrite Nat.div_mul by lia. lia. }
  unfold outputs. cbn [fst snd].
  set (gm := first_zero_row (past s)) in *.
  assert (Hgm : gm <= (L + 1) * nb / 2) by (rewrite <- HlP; apply fzr_le).
  assert (Hlg : length (map (fun x : list Qc * (list Qc * list Qc) =>
      g2_row (fst x) (fst (snd x)) (snd (snd x)))
      (combine (firstn gm (G s)) (combine (firstn gm (past s)) (firstn gm (fut s))))) = gm).
  { rewrite map_length, !combine_length, !firstn_length. lia. }
  unfold out_ok. rewrite Hlg.
  rewrite (lag_steps_init _ _ _ _ He Hc).
  split. { rewrite firstn_length, (lags_length nb L He HL). lia. }
  split; [lia|]. split.
  - intros l i Hi Hp. destruct (HS l i Hi) as (EG & EP & EF).
    split; [rewrite nth_error_firstn by exact Hp; apply lags_nth; auto|]. split.
    + erewrite map_nth_error.
      2:{ apply nth_error_combine; [rewrite nth_error_firstn by exact Hp; exact EG|].
          apply nth_error_combine; rewrite nth_error_firstn by exact Hp; [exact EP|exact EF]. }
      cbn [fst snd]. unfold g2_row. rewrite !combine_map_same, map_map. reflexivity.
    + intros r Hr. apply (fzr_before _ _ _ Hp EP). apply in_map_iff. exists r.
      split; [reflexivity|]. apply in_seq; lia.
  - intros Hlt. assert (Hlt' : gm < length (past s)) by lia.
    destruct (fzr_at _ Hlt') as (row & Hrow & H0). fold gm in Hrow.
    destruct (pos_lag nb L gm He Hb HL ltac:(lia)) as (l & i & Hi & Hpos).
    destruct (HS l i Hi) as (_ & EP & _). rewrite <- Hpos, Hrow in EP. injection EP as ->.
    apply in_map_iff in H0 as (r & Er & Hr). apply in_seq in Hr.
    exists l, i, r. repeat split; auto; try lia; apply Hi.
Qed.

Lemma corr_ok nb L labels images :
  nb mod 2 = 0 -> 2 <= nb -> 1 <= L -> images <> [] ->
  (forall im, In im images -> length im = length labels) ->
  exists g2 lags, multi_tau_auto_corr nb L labels images = Some (g2, lags) /\
    out_ok nb L labels images g2 lags.
Proof.
  intros He Hb HL Hne Him.
  destruct (main nb L labels images He Hb HL Him)
    as (c & outs & s & Hc & Hlazy & _ & Hlast & Hst & _).
  destruct (Hlast Hne) as [o' ->].
  unfold multi_tau_auto_corr. rewrite Hc; cbn [bind]. rewrite Hlazy; cbn [bind fst].
  rewrite rev_app_distr. cbn [rev app].
  exists (fst (outputs c s)), (snd (outputs c s)). rewrite <- surjective_pairing.
  split; [reflexivity|]. eapply outputs_ok; eauto.
Qed.

(** [out_ok] determines the output. *)
Lemma out_ok_unique nb L labels images g lg g' lg' :
  nb mod 2 = 0 -> 2 <= nb -> 1 <= L ->
  out_ok nb L labels images g lg -> out_ok nb L labels images g' lg' -> g = g' /\ lg = lg'.
Proof.
  intros He Hb HL (A1 & A2 & A3 & A4) (B1 & B2 & B3 & B4).
  assert (Hlen : length g = length g').
  { destruct (Nat.lt_trichotomy (length g) (length g')) as [H|[H|H]]; auto; exfalso.
    - destruct (A4 ltac:(lia)) as (l & i & r & Hi & Hp & Hr & E).
      destruct (B3 l i Hi ltac:(lia)) as (_ & _ & N). exact (N r Hr E).
    - destruct (B4 ltac:(lia)) as (l & i & r & Hi & Hp & Hr & E).
      destruct (A3 l i Hi ltac:(lia)) as (_ & _ & N). exact (N r Hr E). }
  assert (HT : 2 * ((L + 1) * nb / 2) = (L + 1) * nb).
  { pose proof (even_half nb He).
    replace ((L + 1) * nb) with ((L + 1) * (nb / 2) * 2) by lia.
    rewrite Nat.div_mul by lia. lia. }
  split; apply nth_error_ext_len; try lia; intros t Ht;
    (destruct (pos_lag nb L t He Hb HL ltac:(lia)) as (l & i & Hi & ->));
    destruct (A3 l i Hi ltac:(lia)) as (a & b & _), (B3 l i Hi ltac:(lia)) as (a' & b' & _);
    congruence.
Qed.

(* ------------------------------------------------------------------ *)
(** * Scaling *)
Definition scale_img (a : Qc) (im : list pix) : list pix := map (option_map (Qcmult a)) im.

Lemma qsum_scale a l : qsum (map (Qcmult a) l) = (a * qsum l)%Qc.
Proof. induction l as [|x l IH]; cbn; [ring|rewrite IH; ring]. Qed.
Lemma mean_scale a l : mean (map (Qcmult a) l) = (a * mean l)%Qc.
Proof.
  rewrite !mean_eq, qsum_scale, map_length. unfold Qcdiv. ring.
Qed.
Lemma mean_map_scale {A} a (f g : A -> Qc) l :
  (forall x, In x l -> f x = a * g x)%Qc -> mean (map f l) = (a * mean (map g l))%Qc.
Proof.
  intros H. rewrite <- mean_scale, map_map. f_equal. apply map_ext_in. exact H.
Qed.

Lemma block_frames_map {A B} (f : A -> B) fs l k :
  block_frames (map f fs) l k = map f (block_frames fs l k).
Proof. unfold block_frames. rewrite skipn_map, firstn_map. reflexivity. Qed.

Lemma nth_scale a im p : nth p (scale_img a im) None = option_map (Qcmult a) (nth p im None).
Proof.
  unfold scale_img. change (@None Qc) with (option_map (Qcmult a) None) at 1. apply map_nth.
Qed.

Lemma block_pix_scale a fs l k p :
  block_pix (map (scale_img a) fs) l k p = (a * block_pix fs l k p)%Qc.
Proof.
  unfold block_pix. rewrite block_frames_map, map_map. apply mean_map_scale.
  intros im _. rewrite nth_scale. destruct (nth p im None); cbn; ring.
Qed.

Lemma forallb_ext {A} (p q : A -> bool) l : (forall x, p x = q x) -> forallb p l = forallb q l.
Proof. intros H. induction l as [|x l IH]; cbn; [reflexivity|]. rewrite H, IH. reflexivity. Qed.

Lemma good_scale a labels fs l k : good labels (map (scale_img a) fs) l k = good labels fs l k.
Proof.
  unfold good. rewrite block_frames_map, forallb_map.
  apply forallb_ext. intros f. apply forallb_ext. intros p.
  rewrite nth_scale. destruct (nth p f None); reflexivity.
Qed.
Lemma good_pairs_scale a labels fs l i :
  good_pairs labels (map (scale_img a) fs) l i = good_pairs labels fs l i.
Proof.
  unfold good_pairs. rewrite map_length. apply filter_ext. intros k.
  rewrite !good_scale. reflexivity.
Qed.

Lemma spec_scale a labels fs l i r :
  spec_G labels (map (scale_img a) fs) l i r = (a * a * spec_G labels fs l i r)%Qc /\
  spec_past labels (map (scale_img a) fs) l i r = (a * spec_past labels fs l i r)%Qc /\
  spec_fut labels (map (scale_img a) fs) l i r = (a * spec_fut labels fs l i r)%Qc.
Proof.
  unfold spec_G, spec_past, spec_fut. rewrite good_pairs_scale.
  repeat split; apply mean_map_scale; intros k _; unfold roi_avg; apply mean_map_scale;
    intros p _; rewrite !block_pix_scale; ring.
Qed.

Lemma spec_g2_scale a labels fs l i r : a <> 0%Qc ->
  spec_g2 labels (map (scale_img a) fs) l i r = spec_g2 labels fs l i r.
Proof.
  intros Ha. unfold spec_g2, qdiv.
  destruct (spec_scale a labels fs l i r) as (-> & -> & ->).
  set (g := spec_G _ _ _ _ _). set (p := spec_past _ _ _ _ _). set (f := spec_fut _ _ _ _ _).
  destruct (Qc_eqb_spec (a * p * (a * f)) 0) as [E|E], (Qc_eqb_spec (p * f) 0) as [E'|E'].
  - reflexivity.
  - exfalso. replace (a * p * (a * f))%Qc with (a * (a * (p * f)))%Qc in E by ring.
    apply Qcmult_integral in E as [E|E]; auto. apply Qcmult_integral in E as [E|E]; auto.
  - exfalso. apply E. replace (a * p * (a * f))%Qc with (a * a * (p * f))%Qc by ring.
    rewrite E'. ring.
  - f_equal. field. repeat split; auto.
    + intros ->. apply E'. ring.
    + intros ->. apply E'. ring.
Qed.

Lemma corr_scale nb L labels images a :
  nb mod 2 = 0 -> 2 <= nb -> 1 <= L ->
  (forall im, In im images -> length im = length labels) -> a <> 0%Qc ->
  multi_tau_auto_corr nb L labels (map (scale_img a) images)
  = multi_tau_auto_corr nb L labels images.
Proof.
  intros He Hb HL Him Ha. destruct images as [|im0 images0] eqn:Eim.
  { unfold multi_tau_auto_corr. cbn [map].  destruct (init_cfg nb L labels); reflexivity. }
  rewrite <- Eim in *. assert (Hne : images <> []) by (rewrite Eim; discriminate). clear Eim.
  destruct (corr_ok nb L labels images He Hb HL Hne Him) as (g & lg & E & Hok).
  destruct (corr_ok nb L labels (map (scale_img a) images) He Hb HL) as (g' & lg' & E' & Hok').
  { destruct images; [congruence|discriminate]. }
  { intros im Hin. apply in_map_iff in Hin as (im' & <- & Hin).
    unfold scale_img. rewrite map_length. auto. }
  rewrite E, E'.
  assert (Hok2 : out_ok nb L labels images g' lg').
  { destruct Hok' as (A1 & A2 & A3 & A4). split; [exact A1|]. split; [exact A2|]. split.
    - intros l i Hi Hp. destruct (A3 l i Hi Hp) as (B1 & B2 & B3).
      split; [exact B1|]. split.
      + rewrite B2. f_equal. apply map_ext. intros r. apply spec_g2_scale; exact Ha.
      + intros r Hr E0. apply (B3 r Hr).
        destruct (spec_scale a labels images l i r) as (_ & -> & _). rewrite E0. ring.
    - intros Hlt. destruct (A4 Hlt) as (l & i & r & Hi & Hp & Hr & E0).
      exists l, i, r. repeat split; auto; try apply Hi; try lia.
      destruct (spec_scale a labels images l i r) as (_ & E1 & _). rewrite E1 in E0.
      apply Qcmult_integral in E0 as [?|?]; [congruence|assumption]. }
  destruct (out_ok_unique _ _ _ _ _ _ _ _ He Hb HL Hok Hok2) as [-> ->]. reflexivity.
Qed.

(* ------------------------------------------------------------------ *)
(** * Constant signal *)
Lemma qsum_const x n : qsum (repeat x n) = (qn n * x)%Qc.
Proof.
  induction n as [|n IH]; cbn [repeat qsum].
  - change (qn 0) with 0%Qc. ring.
  - rewrite IH, qn_S. ring.
Qed.
Lemma map_const {A B} (f : A -> B) x l : (forall y, In y l -> f y = x) -> map f l = repeat x (length l).
Proof.
  induction l as [|a l IH]; cbn; intros H; [reflexivity|].
  rewrite H by auto. f_equal. apply IH. auto.
Qed.
Lemma mean_const {A} (f : A -> Qc) x l :
  (forall y, In y l -> f y = x) -> l <> [] -> mean (map f l) = x.
Proof.
  intros H Hne. rewrite (map_const f x l H), mean_eq, qsum_const, repeat_length.
  assert (qn (length l) <> 0%Qc) by (apply qn_neq0; destruct l; cbn; congruence).
  field. assumption.
Qed.

Lemma block_frames_repeat {A} (x : A) n l k : (k + 1) * 2 ^ l <= n ->
  block_frames (repeat x n) l k = repeat x (2 ^ l).
Proof.
  intros H. unfold block_frames.
  apply nth_error_ext_len.
  - rewrite firstn_length, skipn_length, !repeat_length. lia.
  - intros t Ht. rewrite firstn_length, skipn_length, repeat_length in Ht.
    rewrite nth_error_firstn by lia.
    assert (E : forall (l0 : list A) a b, nth_error (skipn a l0) b = nth_error l0 (a + b)).
    { intros l0 a; revert l0; induction a as [|a IH]; intros [|y l0] b; cbn; auto.
      destruct b; reflexivity. }
    rewrite E, !nth_error_repeat by lia. reflexivity.
Qed.

Lemma block_pix_const im n l k p : (k + 1) * 2 ^ l <= n ->
  block_pix (repeat im n) l k p = num (nth p im None).
Proof.
  intros H. unfold block_pix. rewrite block_frames_repeat by exact H.
  apply mean_const.
  - intros y Hy. apply repeat_spec in Hy. subst; reflexivity.
  - pose proof (pow2_pos l). destruct (2 ^ l); [lia|discriminate].
Qed.

Section Const.
Variables (labels : list Z) (im : list pix) (n : nat).
Hypothesis Hnum : forall p, In p (all_positions labels) ->
  exists x, nth p im None = Some x /\ (0 < x)%Qc.

Lemma good_const l k : (k + 1) * 2 ^ l <= n -> good labels (repeat im n) l k = true.
Proof.
  intros H. unfold good. rewrite block_frames_repeat by exact H.
  apply forallb_forall. intros f Hf. apply repeat_spec in Hf. subst f.
  apply forallb_forall. intros p Hp. destruct (Hnum p Hp) as (x & -> & _). reflexivity.
Qed.

Lemma good_pairs_const l i : good_pairs labels (repeat im n) l i = seq 0 (n / 2 ^ l - i).
Proof.
  unfold good_pairs. rewrite repeat_length.
  pose proof (pow2_pos l).
  pose proof (Nat.mul_div_le n (2 ^ l) ltac:(lia)).
  set (m := n / 2 ^ l) in *.
  assert (H1 : forall k, In k (seq 0 (m - i)) ->
     good labels (repeat im n) l k && good labels (repeat im n) l (k + i) = true).
  { intros k Hk. apply in_seq in Hk. rewrite !good_const; [reflexivity|nia|nia]. }
  induction (seq 0 (m - i)) as [|k ks IH]; cbn; [reflexivity|].
  rewrite H1 by (left; auto). f_equal. apply IH. intros; apply H1; right; auto.
Qed.

Lemma roi_nonempty r : 1 <= r <= n_rois labels -> roi_positions labels r <> [].
Proof.
  intros Hr. destruct (roi_no_onto labels r Hr) as (x & Hx & H0 & E).
  apply In_nth with (d := 0%Z) in Hx as (p & Hp & <-).
  assert (Hin : In p (roi_positions labels r)).
  { unfold roi_positions. apply filter_In. split; [apply in_seq; lia|]. lia. }
  intros E'. rewrite E' in Hin. destruct Hin.
Qed.

Lemma roi_in_all p r : In p (roi_positions labels r) -> In p (all_positions labels).
Proof.
  unfold roi_positions, all_positions. rewrite !filter_In. intros [H1 H2].
  apply andb_true_iff in H2. tauto.
Qed.

Let I p := num (nth p im None).

Lemma spec_const l i r : i < n / 2 ^ l ->
  spec_G labels (repeat im n) l i r = roi_avg labels (fun p => I p * I p)%Qc r /\
  spec_past labels (repeat im n) l i r = roi_avg labels I r /\
  spec_fut labels (repeat im n) l i r = roi_avg labels I r.
Proof.
  intros Hi. unfold spec_G, spec_past, spec_fut. rewrite good_pairs_const.
  pose proof (pow2_pos l).
  pose proof (Nat.mul_div_le n (2 ^ l) ltac:(lia)).
  set (m := n / 2 ^ l) in *.
  assert (Hne : seq 0 (m - i) <> []) by (destruct (m - i) eqn:E; [lia|discriminate]).
  repeat split; apply mean_const; auto; intros k Hk; apply in_seq in Hk;
    unfold roi_avg; f_equal; apply map_ext; intros p;
    rewrite ?block_pix_const by nia; reflexivity.
Qed.

Lemma qsum_pos l : l <> [] -> (forall x, In x l -> 0 < x)%Qc -> (0 < qsum l)%Qc.
Proof.
  induction l as [|x l IH]; [congruence|]. intros _ H. cbn [qsum].
  destruct l as [|y l].
  - cbn. rewrite Qcplus_0_r. apply H; left; auto.
  - assert (H1 : (0 < x)%Qc) by (apply H; left; auto).
    assert (H2 : (0 < qsum (y :: l))%Qc)
      by (apply IH; [discriminate|intros; apply H; right; auto]).
    apply Qclt_trans with x; auto.
    rewrite <- (Qcplus_0_r x) at 1. unfold Qclt, Qcplus in *. cbn [this Q2Qc] in *.
    rewrite !Qred_correct. rewrite Qplus_lt_r. exact H2.
Qed.

Lemma roi_avg_pos r : 1 <= r <= n_rois labels -> roi_avg labels I r <> 0%Qc.
Proof.
  intros Hr. unfold roi_avg. rewrite mean_eq. pose proof (roi_nonempty r Hr) as Hne.
  assert (Hp : (0 < qsum (map I (roi_positions labels r)))%Qc).
  { apply qsum_pos.
    - destruct (roi_positions labels r); [congruence|discriminate].
    - intros x Hx. apply in_map_iff in Hx as (p & <- & Hp).
      destruct (Hnum p (roi_in_all p r Hp)) as (x & E & Hx). unfold I. rewrite E. exact Hx. }
  assert (Hn : qn (length (map I (roi_positions labels r))) <> 0%Qc).
  { apply qn_neq0. rewrite map_length. destruct (roi_positions labels r); cbn; congruence. }
  intros E. unfold Qcdiv in E. apply Qcmult_integral in E as [E|E].
  - rewrite E in Hp. exact (Qclt_not_eq _ _ Hp eq_refl).
  - pose proof (Qcmult_inv_r _ Hn) as K. rewrite E, Qcmult_0_r in K. discriminate.
Qed.

Lemma corr_const nb L :
  nb mod 2 = 0 -> 2 <= nb -> 1 <= L -> 1 <= n -> length im = length labels ->
  1 <= n_rois labels ->
  exists g2 lags, multi_tau_auto_corr nb L labels (repeat im n) = Some (g2, lags) /\
    length g2 = length lags /\
    (forall l i, is_lag nb L l i -> (lag_pos nb l i < length g2 <-> (i + 1) * 2 ^ l <= n)) /\
    (forall l i, is_lag nb L l i -> (i + 1) * 2 ^ l <= n ->
       nth_error lags (lag_pos nb l i) = Some (i * 2 ^ l) /\
       exists row, nth_error g2 (lag_pos nb l i) = Some row /\ length row = n_rois labels /\
         forall r, 1 <= r <= n_rois labels ->
           nth_error row (r - 1)
           = Some (Some (roi_avg labels (fun p => I p * I p)%Qc r
                         / (roi_avg labels I r * roi_avg labels I r))%Qc)).
Proof.
  intros He Hb HL Hn Hlen HK.
  destruct (corr_ok nb L labels (repeat im n) He Hb HL) as (g2 & lags & E & A1 & A2 & A3 & A4).
  { destruct n; [lia|discriminate]. }
  { intros f Hf. apply repeat_spec in Hf. subst; auto. }
  exists g2, lags. split; [exact E|]. split; [exact A1|].
  assert (Hreach : forall l i, i < n / 2 ^ l <-> (i + 1) * 2 ^ l <= n).
  { intros l i. pose proof (pow2_pos l).
    pose proof (Nat.mul_div_le n (2 ^ l) ltac:(lia)).
    pose proof (Nat.mul_succ_div_gt n (2 ^ l) ltac:(lia)).
    set (m := n / 2 ^ l) in *. split; nia. }
  assert (Hiff : forall l i, is_lag nb L l i ->
     (lag_pos nb l i < length g2 <-> (i + 1) * 2 ^ l <= n)).
  { intros l i Hi. split.
    - intros Hp. apply Hreach. destruct (Nat.lt_ge_cases i (n / 2 ^ l)) as [|Hge]; auto.
      exfalso. destruct (A3 l i Hi Hp) as (_ & _ & N). apply (N 1 ltac:(lia)).
      unfold spec_past. rewrite good_pairs_const.
      replace (n / 2 ^ l - i) with 0 by lia. reflexivity.
    - intros Hr. destruct (Nat.lt_ge_cases (lag_pos nb l i) (length g2)) as [|Hge]; auto.
      exfalso.
      pose proof (pos_lag_bound nb L l i He Hi).
      assert (HT : 2 * ((L + 1) * nb / 2) = (L + 1) * nb).
      { pose proof (even_half nb He).
        replace ((L + 1) * nb) with ((L + 1) * (nb / 2) * 2) by lia.
        rewrite Nat.div_mul by lia. lia. }
      destruct (A4 ltac:(lia)) as (l' & i' & r & Hi' & Hp' & Hr' & E0).
      assert (Hr2 : (i' + 1) * 2 ^ l' <= n).
      { (* the earlier lag is reached as well *)
        assert (Hle : (i' + 1) * 2 ^ l' <= (i + 1) * 2 ^ l); [|lia].
        destruct (Nat.eq_dec (lag_pos nb l' i') (lag_pos nb l i)) as [Eq|Ne].
        - destruct (lag_pos_inj nb L _ _ _ _ He Hb Hi' Hi Eq) as [-> ->]. lia.
        - destruct Hi as (a1 & a2 & a3), Hi' as (b1 & b2 & b3).
          assert (Hlt : lag_pos nb l' i' < lag_pos nb l i) by lia.
          unfold lag_pos in Hlt. pose proof (even_half nb He) as Hnb.
          set (h := nb / 2) in *.
          pose proof (pow2_pos l'). pose proof (pow2_pos l).
          destruct (Nat.lt_trichotomy l' l) as [Hl|[->|Hl]].
          + destruct a3 as [->|a3]; [lia|].
            assert (2 * 2 ^ l' <= 2 ^ l).
            { replace (2 * 2 ^ l') with (2 ^ S l') by (cbn; lia). apply Nat.pow_le_mono_r; lia. }
            nia.
          + nia.
          + exfalso. destruct b3 as [->|b3]; [lia|]. nia. }
      apply Hreach in Hr2.
      destruct (spec_const l' i' r Hr2) as (_ & E1 & _). rewrite E1 in E0.
      exact (roi_avg_pos r Hr' E0). }
  split; [exact Hiff|].
  intros l i Hi Hr. assert (Hp : lag_pos nb l i < length g2) by (apply Hiff; auto).
  destruct (A3 l i Hi Hp) as (B1 & B2 & _). split; [exact B1|].
  eexists; split; [exact B2|]. split; [rewrite map_length, seq_length; reflexivity|].
  intros r Hr1. rewrite nth_error_map, nth_error_seq by lia. cbn [option_map].
  replace (1 + (r - 1)) with r by lia. f_equal.
  apply Hreach in Hr. destruct (spec_const l i r Hr) as (E1 & E2 & E3).
  unfold spec_g2, qdiv. rewrite E1, E2, E3.
  destruct (Qc_eqb_spec (roi_avg labels I r * roi_avg labels I r) 0) as [E0|E0]; [|reflexivity].
  exfalso. apply Qcmult_integral in E0 as [E0|E0]; exact (roi_avg_pos r Hr1 E0).
Qed.

Lemma ratio_uniform r a : 1 <= r <= n_rois labels ->
  (forall p, In p (roi_positions labels r) -> nth p im None = Some a) ->
  (roi_avg labels (fun p => I p * I p)%Qc r / (roi_avg labels I r * roi_avg labels I r))%Qc = 1%Qc.
Proof.
  intros Hr Hu. pose proof (roi_nonempty r Hr) as Hne. pose proof (roi_avg_pos r Hr) as Hp.
  assert (E1 : roi_avg labels I r = a).
  { apply mean_const; auto. intros p Hp'. unfold I. rewrite (Hu p Hp'). reflexivity. }
  assert (E2 : roi_avg labels (fun p => I p * I p)%Qc r = (a * a)%Qc).
  { apply mean_const; auto. intros p Hp'. unfold I. rewrite (Hu p Hp'). reflexivity. }
  rewrite E1 in Hp. rewrite E1, E2. field. assumption.
Qed.
End Const.

(* ------------------------------------------------------------------ *)
(** * Remaining statements in their final form *)
Lemma accumulators nb L labels images :
  nb mod 2 = 0 -> 2 <= nb -> 1 <= L ->
  (forall im, In im images -> length im = length labels) ->
  exists c outs s, init_cfg nb L labels = Some c /\
    lazy_one_time c (init_state c) images = Some (outs, s) /\
    length outs = length images /\
    2 * length (G s) = (L + 1) * nb /\
    2 * length (past s) = (L + 1) * nb /\
    2 * length (fut s) = (L + 1) * nb /\
    (forall l i, is_lag nb L l i ->
     nth_error (G s) (lag_pos nb l i)
       = Some (map (spec_G labels images l i) (seq 1 (n_rois labels))) /\
     nth_error (past s) (lag_pos nb l i)
       = Some (map (spec_past labels images l i) (seq 1 (n_rois labels))) /\
     nth_error (fut s) (lag_pos nb l i)
       = Some (map (spec_fut labels images l i) (seq 1 (n_rois labels)))).
Proof.
  intros He Hb HL Him.
  destruct (main nb L labels images He Hb HL Him)
    as (c & outs & s & Hc & Hl & Hlen & _ & (HS & A & B & D) & _).
  assert (HT : 2 * ((L + 1) * nb / 2) = (L + 1) * nb).
  { pose proof (even_half nb He).
    replace ((L + 1) * nb) with ((L + 1) * (nb / 2) * 2) by lia.
    rewrite Nat.div_mul by lia. lia. }
  exists c, outs, s. rewrite A, B, D, HT. repeat split; auto; apply HS; auto.
Qed.

Lemma resume_values nb L labels a b :
  nb mod 2 = 0 -> 2 <= nb -> 1 <= L ->
  (forall im, In im (a ++ b) -> length im = length labels) ->
  exists c outs1 s1 outs2 s2, init_cfg nb L labels = Some c /\
    lazy_one_time c (init_state c) a = Some (outs1, s1) /\
    lazy_one_time c s1 b = Some (outs2, s2) /\
    lazy_one_time c (init_state c) (a ++ b) = Some (outs1 ++ outs2, s2) /\
    forall l i, is_lag nb L l i ->
     nth_error (G s2) (lag_pos nb l i)
       = Some (map (spec_G labels (a ++ b) l i) (seq 1 (n_rois labels))).
Proof.
  intros He Hb HL Him.
  destruct (main nb L labels (a ++ b) He Hb HL Him)
    as (c & outs & s & Hc & Hl & Hlen & _ & (HS & _) & _).
  pose proof Hl as Hl'. rewrite lazy_app in Hl'.
  destruct (lazy_one_time c (init_state c) a) as [[o1 s1]|] eqn:E1; cbn [bind snd] in Hl'; [|discriminate].
  destruct (lazy_one_time c s1 b) as [[o2 s2]|] eqn:E2; cbn [bind fst snd] in Hl'; [|discriminate].
  injection Hl' as <- <-.
  exists c, o1, s1, o2, s2. repeat split; auto. intros l i Hi. apply (HS l i Hi).
Qed.

Lemma In_block_frames {A} (fs : list A) l k f d :
  In f (block_frames fs l k) <->
  exists t, k * 2 ^ l <= t < (k + 1) * 2 ^ l /\ t < length fs /\ nth t fs d = f.
Proof.
  unfold block_frames. split.
  - intros H. apply In_nth with (d := d) in H as (t & Ht & <-).
    rewrite firstn_length, skipn_length in Ht.
    exists (k * 2 ^ l + t). split; [lia|]. split; [lia|].
    assert (E : nth_error (firstn (2 ^ l) (skipn (k * 2 ^ l) fs)) t = nth_error fs (k * 2 ^ l + t)).
    { rewrite nth_error_firstn by lia.
      generalize (k * 2 ^ l). clear. intros a; revert fs; induction a as [|a IH]; intros [|y fs]; cbn; auto.
      destruct t; reflexivity. }
    rewrite nth_error_nth_lt with (d := d) in E by (rewrite firstn_length, skipn_length; lia).
    rewrite nth_error_nth_lt with (d := d) in E by lia. congruence.
  - intros (t & H1 & H2 & <-).
    assert (E : nth_error (firstn (2 ^ l) (skipn (k * 2 ^ l) fs)) (t - k * 2 ^ l) = nth_error fs t).
    { rewrite nth_error_firstn by lia. replace t with (k * 2 ^ l + (t - k * 2 ^ l)) at 2 by lia.
      generalize (t - k * 2 ^ l). generalize (k * 2 ^ l). clear. intros a; revert fs; induction a as [|a IH]; intros [|y fs] j; cbn; auto.
      destruct j; reflexivity. }
    rewrite (nth_error_nth_lt fs t d H2) in E.
    eapply nth_error_In; exact E.
Qed.

Lemma good_iff labels fs l k :
  good labels fs l k = true <->
  forall f, In f (block_frames fs l k) ->
     forall p, p < length labels -> (0 < nth p labels 0)%Z -> nth p f None <> None.
Proof.
  unfold good. rewrite forallb_forall. split; intros H f Hf.
  - intros p Hp H0. specialize (H f Hf). rewrite forallb_forall in H.
    specialize (H p ltac:(apply all_positions_In; auto)). destruct (nth p f None); [discriminate|].
    discriminate.
  - apply forallb_forall. intros p Hp. apply all_positions_In in Hp as [Hp H0].
    specialize (H f Hf p Hp H0). destruct (nth p f None); [reflexivity|congruence].
Qed.

Lemma good_pairs_iff labels images l i k :
  In k (good_pairs labels images l i) <->
  (k + i + 1) * 2 ^ l <= length images /\
  (forall f, In f (block_frames images l k) \/ In f (block_frames images l (k + i)) ->
     forall p, p < length labels -> (0 < nth p labels 0)%Z -> nth p f None <> None).
Proof.
  unfold good_pairs. rewrite filter_In, in_seq, andb_true_iff, !good_iff.
  pose proof (pow2_pos l).
  pose proof (Nat.mul_div_le (length images) (2 ^ l) ltac:(lia)).
  pose proof (Nat.mul_succ_div_gt (length images) (2 ^ l) ltac:(lia)).
  set (m := length images / 2 ^ l) in *. split.
  - intros (H2 & H3 & H4). split; [nia|]. intros f [Hf|Hf]; eauto.
  - intros (H2 & H3). split; [nia|]. split; intros f Hf; apply H3; auto.
Qed.

Lemma nth_swap {A} (a b : list A) x x' d t : t <> length a ->
  nth t (a ++ x :: b) d = nth t (a ++ x' :: b) d.
Proof.
  revert t; induction a as [|y a IH]; intros [|t] H; cbn in *; try lia; auto.
Qed.

Lemma block_frames_swap {A} (a b : list A) x x' l k :
  ~ (k * 2 ^ l <= length a < (k + 1) * 2 ^ l) ->
  block_frames (a ++ x :: b) l k = block_frames (a ++ x' :: b) l k.
Proof.
  intros H. unfold block_frames.
  apply nth_error_ext. intros t.
  assert (E : forall (l0 : list A) n j, nth_error (skipn n l0) j = nth_error l0 (n + j)).
  { intros l0 n; revert l0; induction n as [|n IH]; intros [|y l0] j; cbn; auto. destruct j; auto. }
  destruct (Nat.lt_ge_cases t (2 ^ l)) as [Ht|Ht].
  - rewrite !nth_error_firstn, !E by exact Ht.
    destruct (Nat.lt_ge_cases (k * 2 ^ l + t) (length (a ++ x :: b))) as [Hl|Hl].
    + rewrite app_length in Hl; cbn in Hl.
      rewrite !nth_error_nth_lt with (d := x) by (rewrite app_length; cbn; lia).
      f_equal. apply nth_swap. lia.
    + rewrite app_length in Hl; cbn in Hl.
      rewrite !(proj2 (nth_error_None _ _)) by (rewrite app_length; cbn; lia). reflexivity.
  - rewrite !(proj2 (nth_error_None _ _)); auto; rewrite firstn_length; lia.
Qed.

Lemma good_bad_frame labels a b im l k :
  good labels [im] 0 0 = false -> k * 2 ^ l <= length a < (k + 1) * 2 ^ l ->
  good labels (a ++ im :: b) l k = false.
Proof.
  intros Hb Hk. destruct (good labels (a ++ im :: b) l k) eqn:E; auto.
  rewrite <- Hb. symmetry. apply good_iff. rewrite good_iff in E.
  cbn. intros f [<-|[]]. apply E.
  apply In_block_frames with (d := im). exists (length a). split; [exact Hk|].
  split; [rewrite app_length; cbn; lia|]. rewrite app_nth2, Nat.sub_diag by lia. reflexivity.
Qed.

Lemma bad_irrelevant labels a b im im' l i r :
  good labels [im] 0 0 = false -> good labels [im'] 0 0 = false ->
  spec_G labels (a ++ im :: b) l i r = spec_G labels (a ++ im' :: b) l i r /\
  spec_past labels (a ++ im :: b) l i r = spec_past labels (a ++ im' :: b) l i r /\
  spec_fut labels (a ++ im :: b) l i r = spec_fut labels (a ++ im' :: b) l i r.
Proof.
  intros H H'.
  assert (Hdec : forall k, (k * 2 ^ l <= length a < (k + 1) * 2 ^ l)
                         \/ ~ (k * 2 ^ l <= length a < (k + 1) * 2 ^ l)) by (intros; lia).
  assert (Hg : forall k, good labels (a ++ im :: b) l k = good labels (a ++ im' :: b) l k).
  { intros k. destruct (Hdec k) as [Hk|Hk].
    - rewrite !good_bad_frame; auto.
    - unfold good. rewrite (block_frames_swap a b im im') by exact Hk. reflexivity. }
  assert (Hp : good_pairs labels (a ++ im :: b) l i = good_pairs labels (a ++ im' :: b) l i).
  { unfold good_pairs. rewrite !app_length. cbn [length]. apply filter_ext.
    intros k. rewrite !Hg. reflexivity. }
  assert (Hpix : forall k p, good labels (a ++ im :: b) l k = true ->
            block_pix (a ++ im :: b) l k p = block_pix (a ++ im' :: b) l k p).
  { intros k p Hgk. unfold block_pix. rewrite (block_frames_swap a b im im'); [reflexivity|].
    intros Hk. rewrite good_bad_frame in Hgk by auto. discriminate. }
  unfold spec_G, spec_past, spec_fut. rewrite <- Hp.
  repeat split; f_equal; apply map_ext_in; intros k Hk; apply good_pairs_In in Hk as (_ & _ & H3 & H4);
    unfold roi_avg; f_equal; apply map_ext; intros p; rewrite ?Hpix by assumption; reflexivity.
Qed.

Lemma compaction labels :
  let (la, pl) := extract_label_indices labels in
  pl = all_positions labels /\
  la = map (fun p => nth p labels 0%Z) pl /\
  remap la = map (fun p => Z.of_nat (roi_no labels (nth p labels 0%Z))) pl.
Proof.
  rewrite extract_sel. split; [apply map_fst_sel|]. rewrite remap_spec.
  rewrite !map_fst_sel, !sel_positions, !map_map. split; reflexivity.
Qed.

Lemma rank_properties labels :
  (forall x, In x labels -> (0 < x)%Z -> 1 <= roi_no labels x <= n_rois labels) /\
  (forall r, 1 <= r <= n_rois labels -> exists x, In x labels /\ (0 < x)%Z /\ roi_no labels x = r) /\
  (forall x y, In x labels -> In y labels -> (0 < x)%Z -> (0 < y)%Z ->
     ((x < y)%Z <-> roi_no labels x < roi_no labels y) /\
     (x = y <-> roi_no labels x = roi_no labels y)).
Proof.
  split; [apply roi_no_range|]. split; [apply roi_no_onto|].
  intros x y Hx Hy H0 H0'.
  pose proof (roi_no_mono labels x y Hy H0') as M1.
  pose proof (roi_no_mono labels y x Hx H0) as M2.
  destruct (Z.lt_trichotomy x y) as [H|[->|H]]; [specialize (M1 H)|clear M1 M2|specialize (M2 H)]; lia.
Qed.
