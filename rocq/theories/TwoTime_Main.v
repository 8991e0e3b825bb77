From Verif Require Import Common MultiTau_Model MultiTau_Spec MultiTau_Labels MultiTau_Proofs
  MultiTau_Main TwoTime_Model TwoTime_Spec TwoTime_Proofs.
From Coq Require Import ZifyBool ZifyNat.

Lemma psum_eq v : psum v = if forallb is_num v then Some (qsum (map num v)) else None.
Proof.
  induction v as [|[x|] v IH]; cbn; [reflexivity| |reflexivity].
  change (psum (Some x :: v)) with (padd (Some x) (psum v)).
  unfold psum in IH. rewrite IH. destruct (forallb is_num v); reflexivity.
Qed.

Section Cells.
Variable labels : list Z.
Variable images : list (list pix).
Let pos := all_positions labels.
Let P := length pos.
Let fs := map (gpix labels) images.

Lemma bincount_p_roi f r : 
  psum (map snd (filter (fun p => fst p =? r) (combine (clabels labels) (map f pos))))
  = psum (map f (roi_positions labels r)).
Proof.
  unfold clabels. fold pos. rewrite combine_map_same, filter_map_comm. cbn [fst].
  rewrite map_map. cbn [snd]. unfold pos, all_positions, roi_positions.
  rewrite filter_filter. reflexivity.
Qed.

Lemma npix_roi r : length (filter (fun l => l =? r) (clabels labels))
  = length (roi_positions labels r).
Proof.
  unfold clabels. fold pos. rewrite filter_map_comm, map_length.
  unfold pos, all_positions, roi_positions. rewrite filter_filter. reflexivity.
Qed.

Lemma sum_mean l : qsum l = (mean l * qn (length l))%Qc.
Proof.
  rewrite mean_eq. destruct l as [|x l].
  - cbn [qsum length]. change (qn 0) with 0%Qc. ring.
  - assert (qn (length (x :: l)) <> 0%Qc) by (apply qn_neq0; cbn; lia). field. auto.
Qed.

Lemma forallb_is_pmean A ps (F : A -> list (option Qc)) :
  forallb is_num (map (fun p => pmean (F p)) ps) = forallb (fun p => forallb is_num (F p)) ps.
Proof.
  rewrite forallb_map. induction ps as [|p ps IH]; cbn; [reflexivity|].
  rewrite IH. f_equal. unfold pmean. destruct (forallb is_num (F p)); reflexivity.
Qed.

Definition bp l k p : pix := pmean (map (fun f => nth p f None) (block_frames images l k)).

Lemma bp_num l k ps : forallb is_num (map (bp l k) ps)
  = forallb (fun p => forallb (fun f => is_num (nth p f None)) (block_frames images l k)) ps.
Proof.
  unfold bp. rewrite forallb_is_pmean.
  induction ps as [|p ps IH]; cbn; [reflexivity|]. rewrite IH, forallb_map. reflexivity.
Qed.

Lemma bp_val l k ps : forallb is_num (map (bp l k) ps) = true ->
  forall p, In p ps -> bp l k p = Some (block_pix images l k p).
Proof.
  intros H p Hp. rewrite forallb_forall in H.
  specialize (H (bp l k p) (in_map _ _ _ Hp)). unfold bp, pmean in *.
  destruct (forallb is_num _); [|discriminate]. unfold block_pix. rewrite map_map. reflexivity.
Qed.

Lemma norm_cell_spec l k k' r :
  norm_cell (psum (map (fun p => pmul (bp l k p) (bp l k' p)) (roi_positions labels r)))
            (psum (map (bp l k) (roi_positions labels r)))
            (psum (map (bp l k') (roi_positions labels r)))
            (length (roi_positions labels r))
  = spec_tt labels images l k k' r.
Proof.
  unfold spec_tt, roi_numeric, roi_avg. set (ps := roi_positions labels r).
  rewrite <- !bp_num.
  rewrite (psum_eq (map (bp l k) ps)), (psum_eq (map (bp l k') ps)).
  destruct (forallb is_num (map (bp l k) ps)) eqn:E1;
    [|unfold norm_cell, pmul, pdiv; cbn; destruct (psum _); cbn; reflexivity].
  destruct (forallb is_num (map (bp l k') ps)) eqn:E2;
    [|unfold norm_cell, pmul, pdiv; cbn; destruct (psum _); cbn; reflexivity].
  cbn [andb].
  rewrite (map_ext_in (fun p => pmul (bp l k p) (bp l k' p))
             (fun p => Some (block_pix images l k p * block_pix images l k' p)%Qc)).
  2:{ intros p Hp. rewrite (bp_val _ _ _ E1 _ Hp), (bp_val _ _ _ E2 _ Hp). reflexivity. }
  rewrite psum_eq. rewrite forallb_map. cbn [is_num].
  replace (forallb (fun _ : nat => true) ps) with true
    by (symmetry; apply forallb_forall; auto).
  rewrite !map_map. cbn [num].
  rewrite (map_ext_in (fun x => num (bp l k x)) (block_pix images l k)).
  2:{ intros p Hp. rewrite (bp_val _ _ _ E1 _ Hp). reflexivity. }
  rewrite (map_ext_in (fun x => num (bp l k' x)) (block_pix images l k')).
  2:{ intros p Hp. rewrite (bp_val _ _ _ E2 _ Hp). reflexivity. }
  unfold norm_cell, pmul, pdiv. rewrite !sum_mean, !map_length.
  set (N := length ps). 
  set (a := mean (map (block_pix images l k) ps)).
  set (b := mean (map (block_pix images l k') ps)).
  set (ab := mean _).
  destruct (Nat.eq_dec N 0) as [HN|HN].
  - assert (Hps : ps = []) by (destruct ps; [reflexivity|cbn in HN; discriminate]).
    assert (Ha : a = 0%Qc) by (unfold a; rewrite Hps; reflexivity).
    rewrite Ha, HN. change (qn 0) with 0%Qc.
    replace (0 * 0 * (b * 0))%Qc with 0%Qc by ring. replace (0 * b)%Qc with 0%Qc by ring.
    reflexivity.
  - assert (HqN : qn N <> 0%Qc) by (apply qn_neq0; lia).
    destruct (Qc_eqb_spec (a * b)%Qc 0%Qc) as [E|E].
    + replace (a * qn N * (b * qn N))%Qc with (a * b * (qn N * qn N))%Qc by ring.
      rewrite E. replace (0 * (qn N * qn N))%Qc with 0%Qc by ring. reflexivity.
    + destruct (Qc_eqb_spec (a * qn N * (b * qn N))%Qc 0%Qc) as [E'|E'].
      * exfalso. apply E.
        replace (a * qn N * (b * qn N))%Qc with (a * b * (qn N * qn N))%Qc in E' by ring.
        apply Qcmult_integral in E' as [E'|E']; [exact E'|].
        apply Qcmult_integral in E' as [E'|E']; contradiction.
      * f_equal. assert (a <> 0%Qc) by (intros Hz; apply E; rewrite Hz; ring).
        assert (b <> 0%Qc) by (intros Hz; apply E; rewrite Hz; ring).
        field. auto.
Qed.

Lemma V_spec l k i : i <= k -> (k + 1) * 2 ^ l <= length images ->
  V (clabels labels) (mkblk fs P) l k i
  = map (fun r => spec_tt labels images l (k - i) k r) (seq 1 (n_rois labels)).
Proof.
  intros Hi Hk. unfold V.
  assert (Hk2 : (k - i + 1) * 2 ^ l <= length images) by nia.
  unfold fs, P, pos. rewrite (blk_pmean labels images l k Hk), (blk_pmean labels images l (k - i) Hk2).
  fold pos. unfold cell_values, bincount_p, bincount_n. rewrite max_clabels.
  rewrite !combine_map_same, map_map. apply map_ext. intros r. cbn [fst snd].
  unfold vmap2. rewrite combine_map_same, map_map. cbn [fst snd].
  rewrite !bincount_p_roi, npix_roi. apply norm_cell_spec.
Qed.
End Cells.

Lemma lazy2_run c : forall images s,
  (forall im, In im images -> forall p, In p (pixel_list c) -> p < length im) ->
  lazy_two_time c s images
  = foldM (step2 c) (map (fun im => map (fun p => nth p im None) (pixel_list c)) images) s.
Proof.
  induction images as [|im images IH]; intros s Hin; cbn [map foldM lazy_two_time]; [reflexivity|].
  rewrite gather_ok by (apply Hin; left; auto). cbn [bind].
  destruct (step2 c s _) as [s1|]; cbn [bind]; [|reflexivity].
  apply IH. intros; eapply Hin; eauto. right; auto.
Qed.

Lemma clabels_nil labels : clabels labels = [] -> n_rois labels = 0.
Proof.
  intros H. rewrite <- max_clabels, H. reflexivity.
Qed.

Lemma symm_entry K n g q a b : q < K -> a < n -> b < n ->
  entry (symmetrise K n g) q a b
  = Some (padd (padd (tril g q a b) (tril g q b a)) (popp (diagm g q a b))).
Proof.
  intros Hq Ha Hb. unfold entry, symmetrise.
  rewrite nth_error_map_seq by exact Ha. cbn [bind].
  rewrite nth_error_map_seq by exact Hb. cbn [bind].
  rewrite nth_error_map_seq by exact Hq. rewrite ?Nat.add_0_l. reflexivity.
Qed.

Lemma symm_low g q a b : b <= a ->
  padd (padd (tril g q a b) (tril g q b a)) (popp (diagm g q a b)) = mget g q a b.
Proof.
  intros H. unfold tril, diagm. replace (b <=? a) with true by lia.
  destruct (Nat.eqb_spec a b) as [->|Hne].
  - rewrite Nat.leb_refl. destruct (mget g q b b) as [x|]; cbn; [|reflexivity].
    f_equal. ring.
  - replace (a <=? b) with false by lia. destruct (mget g q a b) as [x|]; cbn; [|reflexivity].
    f_equal. ring.
Qed.
Lemma symm_comm g q a b :
  padd (padd (tril g q a b) (tril g q b a)) (popp (diagm g q a b))
  = padd (padd (tril g q b a) (tril g q a b)) (popp (diagm g q b a)).
Proof.
  assert (E : diagm g q a b = diagm g q b a).
  { unfold diagm. rewrite (Nat.eqb_sym b a). destruct (Nat.eqb_spec a b) as [->|]; reflexivity. }
  rewrite E. f_equal.
  destruct (tril g q a b), (tril g q b a); cbn; try reflexivity. f_equal. ring.
Qed.

Lemma nonempty_match {A B} (l : list A) (x : option B) : l <> [] ->
  match l with [] => None | _ :: _ => x end = x.
Proof. destruct l; [congruence|reflexivity]. Qed.

(** Everything known about two_time_corr. *)
Definition tt_ok (nb L nf : nat) (labels : list Z) (images : list (list pix)) (g : mat) : Prop :=
  length g = nf /\ (forall row, In row g -> length row = nf) /\
  (forall row v, In row g -> In v row -> length v = n_rois labels) /\
  (forall q a b, q < n_rois labels -> a < nf -> b < nf -> entry g q a b = entry g q b a) /\
  (forall q a b l k i, q < n_rois labels -> on_lag nb L (length images) a b l k i ->
     entry g q a b = Some (spec_tt labels images l (k - i) k (q + 1))) /\
  (forall q a b, q < n_rois labels -> b <= a < nf ->
     (forall l k i, ~ on_lag nb L (length images) a b l k i) ->
     entry g q a b = Some (Some 0%Qc)).

Section Main.
Variable nb L nf : nat.
Variable labels : list Z.
Variable images : list (list pix).
Hypothesis He : nb mod 2 = 0.
Hypothesis Hb : 2 <= nb.
Hypothesis HL : 1 <= L.
Hypothesis Him : forall im, In im images -> length im = length labels.

Lemma cfg2 : init_cfg nb L labels
  = Some (mkcfg (nb / 2) L (clabels labels) (all_positions labels) (lags2 (nb / 2) L)).
Proof.
  destruct (init_cfg_eq nb L labels He) as [lags Hc].
  pose proof (lag_steps_init nb L labels _ He Hc) as E. cbn [mkcfg lag_steps] in E.
  rewrite Hc. f_equal. f_equal. rewrite E. unfold lags2. 
  rewrite <- (even_half nb He). reflexivity.
Qed.

Let h := nb / 2.
Let c := mkcfg h L (clabels labels) (all_positions labels) (lags2 h L).
Let fs := map (gpix labels) images.
Let P := length (all_positions labels).

Lemma Hlen2 l k : length (mkblk fs P l k) = length (clabels labels).
Proof.
  replace (length (clabels labels)) with P by (unfold clabels; rewrite map_length; reflexivity).
  apply mkblk_len. apply fs_len.
Qed.

Lemma h1 : 1 <= h.
Proof. unfold h. pose proof (even_half nb He). lia. Qed.

Lemma lazy2_eq : lazy_two_time c (init_state2 c nf) images
  = foldM (step2 c) (map (mkblk fs P 0) (seq 0 (length images))) (init_state2 c nf).
Proof.
  rewrite lazy2_run.
  - f_equal. replace (length images) with (length fs) by apply map_length.
    rewrite blk0_frames. reflexivity.
  - intros im Hm p Hp. rewrite (Him im Hm).
    change (pixel_list c) with (all_positions labels) in Hp. apply all_positions_In in Hp. tauto.
Qed.

Lemma tt_main : length images <= nf -> images <> [] -> 1 <= n_rois labels ->
  exists g, two_time_corr labels images nf nb L = Some g /\ tt_ok nb L nf labels images g.
Proof.
  intros Hn Hne HK. unfold two_time_corr. rewrite cfg2. cbn [bind]. fold h. fold c.
  pose proof (init2_ok h L nf (clabels labels) (all_positions labels) h1 HL (mkblk fs P) Hlen2
               (fun l k => eq_refl)) as HI0. fold c in HI0.
  destruct (run2_ok h L nf (clabels labels) (all_positions labels) h1 HL (mkblk fs P) Hlen2
               (fun l k => eq_refl) (length images) 0 _ HI0 ltac:(lia)) as (s & E & HI).
  fold c in E. rewrite <- lazy2_eq in E. rewrite E. cbn [bind].
  cbn [Nat.add] in HI. destruct HI as (_ & (Hsq & HA & HB) & _).
  rewrite nonempty_match by exact Hne.
  change (label_array c) with (clabels labels). rewrite max_clabels.
  rewrite nonempty_match.
  2:{ intros Ecl. rewrite (clabels_nil labels Ecl) in HK. lia. }
  set (K := n_rois labels) in *. exists (symmetrise K nf (g2 s)). split; [reflexivity|].
  assert (Hnb : 2 * h = nb) by (unfold h; pose proof (even_half nb He); lia).
  rewrite Hnb in HA, HB.
  split; [unfold symmetrise; rewrite map_length, seq_length; reflexivity|].
  split.
  { intros row Hrow. apply in_map_iff in Hrow as (a & <- & _).
    rewrite map_length, seq_length; reflexivity. }
  split.
  { intros row v Hrow Hv. apply in_map_iff in Hrow as (a & <- & _).
    apply in_map_iff in Hv as (b & <- & _). rewrite map_length, seq_length; reflexivity. }
  split.
  { intros q a b Hq Ha Hbb. rewrite !symm_entry by auto. f_equal. apply symm_comm. }
  split.
  - intros q a b l k i Hq (Hlag & Hik & Hk & sh & Hs & -> & ->).
    pose proof (pow2_pos l).
    rewrite symm_entry by (auto; nia). f_equal. rewrite symm_low by nia.
    assert (Hkc : k < cnt l (length images)).
    { unfold cnt. apply Nat.div_le_lower_bound; nia. }
    specialize (HA l i k sh Hlag Hkc Hik Hs).
    unfold cell in HA. unfold mget.
    destruct (nth_error (g2 s) (k * 2 ^ l + sh)) as [row|]; cbn [bind] in HA; [|discriminate].
    rewrite HA. unfold fs, P. rewrite V_spec by lia. fold K.
    rewrite nth_error_map, nth_error_seq by exact Hq. cbn [option_map]. f_equal. lia.
  - intros q a b Hq [Hba Ha] Hno. rewrite symm_entry by (auto; lia). f_equal.
    rewrite symm_low by lia.
    assert (HZ : cell (g2 s) a b = Some (repeat (Some 0%Qc) (max_label (clabels labels)))).
    { apply HB; try lia. intros l i k sh Hlag Hkc Hik Hs Ea Eb.
      apply (Hno l k i). split; [exact Hlag|]. split; [exact Hik|]. split; [|exists sh; auto].
      pose proof (cnt_mul l (length images)). unfold cnt in *. nia. }
    unfold cell in HZ. unfold mget.
    destruct (nth_error (g2 s) a) as [row|]; cbn [bind] in HZ; [|discriminate].
    rewrite HZ, nth_error_repeat by (rewrite max_clabels; exact Hq). reflexivity.
Qed.

Lemma tt_overflow : nf < length images -> two_time_corr labels images nf nb L = None.
Proof.
  intros Hn. unfold two_time_corr. rewrite cfg2. cbn [bind]. fold h. fold c.
  pose proof (init2_ok h L nf (clabels labels) (all_positions labels) h1 HL (mkblk fs P) Hlen2
               (fun l k => eq_refl)) as HI0. fold c in HI0.
  pose proof (run2_overflow h L nf (clabels labels) (all_positions labels) h1 HL (mkblk fs P) Hlen2
               (fun l k => eq_refl) (length images) 0 _ HI0 ltac:(lia) ltac:(lia)) as E.
  fold c in E. rewrite <- lazy2_eq in E. rewrite E. cbn [bind].
  destruct images; reflexivity.
Qed.
End Main.

(** Near the diagonal the entries are the frame-by-frame correlation. *)
Lemma tt_level0 nb L nf labels images g q a b :
  1 <= L -> length images <= nf -> tt_ok nb L nf labels images g ->
  q < n_rois labels -> a < length images -> b < length images ->
  a < b + nb -> b < a + nb ->
  entry g q a b = Some (spec_tt labels images 0 (Nat.min a b) (Nat.max a b) (q + 1)).
Proof.
  intros HL Hn (_ & _ & _ & Hsym & Hlag & _) Hq Ha Hb H1 H2.
  assert (Hlow : forall a b, a < length images -> b <= a -> a < b + nb ->
    entry g q a b = Some (spec_tt labels images 0 b a (q + 1))).
  { clear - HL Hq Hlag. intros a b Ha Hba H1.
    rewrite (Hlag q a b 0 a (a - b) Hq).
    - f_equal. f_equal. lia.
    - split; [split; [lia|split; [lia|auto]]|]. split; [lia|]. cbn [Nat.pow]. split; [lia|].
      exists 0. lia. }
  destruct (Nat.le_gt_cases b a) as [Hle|Hgt].
  - rewrite Nat.min_r, Nat.max_l by lia. apply Hlow; auto.
  - rewrite Nat.min_l, Nat.max_r by lia. rewrite Hsym by lia. apply Hlow; auto; lia.
Qed.

Lemma tt_empty labels nf nb L : two_time_corr labels [] nf nb L = None.
Proof. unfold two_time_corr. destruct (init_cfg nb L labels); reflexivity. Qed.

Lemma numbers_eq l :
  concat (map (fun p : pix => match p with Some x => [x] | None => [] end) l) = numbers l.
Proof. induction l as [|[x|] l IH]; cbn; congruence. Qed.

Lemma nanmean_spec l : nanmean l = match numbers l with [] => None | xs => Some (mean xs) end.
Proof.
  unfold nanmean. rewrite numbers_eq. destruct (numbers l); reflexivity.
Qed.

Lemma one_time_ok (stack : list (list (list pix))) :
  length (one_time_from_two_time stack) = length stack /\
  forall q m, nth_error stack q = Some m ->
    (forall row, In row m -> length row = length m) ->
    exists out, nth_error (one_time_from_two_time stack) q = Some out /\
      length out = length m /\
      forall j, j < length m ->
        exists d, length d = length m - j /\
          (forall a, a < length m - j -> exists row, nth_error m a = Some row /\
              nth_error row (a + j) = nth_error d a) /\
          nth_error out j = Some (match numbers d with [] => None | xs => Some (mean xs) end).
Proof.
  split; [apply map_length|].
  intros q m Hm Hsq. exists (map (fun j => nanmean (diag m j)) (seq 0 (length m))).
  split.
  { unfold one_time_from_two_time. rewrite nth_error_map, Hm. reflexivity. }
  split; [rewrite map_length, seq_length; reflexivity|].
  intros j Hj. exists (diag m j). split; [unfold diag; rewrite map_length, seq_length; reflexivity|].
  split.
  - intros a Ha. destruct (nth_error m a) as [row|] eqn:Er.
    2:{ apply nth_error_None in Er; lia. }
    exists row. split; [reflexivity|]. unfold diag. rewrite nth_error_map_seq by exact Ha.
    rewrite ?Nat.add_0_l, Er.
    destruct (nth_error row (a + j)) as [x|] eqn:Ex; [reflexivity|].
    apply nth_error_None in Ex. rewrite (Hsq row) in Ex by (eapply nth_error_In; eauto). lia.
  - rewrite nth_error_map_seq by exact Hj. rewrite ?Nat.add_0_l, nanmean_spec. reflexivity.
Qed.

(** Composition: one-time values computed from a two-time result. *)
Definition one_time_of (nb L nf : nat) labels images : option (list (list pix)) :=
  g <- two_time_corr labels images nf nb L ;;
  Some (one_time_from_two_time (to_stack (n_rois labels) g)).

Lemma numbers_zeros n : numbers (repeat (Some 0%Qc) n) = repeat 0%Qc n.
Proof. induction n as [|n IH]; cbn; [reflexivity|rewrite IH; reflexivity]. Qed.
Lemma mean_zeros n : mean (repeat 0%Qc n) = 0%Qc.
Proof.
  rewrite mean_eq. replace (qsum (repeat 0%Qc n)) with 0%Qc.
  - unfold Qcdiv. ring.
  - induction n as [|n IH]; cbn; [reflexivity|]. rewrite <- IH. reflexivity.
Qed.

Lemma map_const_repeat {A} (x : A) n a : map (fun _ : nat => x) (seq a n) = repeat x n.
Proof. revert a; induction n as [|n IH]; intros a; cbn; [reflexivity|rewrite IH; reflexivity]. Qed.

Lemma diag_stack nb L nf labels images g q j :
  tt_ok nb L nf labels images g -> q < n_rois labels -> j < nf ->
  diag (map (map (fun v => nth q v None)) g) j
  = map (fun a => match entry g q a (a + j) with Some x => x | None => None end) (seq 0 (nf - j)).
Proof.
  intros (Hl & Hr & Hv & _) Hq Hj. unfold diag. rewrite map_length, Hl.
  apply map_ext_in. intros a Ha. apply in_seq in Ha. unfold entry.
  rewrite nth_error_map. destruct (nth_error g a) as [row|] eqn:Er; cbn [option_map bind].
  2:{ reflexivity. }
  rewrite nth_error_map. destruct (nth_error row (a + j)) as [v|] eqn:Ev; cbn [option_map bind].
  2:{ reflexivity. }
  rewrite (nth_error_nth_lt v q None); [reflexivity|].
  rewrite (Hv row v); [exact Hq|eapply nth_error_In; eauto|eapply nth_error_In; eauto].
Qed.

(** With one level and as many images as declared frames: lags below the
    number of buffers are the mean over all pairs, the others are all zero. *)
Lemma one_time_level1 nb labels images :
  nb mod 2 = 0 -> 2 <= nb -> images <> [] -> 1 <= n_rois labels ->
  (forall im, In im images -> length im = length labels) ->
  exists out, one_time_of nb 1 (length images) labels images = Some out /\
    length out = n_rois labels /\
    forall q, q < n_rois labels -> exists row, nth_error out q = Some row /\
      length row = length images /\
      (forall j, j < nb -> j < length images ->
         nth_error row j = Some
           (match numbers (map (fun a => spec_tt labels images 0 a (a + j) (q + 1))
                               (seq 0 (length images - j)))
            with [] => None | xs => Some (mean xs) end)) /\
      (forall j, nb <= j < length images -> nth_error row j = Some (Some 0%Qc)).
Proof.
  intros He Hb Hne HK Him. unfold one_time_of.
  destruct (tt_main nb 1 (length images) labels images He Hb (le_n 1) Him (le_n _) Hne HK)
    as (g & E & Hok). rewrite E. cbn [bind].
  eexists; split; [reflexivity|].
  split; [unfold one_time_from_two_time, to_stack; rewrite !map_length, seq_length; reflexivity|].
  intros q Hq. unfold one_time_from_two_time, to_stack. rewrite map_map.
  rewrite nth_error_map_seq by exact Hq. eexists; split; [reflexivity|].
  destruct Hok as (Hl & Hrest).
  assert (Hm : length (map (map (fun v : list pix => nth q v None)) g) = length images)
    by (rewrite map_length; exact Hl).
  rewrite Hm.
  split; [rewrite map_length, seq_length; reflexivity|].
  assert (Hok : tt_ok nb 1 (length images) labels images g) by (split; assumption).
  split.
  - intros j Hj1 Hj2. rewrite nth_error_map_seq by exact Hj2. f_equal.
    rewrite (diag_stack _ _ _ _ _ _ _ _ Hok Hq Hj2), nanmean_spec.
    rewrite (map_ext_in _ (fun a => spec_tt labels images 0 a (a + j) (q + 1))); [reflexivity|].
    intros a Ha. apply in_seq in Ha.
    rewrite (tt_level0 nb 1 (length images) labels images g q a (a + j)) by (auto; lia).
    rewrite Nat.min_l, Nat.max_r by lia. reflexivity.
  - intros j [Hj1 Hj2]. rewrite nth_error_map_seq by exact Hj2. f_equal.
    rewrite (diag_stack _ _ _ _ _ _ _ _ Hok Hq Hj2), nanmean_spec.
    rewrite (map_ext_in _ (fun _ => Some 0%Qc)).
    + rewrite map_const_repeat, numbers_zeros.
      destruct (length images - j) as [|n] eqn:En; [lia|].
      pose proof (mean_zeros (S n)) as Hz. cbn [repeat] in *. rewrite Hz. reflexivity.
    + intros a Ha. apply in_seq in Ha.
      destruct Hok as (_ & _ & _ & Hsym & _ & Hz).
      rewrite Hsym by (auto; lia). rewrite Hz; [reflexivity|auto|lia|].
      intros l k i ((Hl0 & Hi & _) & Hik & Hk & s & Hs & Ea & Eb).
      assert (l = 0) by lia. subst l. cbn [Nat.pow] in *. lia.
Qed.

Lemma tt_near nb L nf labels images :
  nb mod 2 = 0 -> 2 <= nb -> 1 <= L ->
  (forall im, In im images -> length im = length labels) ->
  length images <= nf -> images <> [] -> 1 <= n_rois labels ->
  exists g, two_time_corr labels images nf nb L = Some g /\
    forall q a b, q < n_rois labels -> a < length images -> b < length images ->
      a < b + nb -> b < a + nb ->
      entry g q a b = Some (spec_tt labels images 0 (Nat.min a b) (Nat.max a b) (q + 1)).
Proof.
  intros He Hb HL Him Hn Hne HK.
  destruct (tt_main nb L nf labels images He Hb HL Him Hn Hne HK) as (g & E & Hok).
  exists g. split; [exact E|]. intros q a b Hq Ha Hb0 H1 H2.
  exact (tt_level0 nb L nf labels images g q a b HL Hn Hok Hq Ha Hb0 H1 H2).
Qed.

Lemma one_time_diluted : exists nb L labels images,
  nb mod 2 = 0 /\ 2 <= nb /\ 1 <= L /\
  (forall im, In im images -> length im = length labels) /\
  (forall a b, a < length images -> b < length images ->
     option_map this (spec_tt labels images 0 a b 1) = Some 1%Q) /\
  is_lag nb L 1 1 /\
  option_map (map (map (option_map this))) (one_time_of nb L (length images) labels images)
  = Some [[Some 1; Some 1; Some (2 # 3); Some 0; Some 0]]%Q.
Proof.
  exists 2, 2, [1%Z], (repeat [Some 1%Qc] 5).
  split; [reflexivity|]. split; [lia|]. split; [lia|]. split.
  { intros im H. apply repeat_spec in H. subst im. reflexivity. }
  split.
  { intros a b Ha Hb. cbn [repeat length] in Ha, Hb.
    do 5 (destruct a as [|a]; [do 5 (destruct b as [|b]; [vm_compute; reflexivity|]); lia|]). lia. }
  split; [unfold is_lag; cbn; lia|]. vm_compute. reflexivity.
Qed.
