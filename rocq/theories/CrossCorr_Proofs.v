From Verif Require Import Common Sums CrossCorr_Model CrossCorr_Spec.
From Coq Require Import ZifyBool ZifyNat Sorting.Sorted.

(** ** Tables *)
Lemma tab_at h w f i j : i < h -> j < w -> at2 (tab h w f) i j = f i j.
Proof.
  intros Hi Hj. unfold at2, tab.
  rewrite (nth_indep _ [] (map (f 0) (seq 0 w))) by (rewrite map_length, seq_length; lia).
  rewrite (map_nth (fun i => map (f i) (seq 0 w))).
  rewrite seq_nth by lia.
  rewrite (nth_indep _ 0%Qc (f (0 + i) 0)) by (rewrite map_length, seq_length; lia).
  rewrite (map_nth (f (0 + i))), seq_nth by lia. reflexivity.
Qed.
Lemma tab_shape h w f : 1 <= h -> shape (tab h w f) = (h, w).
Proof.
  intros H. unfold shape, tab. rewrite map_length, seq_length.
  destruct h; [lia|]. cbn [seq map]. rewrite map_length, seq_length. reflexivity.
Qed.
Lemma tab_len h w f : length (tab h w f) = h.
Proof. unfold tab. rewrite map_length, seq_length. reflexivity. Qed.
Lemma tab_rows h w f r : In r (tab h w f) -> length r = w.
Proof. intros H. apply in_map_iff in H as (i & <- & _). rewrite map_length, seq_length; reflexivity. Qed.

Definition wf2 (h w : nat) (m : list (list Qc)) : Prop :=
  length m = h /\ forall r, In r m -> length r = w.
Lemma tab_wf h w f : wf2 h w (tab h w f).
Proof. split; [apply tab_len|apply tab_rows]. Qed.

Lemma wf2_row h w m i : wf2 h w m -> i < h -> length (nth i m []) = w.
Proof. intros [Hl Hr] Hi. apply Hr, nth_In. lia. Qed.

Lemma wf2_shape h w m : wf2 h w m -> 1 <= h -> shape m = (h, w).
Proof.
  intros [Hl Hr] Hh. unfold shape. rewrite Hl. destruct m as [|r m]; [cbn in Hl; lia|].
  rewrite (Hr r) by (left; auto). reflexivity.
Qed.

Lemma zpix_in m i j : zpix m (Z.of_nat i, Z.of_nat j) = at2 m i j.
Proof.
  unfold zpix, at2. replace ((0 <=? Z.of_nat i)%Z && (0 <=? Z.of_nat j)%Z) with true by lia.
  rewrite !Nat2Z.id. reflexivity.
Qed.
Lemma zpix_out h w m i j : wf2 h w m ->
  (i < 0 \/ Z.of_nat h <= i \/ j < 0 \/ Z.of_nat w <= j)%Z -> zpix m (i, j) = 0%Qc.
Proof.
  intros Hwf Ho. unfold zpix.
  destruct ((0 <=? i)%Z && (0 <=? j)%Z) eqn:E; [|reflexivity].
  destruct (Z.lt_ge_cases i (Z.of_nat h)) as [Hi|Hi].
  - apply nth_overflow. rewrite (wf2_row h w) by (auto; lia). lia.
  - rewrite (nth_overflow m) by (destruct Hwf; lia). destruct (Z.to_nat j); reflexivity.
Qed.

(** ** Convolution with the reversed image *)
Lemma rev2_at h w b i j : wf2 h w b -> i < h -> j < w ->
  at2 (rev2 b) i j = at2 b (h - 1 - i) (w - 1 - j).
Proof.
  intros Hwf Hi Hj. pose proof Hwf as [Hl Hr]. unfold at2, rev2.
  rewrite (nth_indep _ [] (rev [])) by (rewrite map_length, rev_length; lia).
  rewrite (map_nth (@rev Qc)). rewrite (rev_nth b) by lia.
  rewrite Hl. replace (h - S i) with (h - 1 - i) by lia.
  assert (Hw : length (nth (h - 1 - i) b []) = w) by (apply Hr, nth_In; lia).
  rewrite rev_nth by lia. rewrite Hw. f_equal. lia.
Qed.

Lemma conv_lag h w a b t s : wf2 h w b -> 1 <= h -> 1 <= w -> t < 2 * h - 1 -> s < 2 * w - 1 ->
  at2 (conv_full h w a (rev2 b)) t s
  = sumn h (fun i => sumn w (fun j =>
      (at2 a i j * zpix b (Z.of_nat i - (Z.of_nat t - (Z.of_nat h - 1)),
                           Z.of_nat j - (Z.of_nat s - (Z.of_nat w - 1)))%Z)%Qc)).
Proof.
  intros Hwf Hh Hw Ht Hs. unfold conv_full. rewrite tab_at by assumption.
  rewrite qsum_prod. apply sumn_ext. intros i Hi. apply sumn_ext. intros j Hj.
  destruct ((i <=? t) && (t - i <? h) && (j <=? s) && (s - j <? w)) eqn:E.
  - rewrite (rev2_at h w) by (auto; lia).
    replace (Z.of_nat i - (Z.of_nat t - (Z.of_nat h - 1)))%Z with (Z.of_nat (h - 1 - (t - i))) by lia.
    replace (Z.of_nat j - (Z.of_nat s - (Z.of_nat w - 1)))%Z with (Z.of_nat (w - 1 - (s - j))) by lia.
    rewrite zpix_in. reflexivity.
  - rewrite (zpix_out h w) by (auto; lia). ring.
Qed.

Lemma cross_corr_some h w a b : wf2 h w a -> wf2 h w b -> 1 <= h ->
  cross_corr a b = Some (conv_full h w a (rev2 b)).
Proof.
  intros Ha Hb Hh. unfold cross_corr.
  rewrite (wf2_shape h w a Ha Hh), (wf2_shape h w b Hb Hh), !Nat.eqb_refl. reflexivity.
Qed.

(** ** Minima and maxima *)
Lemma fold_min_le r : forall x, fold_left Nat.min r x <= x /\ forall y, In y r -> fold_left Nat.min r x <= y.
Proof.
  induction r as [|a r IH]; intros x; cbn [fold_left].
  - split; [lia|intros y []].
  - destruct (IH (Nat.min x a)) as [H1 H2]. split; [lia|].
    intros y [<-|Hy]; [lia|auto].
Qed.
Lemma fold_min_In r : forall x, In (fold_left Nat.min r x) (x :: r).
Proof.
  induction r as [|a r IH]; intros x; cbn [fold_left]; [left; auto|].
  destruct (IH (Nat.min x a)) as [E|H].
  - rewrite <- E. destruct (Nat.min_dec x a) as [->| ->]; [left; auto|right; left; auto].
  - right; right; exact H.
Qed.
Lemma fold_max_ge r : forall x, x <= fold_left Nat.max r x /\ forall y, In y r -> y <= fold_left Nat.max r x.
Proof.
  induction r as [|a r IH]; intros x; cbn [fold_left].
  - split; [lia|intros y []].
  - destruct (IH (Nat.max x a)) as [H1 H2]. split; [lia|].
    intros y [<-|Hy]; [lia|auto].
Qed.
Lemma fold_max_In r : forall x, In (fold_left Nat.max r x) (x :: r).
Proof.
  induction r as [|a r IH]; intros x; cbn [fold_left]; [left; auto|].
  destruct (IH (Nat.max x a)) as [E|H].
  - rewrite <- E. destruct (Nat.max_dec x a) as [->| ->]; [left; auto|right; left; auto].
  - right; right; exact H.
Qed.
Lemma lmin_le l y : In y l -> lmin l <= y.
Proof. destruct l as [|x r]; [intros []|]. cbn. destruct (fold_min_le r x) as [A B]. intros [<-|H]; auto. Qed.
Lemma lmin_In l : l <> [] -> In (lmin l) l.
Proof. destruct l as [|x r]; [congruence|]. intros _. apply fold_min_In. Qed.
Lemma lmax_ge l y : In y l -> y <= lmax l.
Proof. unfold lmax. apply fold_max_ge. Qed.
Lemma lmax_In l : l <> [] -> In (lmax l) l.
Proof.
  intros Hne. unfold lmax. destruct (fold_max_In l 0) as [E|H]; [|exact H].
  destruct l as [|x r]; [congruence|]. rewrite <- E.
  assert (x <= fold_left Nat.max (x :: r) 0) by (apply fold_max_ge; left; auto).
  left. lia.
Qed.

(** ** Regions *)
Section Region.
Variable mask : list (list nat).
Variable hh ww id : nat.
Let ps := region mask hh ww id.
Hypothesis Hne : ps <> [].

Definition r0 := lmin (map fst ps).
Definition r1 := lmax (map fst ps).
Definition c0 := lmin (map snd ps).
Definition c1 := lmax (map snd ps).
Definition bh := 1 + (r1 - r0).
Definition bw := 1 + (c1 - c0).

Lemma ps_In i j : In (i, j) ps <-> i < hh /\ j < ww /\ mat_at mask i j = id.
Proof.
  unfold ps, region. rewrite filter_In, in_prod_iff, !in_seq. cbn [fst snd].
  rewrite Nat.eqb_eq. lia.
Qed.

Lemma map_ne {A B} (f : A -> B) l : l <> [] -> map f l <> [].
Proof. destruct l; [congruence|discriminate]. Qed.

Lemma box_facts : r0 <= r1 < hh /\ c0 <= c1 < ww.
Proof.
  assert (H1 : In r1 (map fst ps)) by (apply lmax_In, map_ne, Hne).
  assert (H2 : In c1 (map snd ps)) by (apply lmax_In, map_ne, Hne).
  pose proof (lmin_le _ _ H1). pose proof (lmin_le _ _ H2).
  apply in_map_iff in H1 as ([i j] & E1 & Hp). apply in_map_iff in H2 as ([i' j'] & E2 & Hp').
  cbn in E1, E2. apply ps_In in Hp, Hp'. unfold r0, c0. lia.
Qed.

Lemma box_In i j : In (i, j) ps -> r0 <= i <= r1 /\ c0 <= j <= c1.
Proof.
  intros H. pose proof (in_map fst _ _ H) as Hf. pose proof (in_map snd _ _ H) as Hs.
  cbn in Hf, Hs. unfold r0, r1, c0, c1.
  pose proof (lmin_le _ _ Hf). pose proof (lmax_ge _ _ Hf).
  pose proof (lmin_le _ _ Hs). pose proof (lmax_ge _ _ Hs). lia.
Qed.

Lemma in_region_iff i j : in_region mask hh ww id (i, j) = true <->
  (0 <= i)%Z /\ (0 <= j)%Z /\ In (Z.to_nat i, Z.to_nat j) ps.
Proof.
  rewrite ps_In. unfold in_region, mat_at. rewrite !andb_true_iff, Nat.eqb_eq. lia.
Qed.

Definition masked (f : Z * Z -> Qc) (p : Z * Z) : Qc :=
  if in_region mask hh ww id p then f p else 0%Qc.

Definition bb := bbox ps.
Lemma bb_eq : bb = (r0, r1, c0, c1). Proof. reflexivity. Qed.

Lemma sub_wf img : wf2 bh bw (sub_image mask id bb img).
Proof. rewrite bb_eq. apply tab_wf. Qed.

Lemma zpix_sub img i j :
  zpix (sub_image mask id bb img) (i, j)
  = masked (zpix img) (i + Z.of_nat r0, j + Z.of_nat c0)%Z.
Proof.
  pose proof box_facts as Hbox.
  destruct ((0 <=? i)%Z && (i <? Z.of_nat bh)%Z && (0 <=? j)%Z && (j <? Z.of_nat bw)%Z) eqn:E.
  - replace i with (Z.of_nat (Z.to_nat i)) by lia. replace j with (Z.of_nat (Z.to_nat j)) by lia.
    set (a := Z.to_nat i) in *. set (b := Z.to_nat j) in *.
    rewrite zpix_in. rewrite bb_eq. unfold sub_image. fold bh bw.
    rewrite tab_at by (subst a b; lia).
    rewrite <- !Nat2Z.inj_add. unfold masked.
    rewrite zpix_in.
    assert (Eb : in_region mask hh ww id (Z.of_nat (a + r0), Z.of_nat (b + c0))
                 = (mat_at mask (a + r0) (b + c0) =? id)).
    { apply eq_true_iff_eq. rewrite in_region_iff, !Nat2Z.id, ps_In, Nat.eqb_eq.
      unfold bh, bw in E. subst a b. lia. }
    rewrite Eb. reflexivity.
  - rewrite (zpix_out bh bw) by (try apply sub_wf; lia).
    unfold masked. destruct (in_region mask hh ww id _) eqn:Er; [|reflexivity].
    apply in_region_iff in Er as (H1 & H2 & H3). apply box_In in H3.
    unfold bh, bw in E. lia.
Qed.

(** Sum over the overlap as a sum over the bounding box. *)
Lemma cc_sum_box f g d :
  cc_sum mask hh ww id f g d
  = sumn bh (fun i => sumn bw (fun j =>
      let p := (Z.of_nat i + Z.of_nat r0, Z.of_nat j + Z.of_nat c0)%Z in
      (masked f p * masked g (shift p d))%Qc)).
Proof.
  pose proof box_facts as Hbox.
  unfold cc_sum, overlap, grid. rewrite qsum_filter, map_map, qsum_prod.
  set (F := fun i j => (masked f (Z.of_nat i, Z.of_nat j) * masked g (shift (Z.of_nat i, Z.of_nat j) d))%Qc).
  transitivity (sumn hh (fun i => sumn ww (fun j => F i j))).
  { apply sumn_ext. intros i Hi. apply sumn_ext. intros j Hj. cbn [fst snd]. unfold F, masked.
    destruct (in_region _ _ _ _ (Z.of_nat i, Z.of_nat j)); cbn [andb]; [|ring].
    destruct (in_region _ _ _ _ (shift _ d)); ring. }
  assert (Hz : forall i j, (i < r0 \/ r0 + bh <= i \/ j < c0 \/ c0 + bw <= j) -> F i j = 0%Qc).
  { intros i j Ho. unfold F, masked.
    destruct (in_region _ _ _ _ (Z.of_nat i, Z.of_nat j)) eqn:E; [|ring].
    apply in_region_iff in E as (_ & _ & E). rewrite !Nat2Z.id in E. apply box_In in E.
    unfold bh, bw in Ho. lia. }
  rewrite (sumn_window hh r0 bh).
  2:{ unfold bh; lia. }
  2:{ intros i Hi Ho. apply sumn_zero. intros j Hj. apply Hz. lia. }
  apply sumn_ext. intros i Hi.
  rewrite (sumn_window ww c0 bw).
  2:{ unfold bw; lia. }
  2:{ intros j Hj Ho. apply Hz. lia. }
  apply sumn_ext. intros j Hj. unfold F.
  rewrite !Nat2Z.inj_add. rewrite (Z.add_comm (Z.of_nat i)), (Z.add_comm (Z.of_nat j)). reflexivity.
Qed.

Lemma at2_sub img i j : i < bh -> j < bw ->
  at2 (sub_image mask id bb img) i j
  = masked (zpix img) (Z.of_nat i + Z.of_nat r0, Z.of_nat j + Z.of_nat c0)%Z.
Proof. intros Hi Hj. rewrite <- zpix_in. apply zpix_sub. Qed.

Lemma corr_at img1 img2 dy dx :
  (- Z.of_nat bh < dy < Z.of_nat bh)%Z -> (- Z.of_nat bw < dx < Z.of_nat bw)%Z ->
  at2 (conv_full bh bw (sub_image mask id bb img1) (rev2 (sub_image mask id bb img2)))
      (Z.to_nat (dy + Z.of_nat bh - 1)) (Z.to_nat (dx + Z.of_nat bw - 1))
  = cc_sum mask hh ww id (zpix img1) (zpix img2) (dy, dx).
Proof.
  intros Hy Hx. rewrite conv_lag by first [apply sub_wf | lia | unfold bh, bw; lia].
  rewrite cc_sum_box. apply sumn_ext. intros i Hi. apply sumn_ext. intros j Hj.
  rewrite at2_sub by assumption. rewrite zpix_sub. cbv zeta. f_equal.
  unfold shift. cbn [fst snd]. f_equal. f_equal; lia.
Qed.

Lemma zpix_ones p : in_region mask hh ww id p = true -> zpix (ones hh ww) p = 1%Qc.
Proof.
  destruct p as [i j]. intros H. apply in_region_iff in H as (H1 & H2 & H3). apply ps_In in H3.
  replace i with (Z.of_nat (Z.to_nat i)) by lia. replace j with (Z.of_nat (Z.to_nat j)) by lia.
  rewrite zpix_in. unfold ones. rewrite tab_at by lia. reflexivity.
Qed.

Lemma cc_ones_l f d : cc_sum mask hh ww id (zpix (ones hh ww)) f d
  = qsum (map (fun p => f (shift p d)) (overlap mask hh ww id d)).
Proof.
  unfold cc_sum. f_equal. apply map_ext_in. intros p Hp. apply filter_In in Hp as [_ Hp].
  apply andb_true_iff in Hp as [Hp _]. rewrite zpix_ones by exact Hp. ring.
Qed.
Lemma cc_ones_r f d : cc_sum mask hh ww id f (zpix (ones hh ww)) d
  = qsum (map f (overlap mask hh ww id d)).
Proof.
  unfold cc_sum. f_equal. apply map_ext_in. intros p Hp. apply filter_In in Hp as [_ Hp].
  apply andb_true_iff in Hp as [_ Hp]. rewrite zpix_ones by exact Hp. ring.
Qed.
Lemma qsum_ones {A} (l : list A) : qsum (map (fun _ => 1%Qc) l) = qn (length l).
Proof. induction l as [|a l IH]; cbn; [reflexivity|]. rewrite IH, qn_S. ring. Qed.
Lemma cc_ones d : cc_sum mask hh ww id (zpix (ones hh ww)) (zpix (ones hh ww)) d
  = qn (length (overlap mask hh ww id d)).
Proof.
  rewrite cc_ones_r. rewrite <- qsum_ones. f_equal. apply map_ext_in. intros p Hp.
  apply filter_In in Hp as [_ Hp]. apply andb_true_iff in Hp as [Hp _]. apply zpix_ones; exact Hp.
Qed.

Lemma region_mean_eq img :
  qavg (map (fun p => at2 img (fst p) (snd p)) ps) = region_mean mask hh ww id (zpix img).
Proof.
  unfold qavg, region_mean. rewrite map_length.
  assert (E : filter (in_region mask hh ww id) (grid hh ww)
              = map (fun p => (Z.of_nat (fst p), Z.of_nat (snd p))) ps).
  { unfold grid, ps, region.
    assert (Hin : forall p, In p (list_prod (seq 0 hh) (seq 0 ww)) ->
       in_region mask hh ww id (Z.of_nat (fst p), Z.of_nat (snd p))
       = (mat_at mask (fst p) (snd p) =? id)).
    { intros [i j] Hp. apply in_prod_iff in Hp as [H1 H2]. apply in_seq in H1, H2. cbn [fst snd].
      apply eq_true_iff_eq. rewrite in_region_iff, !Nat2Z.id, ps_In, Nat.eqb_eq. lia. }
    revert Hin. generalize (list_prod (seq 0 hh) (seq 0 ww)). intros l.
    induction l as [|p l IH]; intros Hin; cbn [map filter]; [reflexivity|].
    rewrite Hin by (left; auto). rewrite IH by (intros; apply Hin; right; auto).
    destruct (mat_at mask (fst p) (snd p) =? id); reflexivity. }
  rewrite E, map_length, map_map. do 2 f_equal. apply map_ext. intros [i j]. cbn [fst snd].
  rewrite zpix_in. reflexivity.
Qed.

(** Beyond the reported lags there is no overlap. *)
Lemma overlap_out dy dx :
  (dy <= - Z.of_nat bh \/ Z.of_nat bh <= dy \/ dx <= - Z.of_nat bw \/ Z.of_nat bw <= dx)%Z ->
  overlap mask hh ww id (dy, dx) = [].
Proof.
  intros Ho. unfold overlap. 
  destruct (filter _ _) as [|p l] eqn:E; [reflexivity|]. exfalso.
  assert (Hp : In p (p :: l)) by (left; auto). rewrite <- E in Hp.
  apply filter_In in Hp as [_ Hp]. apply andb_true_iff in Hp as [H1 H2].
  destruct p as [i j]. unfold shift in H2. cbn [fst snd] in H2.
  apply in_region_iff in H1 as (A1 & A2 & A3). apply in_region_iff in H2 as (B1 & B2 & B3).
  apply box_In in A3, B3. pose proof box_facts. unfold bh, bw in Ho. lia.
Qed.

Lemma half_lt n : Qc_ltb (qz 1 / qz 2)%Qc (qn n) = negb (n =? 0).
Proof.
  destruct (Nat.eqb_spec n 0) as [->|Hn]; cbn [negb].
  - reflexivity.
  - destruct (Qc_ltb_spec (qz 1 / qz 2)%Qc (qn n)) as [|H]; [reflexivity|].
    exfalso. apply H. apply Qclt_le_trans with 1%Qc; [reflexivity|].
    change 1%Qc with (qz 1). unfold qn. apply qz_le. lia.
Qed.

Lemma at_tab2o h w f i j : i < h -> j < w ->
  (r <- nth_error (tab2o h w f) i ;; nth_error r j) = Some (f i j).
Proof.
  intros Hi Hj. unfold tab2o. rewrite nth_error_map_seq by exact Hi. cbn [bind].
  apply nth_error_map_seq; exact Hj.
Qed.

Lemma call_region_ok symavg regular img1 img2 :
  exists out, call_region symavg regular mask hh ww img1 img2 id = Some out /\
    length out = 2 * bh - 1 /\ (forall r, In r out -> length r = 2 * bw - 1) /\
    forall dy dx, (- Z.of_nat bh < dy < Z.of_nat bh)%Z -> (- Z.of_nat bw < dx < Z.of_nat bw)%Z ->
      let f := zpix img1 in let g := zpix img2 in let d := (dy, dx) in
      let o := overlap mask hh ww id d in
      let m := if length o =? 0 then None else Some (qn (length o)) in
      let cc := Some (cc_sum mask hh ww id f g d) in
      let s := if symavg then omul cc (odiv (odiv m (Some (qsum (map f o))))
                                            (Some (qsum (map (fun p => g (shift p d)) o)))) else cc in
      (r <- nth_error out (Z.to_nat (dy + Z.of_nat bh - 1)) ;;
       nth_error r (Z.to_nat (dx + Z.of_nat bw - 1)))
      = Some (if regular
              then odiv s (omul m (Some (region_mean mask hh ww id f * region_mean mask hh ww id g)%Qc))
              else s).
Proof.
  unfold call_region. fold ps. fold bb.
  assert (Hbh : 1 <= bh) by (unfold bh; lia).
  rewrite !(cross_corr_some bh bw) by (auto; apply sub_wf). cbn [bind].
  replace (shape (conv_full bh bw (sub_image mask id bb img1) (rev2 (sub_image mask id bb img2))))
    with (2 * bh - 1, 2 * bw - 1) by (symmetry; apply tab_shape; lia).
  eexists; split; [reflexivity|].
  split; [unfold tab2o; rewrite map_length, seq_length; reflexivity|].
  split.
  { intros r Hr. apply in_map_iff in Hr as (i & <- & _). rewrite map_length, seq_length; reflexivity. }
  intros dy dx Hy Hx. cbv zeta.
  rewrite at_tab2o by lia.
  rewrite !corr_at by assumption. rewrite cc_ones, cc_ones_l, cc_ones_r, half_lt.
  rewrite !region_mean_eq.
  destruct (length (overlap mask hh ww id (dy, dx)) =? 0); reflexivity.
Qed.

Lemma regular_eq f g d :
  (let o := overlap mask hh ww id d in
   let m := if length o =? 0 then None else Some (qn (length o)) in
   odiv (Some (cc_sum mask hh ww id f g d))
        (omul m (Some (region_mean mask hh ww id f * region_mean mask hh ww id g)%Qc)))
  = spec_regular mask hh ww id f g d.
Proof.
  cbv zeta. unfold spec_regular. set (n := length _). set (m := (_ * _)%Qc).
  destruct (Nat.eqb_spec n 0) as [E|E]; cbn [orb]; [reflexivity|].
  unfold odiv, omul. assert (Hq : qn n <> 0%Qc) by (apply qn_neq0; exact E).
  destruct (Qc_eqb_spec m 0%Qc) as [Em|Em].
  - rewrite Em. replace (qn n * 0)%Qc with 0%Qc by ring. reflexivity.
  - destruct (Qc_eqb_spec (qn n * m)%Qc 0%Qc) as [E'|E'].
    + apply Qcmult_integral in E' as [?|?]; contradiction.
    + f_equal. field. auto.
Qed.
Lemma symavg_eq f g d :
  (let o := overlap mask hh ww id d in
   let m := if length o =? 0 then None else Some (qn (length o)) in
   omul (Some (cc_sum mask hh ww id f g d))
        (odiv (odiv m (Some (qsum (map f o)))) (Some (qsum (map (fun p => g (shift p d)) o)))))
  = spec_symavg mask hh ww id f g d.
Proof.
  cbv zeta. unfold spec_symavg. set (o := overlap _ _ _ _ _). set (n := length o).
  set (a := qsum (map f o)). set (b := qsum _).
  destruct (Nat.eqb_spec n 0) as [E|E]; cbn [orb]; [reflexivity|].
  assert (Hq : qn n <> 0%Qc) by (apply qn_neq0; exact E).
  unfold odiv, omul. destruct (Qc_eqb_spec a 0%Qc) as [Ea|Ea]; cbn [orb]; [reflexivity|].
  destruct (Qc_eqb_spec b 0%Qc) as [Eb|Eb]; [reflexivity|].
  f_equal. field. auto.
Qed.
End Region.
