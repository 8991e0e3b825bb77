From Coq Require Import Reals.
From Verif Require Import Common QcArith Sums Dpc_Model Dpc_Spec.
Local Open Scope nat_scope.

(** ** image_reduction *)
Definition extends (im : img) (bad : list (Z * Z)) (m : img) : Prop :=
  ih m = ih im /\ iw m = iw im /\ forall i j, i < ih im -> j < iw im -> px m i j = clean im bad i j.
Lemma names_iff h w b r c i j : i < h -> j < w -> pyindex (Z.of_nat h) (fst b) = Some r -> pyindex (Z.of_nat w) (snd b) = Some c ->
  names h w b i j = (i =? r) && (j =? c).
Proof.
  intros Hi Hj. unfold pyindex, names. destruct b as [b1 b2]; cbn [fst snd].
  destruct ((0 <=? b1)%Z && (b1 <? Z.of_nat h)%Z) eqn:E1; [|destruct ((- Z.of_nat h <=? b1)%Z && (b1 <? 0)%Z) eqn:E1'; [|discriminate]];
  destruct ((0 <=? b2)%Z && (b2 <? Z.of_nat w)%Z) eqn:E2; [|destruct ((- Z.of_nat w <=? b2)%Z && (b2 <? 0)%Z) eqn:E2'; [|discriminate]| |destruct ((- Z.of_nat w <=? b2)%Z && (b2 <? 0)%Z) eqn:E2'; [|discriminate]];
  intros H1 H2; injection H1 as <-; injection H2 as <-; lia.
Qed.
Lemma pyindex_some n i : (- Z.of_nat n <= i < Z.of_nat n)%Z -> exists k, pyindex (Z.of_nat n) i = Some k.
Proof. intros H. unfold pyindex. destruct ((0 <=? i)%Z && (i <? Z.of_nat n)%Z) eqn:E1; [eauto|]. destruct ((- Z.of_nat n <=? i)%Z && (i <? 0)%Z) eqn:E2; [eauto|]. lia. Qed.
Lemma pyindex_none n i : ~ (- Z.of_nat n <= i < Z.of_nat n)%Z -> pyindex (Z.of_nat n) i = None.
Proof. intros H. unfold pyindex. destruct ((0 <=? i)%Z && (i <? Z.of_nat n)%Z) eqn:E1; [lia|]. destruct ((- Z.of_nat n <=? i)%Z && (i <? 0)%Z) eqn:E2; [lia|reflexivity]. Qed.
Lemma writes_ok im bad : Forall (in_bounds (ih im) (iw im)) bad -> forall pre c m, extends im pre m ->
  exists m', foldM write bad (View c m false) = Some (View c m' false) /\ extends im (pre ++ bad) m'.
Proof.
  induction 1 as [|b bad Hb H IH]; intros pre c m E.
  - exists m. rewrite app_nil_r. split; [reflexivity|exact E].
  - cbn [foldM]. destruct E as [E1 [E2 E3]]. destruct Hb as [B1 B2].
    destruct (pyindex_some _ _ B1) as [r Hr]. destruct (pyindex_some _ _ B2) as [k Hk].
    unfold write at 1. cbn [local shared caller]. rewrite E1, E2, Hr, Hk. cbn [bind].
    destruct (IH (pre ++ [b]) c (set_px m r k 0%Qc)) as [m' [F G]].
    + unfold extends, set_px. cbn [ih iw px]. repeat split; auto. intros i j Hi Hj. rewrite <- (names_iff _ _ b _ _ i j Hi Hj Hr Hk).
      unfold clean. rewrite existsb_app. cbn [existsb]. rewrite orb_false_r. destruct (names (ih im) (iw im) b i j).
      * rewrite orb_true_r. reflexivity.
      * rewrite orb_false_r. rewrite E3 by assumption. reflexivity.
    + exists m'. rewrite <- app_assoc in G. split; [exact F|exact G].
Qed.
Lemma writes_fail im bad : ~ Forall (in_bounds (ih im) (iw im)) bad -> forall c m s, ih m = ih im -> iw m = iw im -> foldM write bad (View c m s) = None.
Proof.
  induction bad as [|b bad IH]; intros H c m s E1 E2; [destruct H; constructor|].
  cbn [foldM]. unfold write at 1. cbn [local shared caller]. rewrite E1, E2.
  destruct (pyindex (Z.of_nat (ih im)) (fst b)) as [r|] eqn:Hr; [|reflexivity]. cbn [bind].
  destruct (pyindex (Z.of_nat (iw im)) (snd b)) as [k|] eqn:Hk; [|reflexivity]. cbn [bind].
  apply IH; [|exact E1|exact E2]. intros HF. apply H. constructor; [|exact HF]. split.
  - destruct (Z_lt_dec (fst b) (Z.of_nat (ih im))) as [?|?]; [destruct (Z_le_dec (- Z.of_nat (ih im)) (fst b)) as [?|?]|].
    + lia.
    + rewrite pyindex_none in Hr by lia. discriminate.
    + rewrite pyindex_none in Hr by lia. discriminate.
  - destruct (Z_lt_dec (snd b) (Z.of_nat (iw im))) as [?|?]; [destruct (Z_le_dec (- Z.of_nat (iw im)) (snd b)) as [?|?]|].
    + lia.
    + rewrite pyindex_none in Hk by lia. discriminate.
    + rewrite pyindex_none in Hk by lia. discriminate.
Qed.
Lemma after_bad im bad : Forall (in_bounds (ih im) (iw im)) bad ->
  exists m sh, match bad with [] => Some (View im im true) | _ => foldM write bad (View im im false) end = Some (View im m sh) /\ extends im bad m.
Proof.
  intros H. destruct bad as [|b bad].
  - exists im, true. split; [reflexivity|]. repeat split; intros; reflexivity.
  - destruct (writes_ok im (b :: bad) H [] im im) as [m' [E F]].
    + repeat split; intros; reflexivity.
    + exists m', false. split; [exact E|exact F].
Qed.

(** Sums over a window. *)
Definition clip (n : nat) (z : Z) : nat := Z.to_nat (Z.min (Z.of_nat n) z).
Lemma qsum_axis0 m : qsum (sum_axis0 m) = sumn (ih m) (fun i => sumn (iw m) (fun j => px m i j)).
Proof. unfold sum_axis0. change (sumn (iw m) (fun j => sumn (ih m) (fun i => px m i j)) = sumn (ih m) (fun i => sumn (iw m) (fun j => px m i j))). symmetry. apply sumn_swap. Qed.
Lemma qsum_axis1 m : qsum (sum_axis1 m) = sumn (ih m) (fun i => sumn (iw m) (fun j => px m i j)).
Proof. reflexivity. Qed.
Lemma win_sum n (r row : Z) (f : nat -> Qc) : (0 <= r)%Z -> (0 <= row)%Z ->
  sumn n (fun i => if (r <=? Z.of_nat i)%Z && (Z.of_nat i <? r + row)%Z then f i else 0%Qc) =
  sumn (clip n (r + row) - clip n r) (fun i => f (clip n r + i)).
Proof.
  intros H1 H2. assert (L : clip n r + (clip n (r + row) - clip n r) <= n) by (unfold clip; lia).
  rewrite (sumn_window n (clip n r) (clip n (r + row) - clip n r)).
  2: exact L.
  2: { intros i Hi Hc. destruct ((r <=? Z.of_nat i)%Z && (Z.of_nat i <? r + row)%Z) eqn:E; [|reflexivity]. exfalso. unfold clip in *. lia. }
  apply sumn_ext. intros i Hi. replace ((r <=? Z.of_nat (clip n r + i))%Z && (Z.of_nat (clip n r + i) <? r + row)%Z) with true; [reflexivity|].
  symmetry. unfold clip in *. lia.
Qed.
Lemma pybound_clip n z : (0 <= z)%Z -> Z.to_nat (pybound (Z.of_nat n) z) = clip n z.
Proof. intros H. unfold pybound, clip. destruct (z <? 0)%Z eqn:E; lia. Qed.
Lemma nth_axis0 m j : j < iw m -> nth_error (sum_axis0 m) j = Some (sumn (ih m) (fun i => px m i j)).
Proof. intros H. unfold sum_axis0. rewrite nth_error_map_seq by exact H. reflexivity. Qed.
Lemma nth_axis1 m i : i < ih m -> nth_error (sum_axis1 m) i = Some (sumn (iw m) (fun j => px m i j)).
Proof. intros H. unfold sum_axis1. rewrite nth_error_map_seq by exact H. reflexivity. Qed.
Lemma in_window_split r c row col i j : in_window r c row col i j =
  ((r <=? Z.of_nat i)%Z && (Z.of_nat i <? r + row)%Z) && ((c <=? Z.of_nat j)%Z && (Z.of_nat j <? c + col)%Z).
Proof. unfold in_window. rewrite !andb_assoc. reflexivity. Qed.
Lemma total_window im r c row col v : (0 <= r)%Z -> (0 <= c)%Z -> (0 <= row)%Z -> (0 <= col)%Z ->
  total im (in_window r c row col) v = sumn (clip (ih im) (r + row) - clip (ih im) r) (fun i =>
    sumn (clip (iw im) (c + col) - clip (iw im) c) (fun j => v (clip (ih im) r + i) (clip (iw im) c + j))).
Proof.
  intros H1 H2 H3 H4. rewrite <- (win_sum (ih im) r row (fun i => sumn (clip (iw im) (c + col) - clip (iw im) c) (fun j => v i (clip (iw im) c + j)))) by assumption.
  unfold total. apply sumn_ext. intros i Hi. rewrite <- (win_sum (iw im) c col (fun j => v i j)) by assumption.
  destruct ((r <=? Z.of_nat i)%Z && (Z.of_nat i <? r + row)%Z) eqn:E.
  - apply sumn_ext. intros j _. rewrite in_window_split, E. reflexivity.
  - apply sumn_zero. intros j _. rewrite in_window_split, E. reflexivity.
Qed.

Theorem reduction_roi im r c row col bad : Forall (in_bounds (ih im) (iw im)) bad ->
  (0 <= r)%Z -> (0 <= c)%Z -> (0 <= row)%Z -> (0 <= col)%Z ->
  exists xl yl, image_reduction im (RoiSeq r c row col) bad = Some (im, xl, yl) /\
    qsum xl = total im (in_window r c row col) (clean im bad) /\ qsum yl = total im (in_window r c row col) (clean im bad) /\
    Z.of_nat (length xl) = Z.max 0 (Z.min (Z.of_nat (iw im)) (c + col) - c) /\
    Z.of_nat (length yl) = Z.max 0 (Z.min (Z.of_nat (ih im)) (r + row) - r) /\
    (forall k, k < length xl -> nth_error xl k = Some (column_total im (in_window r c row col) (clean im bad) (Z.to_nat c + k))) /\
    (forall k, k < length yl -> nth_error yl k = Some (row_total im (in_window r c row col) (clean im bad) (Z.to_nat r + k))).
Proof.
  intros HB H1 H2 H3 H4. destruct (after_bad im bad HB) as [m [sh [E [G1 [G2 G3]]]]].
  unfold image_reduction. rewrite E. cbn [bind local caller].
  set (m' := crop m r (r + row) c (c + col)).
  assert (Eh : ih m' = clip (ih im) (r + row) - clip (ih im) r).
  { unfold m', crop. cbn [ih]. rewrite G1, !pybound_clip by lia. reflexivity. }
  assert (Ew : iw m' = clip (iw im) (c + col) - clip (iw im) c).
  { unfold m', crop. cbn [iw]. rewrite G2, !pybound_clip by lia. reflexivity. }
  assert (Ep : forall i j, i < ih m' -> j < iw m' -> px m' i j = clean im bad (clip (ih im) r + i) (clip (iw im) c + j)).
  { intros i j Hi Hj. unfold m', crop. cbn [px]. rewrite G1, G2, !pybound_clip by lia. apply G3; unfold clip in *; lia. }
  assert (ET : sumn (ih m') (fun i => sumn (iw m') (fun j => px m' i j)) = total im (in_window r c row col) (clean im bad)).
  { rewrite total_window by assumption. rewrite <- Eh, <- Ew. apply sumn_ext. intros i Hi. apply sumn_ext. intros j Hj. apply Ep; assumption. }
  exists (sum_axis0 m'), (sum_axis1 m'). split; [reflexivity|]. split; [rewrite qsum_axis0; exact ET|]. split; [rewrite qsum_axis1; exact ET|].
  assert (L0 : length (sum_axis0 m') = iw m') by (unfold sum_axis0; rewrite map_length, seq_length; reflexivity).
  assert (L1 : length (sum_axis1 m') = ih m') by (unfold sum_axis1; rewrite map_length, seq_length; reflexivity).
  rewrite L0, L1. split; [rewrite Ew; unfold clip; lia|]. split; [rewrite Eh; unfold clip; lia|]. split.
  - intros k Hk. rewrite nth_axis0 by exact Hk. f_equal. unfold column_total.
    rewrite (sumn_ext (ih im) _ (fun i => if (r <=? Z.of_nat i)%Z && (Z.of_nat i <? r + row)%Z then clean im bad i (Z.to_nat c + k) else 0%Qc)).
    + rewrite win_sum by assumption. rewrite <- Eh. apply sumn_ext. intros i Hi. rewrite Ep by assumption. f_equal. rewrite Ew in Hk. unfold clip in *. lia.
    + intros i Hi. rewrite in_window_split. replace ((c <=? Z.of_nat (Z.to_nat c + k))%Z && (Z.of_nat (Z.to_nat c + k) <? c + col)%Z) with true; [rewrite andb_true_r; reflexivity|].
      rewrite Ew in Hk. unfold clip in *. lia.
  - intros k Hk. rewrite nth_axis1 by exact Hk. f_equal. unfold row_total.
    rewrite (sumn_ext (iw im) _ (fun j => if (c <=? Z.of_nat j)%Z && (Z.of_nat j <? c + col)%Z then clean im bad (Z.to_nat r + k) j else 0%Qc)).
    + rewrite win_sum by assumption. rewrite <- Ew. apply sumn_ext. intros j Hj. rewrite Ep by assumption. f_equal. rewrite Eh in Hk. unfold clip in *. lia.
    + intros j Hj. rewrite in_window_split. replace ((r <=? Z.of_nat (Z.to_nat r + k))%Z && (Z.of_nat (Z.to_nat r + k) <? r + row)%Z) with true; [reflexivity|].
      rewrite Eh in Hk. unfold clip in *. lia.
Qed.
Theorem reduction_whole im bad : Forall (in_bounds (ih im) (iw im)) bad ->
  exists xl yl, image_reduction im NoRoi bad = Some (im, xl, yl) /\
    qsum xl = total im (fun _ _ => true) (clean im bad) /\ qsum yl = total im (fun _ _ => true) (clean im bad) /\
    length xl = iw im /\ length yl = ih im /\
    (forall k, k < iw im -> nth_error xl k = Some (column_total im (fun _ _ => true) (clean im bad) k)) /\
    (forall k, k < ih im -> nth_error yl k = Some (row_total im (fun _ _ => true) (clean im bad) k)).
Proof.
  intros HB. destruct (after_bad im bad HB) as [m [sh [E [G1 [G2 G3]]]]].
  unfold image_reduction. rewrite E. cbn [bind local caller].
  assert (ET : sumn (ih m) (fun i => sumn (iw m) (fun j => px m i j)) = total im (fun _ _ => true) (clean im bad)).
  { unfold total. rewrite G1, G2. apply sumn_ext. intros i Hi. apply sumn_ext. intros j Hj. apply G3; assumption. }
  exists (sum_axis0 m), (sum_axis1 m). split; [reflexivity|]. split; [rewrite qsum_axis0; exact ET|]. split; [rewrite qsum_axis1; exact ET|].
  split; [unfold sum_axis0; rewrite map_length, seq_length; exact G2|]. split; [unfold sum_axis1; rewrite map_length, seq_length; exact G1|]. split.
  - intros k Hk. rewrite nth_axis0 by lia. f_equal. unfold column_total. rewrite G1. apply sumn_ext. intros i Hi. apply G3; assumption.
  - intros k Hk. rewrite nth_axis1 by lia. f_equal. unfold row_total. rewrite G2. apply sumn_ext. intros j Hj. apply G3; assumption.
Qed.
Theorem reduction_raises im roi bad : image_reduction im roi bad = None <-> roi = RoiArray \/ ~ Forall (in_bounds (ih im) (iw im)) bad.
Proof.
  split.
  - intros H. destruct roi as [|r c row col|]; [| |left; reflexivity]; right; intros HB; destruct (after_bad im bad HB) as [m [sh [E _]]];
      unfold image_reduction in H; rewrite E in H; discriminate.
  - intros [->|H]; unfold image_reduction.
    + destruct bad; [reflexivity|]. destruct (foldM write _ _); reflexivity.
    + destruct bad as [|b bad]; [destruct H; constructor|]. rewrite (writes_fail im) by (try exact H; reflexivity). reflexivity.
Qed.

(** ** lazy_dpc *)
Section Lazy.
Context {I V Rf : Type} (zero : V) (ref_of : I -> Rf) (fitx fity : Rf -> I -> V * V).
Lemma raster_zeros rows cols : raster zero rows cols [] (zeros zero rows cols).
Proof.
  unfold raster, zeros. split; [apply repeat_length|]. intros i row H. apply nth_error_In, repeat_spec in H. subst row.
  split; [apply repeat_length|]. intros j v Hv. apply nth_error_In, repeat_spec in Hv. subst v. destruct (i * cols + j); reflexivity.
Qed.
Lemma raster_set rows cols vals g v : raster zero rows cols vals g -> length vals < rows * cols ->
  exists g', set2 g (length vals / cols) (length vals mod cols) v = Some g' /\ raster zero rows cols (vals ++ [v]) g'.
Proof.
  intros [L H] Hk. set (k := length vals) in *. assert (Hc : cols <> 0) by nia.
  assert (Hj : k mod cols < cols) by (apply Nat.mod_upper_bound; exact Hc).
  assert (Hi : k / cols < rows) by (apply Nat.div_lt_upper_bound; lia).
  assert (Hd : k = k / cols * cols + k mod cols) by (rewrite (Nat.div_mod k cols Hc) at 1; lia).
  set (i := k / cols) in *. set (j := k mod cols) in *. clearbody i j.
  unfold set2. destruct (nth_error g i) as [row|] eqn:Er; [|apply nth_error_None in Er; lia]. cbn [bind].
  destruct (H i row Er) as [Lr Hr]. destruct (upd_some row j v ltac:(lia)) as [row' Eu]. rewrite Eu. cbn [bind].
  destruct (upd_some g i row' ltac:(lia)) as [g' Eg]. exists g'. split; [exact Eg|].
  split; [rewrite (upd_length _ _ _ _ Eg); exact L|]. intros i' r Hi'.
  destruct (Nat.eq_dec i' i) as [->|N].
  - rewrite (upd_nth_eq _ _ _ _ Eg) in Hi'. injection Hi' as <-. split; [rewrite (upd_length _ _ _ _ Eu); exact Lr|].
    intros j' u Hj'. destruct (Nat.eq_dec j' j) as [->|Nj].
    + rewrite (upd_nth_eq _ _ _ _ Eu) in Hj'. injection Hj' as <-. rewrite <- Hd. unfold k. rewrite app_nth2, Nat.sub_diag by lia. reflexivity.
    + rewrite (upd_nth_ne _ _ _ _ _ Eu Nj) in Hj'. rewrite (Hr j' u Hj').
      destruct (Nat.lt_ge_cases (i * cols + j') k) as [Lk|Gk]; [rewrite app_nth1 by exact Lk; reflexivity|].
      rewrite nth_overflow by exact Gk. rewrite nth_overflow; [reflexivity|]. rewrite app_length. cbn. fold k. lia.
  - rewrite (upd_nth_ne _ _ _ _ _ Eg N) in Hi'. destruct (H i' r Hi') as [Lr' Hr']. split; [exact Lr'|]. intros j' u Hj'.
    rewrite (Hr' j' u Hj'). destruct (Nat.lt_ge_cases (i' * cols + j') k) as [Lk|Gk]; [rewrite app_nth1 by exact Lk; reflexivity|].
    rewrite nth_overflow by exact Gk. rewrite nth_overflow; [reflexivity|]. rewrite app_length. cbn. fold k.
    assert (j' < cols) by (rewrite <- Lr'; apply nth_error_Some; congruence). assert (i' * cols + j' <> k) by nia. lia.
Qed.
Definition scanned (rows cols : nat) (ref : Rf) (done : list I) (s : dpc_state V Rf) : Prop :=
  refd s = ref /\ index s = length done /\
  raster zero rows cols (map (fun im => fst (fitx ref im)) done) (ax s) /\
  raster zero rows cols (map (fun im => fst (fity ref im)) done) (ay s) /\
  raster zero rows cols (map (fun im => snd (fitx ref im)) done) (gx s) /\
  raster zero rows cols (map (fun im => snd (fity ref im)) done) (gy s).
Lemma step_ok rows cols ref done s im : scanned rows cols ref done s -> length done < rows * cols ->
  exists s', step fitx fity rows cols s im = Some s' /\ scanned rows cols ref (done ++ [im]) s'.
Proof.
  intros [Hr [Hn [H1 [H2 [H3 H4]]]]] Hk. unfold step, unravel. rewrite Hn. replace (length done <? rows * cols) with true by lia. cbn [bind].
  rewrite Hr. destruct (fitx ref im) as [a1 g1] eqn:Ex. destruct (fity ref im) as [a2 g2] eqn:Ey.
  assert (Lm : forall (f : I -> V), length (map f done) = length done) by (intros; apply map_length).
  destruct (raster_set rows cols _ _ g1 H3) as [x3 [E3 R3]]; [rewrite Lm; exact Hk|]. rewrite Lm in E3. rewrite E3. cbn [bind].
  destruct (raster_set rows cols _ _ g2 H4) as [x4 [E4 R4]]; [rewrite Lm; exact Hk|]. rewrite Lm in E4. rewrite E4. cbn [bind].
  destruct (raster_set rows cols _ _ a1 H1) as [x1 [E1 R1]]; [rewrite Lm; exact Hk|]. rewrite Lm in E1. rewrite E1. cbn [bind].
  destruct (raster_set rows cols _ _ a2 H2) as [x2 [E2 R2]]; [rewrite Lm; exact Hk|]. rewrite Lm in E2. rewrite E2. cbn [bind].
  eexists. split; [reflexivity|]. unfold scanned. cbn [refd index ax ay gx gy]. rewrite !map_app, app_length. cbn [map length]. rewrite Ex, Ey. cbn [fst snd].
  split; [first [reflexivity|exact Hr]|]. split; [lia|].
  split; [exact R1|]. split; [exact R2|]. split; [exact R3|exact R4].
Qed.
Lemma steps_ok rows cols ref : forall images done s, scanned rows cols ref done s -> length done + length images <= rows * cols ->
  exists s', foldM (step fitx fity rows cols) images s = Some s' /\ scanned rows cols ref (done ++ images) s'.
Proof.
  induction images as [|im images IH]; intros done s H Hl.
  - exists s. rewrite app_nil_r. split; [reflexivity|exact H].
  - cbn [foldM]. cbn [length] in Hl. destruct (step_ok rows cols ref done s im H ltac:(lia)) as [s1 [E1 H1]]. rewrite E1. cbn [bind].
    destruct (IH (done ++ [im]) s1 H1) as [s2 [E2 H2]]; [rewrite app_length; cbn; lia|]. exists s2. split; [exact E2|]. rewrite <- app_assoc in H2. exact H2.
Qed.
Lemma init_scanned rows cols ref : scanned rows cols (ref_of ref) [] (initialize zero ref_of rows cols ref).
Proof. unfold scanned, initialize. cbn [refd index ax ay gx gy map length]. split; [reflexivity|]. split; [reflexivity|]. split; [apply raster_zeros|]. split; [apply raster_zeros|]. split; apply raster_zeros. Qed.
Theorem lazy_ok rows cols ref images : length images <= rows * cols ->
  exists s, lazy_dpc zero ref_of fitx fity ref images rows cols None = Some s /\ scanned rows cols (ref_of ref) images s.
Proof. intros H. apply (steps_ok rows cols (ref_of ref) images [] _ (init_scanned rows cols ref)). cbn. exact H. Qed.
Theorem lazy_too_many rows cols ref images : rows * cols < length images -> lazy_dpc zero ref_of fitx fity ref images rows cols None = None.
Proof.
  intros H. unfold lazy_dpc. rewrite <- (firstn_skipn (rows * cols) images), foldM_app.
  destruct (steps_ok rows cols (ref_of ref) (firstn (rows * cols) images) [] _ (init_scanned rows cols ref)) as [s [E [_ [Hn _]]]].
  { cbn. rewrite firstn_length. lia. }
  rewrite E. cbn [bind]. destruct (skipn (rows * cols) images) as [|im r] eqn:Es.
  - apply (f_equal (@length _)) in Es. rewrite skipn_length in Es. cbn in Es. lia.
  - cbn [foldM]. unfold step, unravel. cbn [app] in Hn. rewrite Hn, firstn_length. replace (Nat.min (rows * cols) (length images) <? rows * cols) with false by lia. reflexivity.
Qed.
Theorem lazy_resume rows cols ref ref' l1 l2 st :
  lazy_dpc zero ref_of fitx fity ref (l1 ++ l2) rows cols st =
  (s <- lazy_dpc zero ref_of fitx fity ref l1 rows cols st ;; lazy_dpc zero ref_of fitx fity ref' l2 rows cols (Some s)).
Proof. unfold lazy_dpc. rewrite foldM_app. reflexivity. Qed.
End Lazy.

(** ** Flags *)
Lemma scaled_nth k (a : list (list Qc)) i row : nth_error a i = Some row -> nth_error (scaled k a) i = Some (map (fun v => (v * k)%Qc) row).
Proof. intros H. unfold scaled. rewrite nth_error_map, H. reflexivity. Qed.
Lemma scaled_scaled k l (a : list (list Qc)) : scaled k (scaled l a) = scaled (l * k)%Qc a.
Proof. unfold scaled. rewrite map_map. apply map_ext. intros row. rewrite map_map. apply map_ext. intros v. ring. Qed.
Theorem flags_ok {Rf} (s : dpc_state Qc Rf) nx ny energy ps fd negate scale w : (0 <= w)%Qc -> (w <= 1)%Qc -> energy <> 0%Qc ->
  gradients s nx ny energy ps fd negate scale w =
  match ps, fd with
  | Some p, Some f => if Qc_eq_dec p 0 then gradients s nx ny energy None None negate scale w else if Qc_eq_dec f 0 then gradients s nx ny energy None None negate scale w else
      let k := (p * energy / (Q2Qc (124 # 100000) * f))%Qc in
      inl (scaled (if negate then - (qn nx * k) else qn nx * k)%Qc (gx s), scaled (qn ny * k)%Qc (gy s), half_sum (ax s) (ay s))
  | _, _ => if negate then inl (scaled (-(1))%Qc (gx s), gy s, half_sum (ax s) (ay s)) else inr GxNone
  end.
Proof.
  intros H1 H2 He. unfold gradients.
  assert (Ew : Qc_ltb w 0%Qc || Qc_ltb 1%Qc w = false).
  { destruct (Qc_ltb_spec w 0%Qc) as [L|_]; [exfalso; apply (Qclt_not_le _ _ L); exact H1|]. destruct (Qc_ltb_spec 1%Qc w) as [L|_]; [exfalso; apply (Qclt_not_le _ _ L); exact H2|]. reflexivity. }
  rewrite Ew. unfold truthy. destruct ps as [p|], fd as [f|]; try reflexivity.
  - destruct (Qc_eq_dec p 0) as [->|Np]; [destruct (Qc_eqb_spec 0%Qc 0%Qc) as [_|Z]; [reflexivity|congruence]|].
    destruct (Qc_eqb_spec p 0%Qc) as [?|_]; [congruence|].
    destruct (Qc_eq_dec f 0) as [->|Nf]; [destruct (Qc_eqb_spec 0%Qc 0%Qc) as [_|Z]; [reflexivity|congruence]|].
    destruct (Qc_eqb_spec f 0%Qc) as [?|_]; [congruence|]. destruct (Qc_eqb_spec energy 0%Qc) as [?|_]; [congruence|].
    cbv zeta. set (L := Q2Qc (124 # 100000)). assert (HL : L <> 0%Qc) by (intros E; apply (f_equal this) in E; discriminate).
    assert (Ek : (p / (L / energy * f) = p * energy / (L * f))%Qc) by (field; repeat split; assumption).
    rewrite Ek, !scaled_scaled. destruct negate; [|reflexivity]. repeat f_equal. ring.
  - destruct (Qc_eqb p 0%Qc); reflexivity.
Qed.
Theorem flags_bad_weight {Rf} (s : dpc_state Qc Rf) nx ny energy ps fd negate scale w : (w < 0)%Qc \/ (1 < w)%Qc ->
  gradients s nx ny energy ps fd negate scale w = inr Weighting.
Proof.
  intros H. unfold gradients. replace (Qc_ltb w 0%Qc || Qc_ltb 1%Qc w) with true; [reflexivity|].
  destruct (Qc_ltb_spec w 0%Qc) as [_|L]; [reflexivity|]. destruct (Qc_ltb_spec 1%Qc w) as [_|L']; [reflexivity|]. tauto.
Qed.

Lemma amplitude_ok {Rf} (s : dpc_state Qc Rf) nx ny energy ps fd negate scale w x y h : gradients s nx ny energy ps fd negate scale w = inl (x, y, h) ->
  forall i j ra rb u v, nth_error (ax s) i = Some ra -> nth_error (ay s) i = Some rb -> nth_error ra j = Some u -> nth_error rb j = Some v ->
  exists rh a, nth_error h i = Some rh /\ nth_error rh j = Some a /\ (a + a = u + v)%Qc.
Proof.
  intros E i j ra rb u v H1 H2 H3 H4. assert (Eh : h = half_sum (ax s) (ay s)).
  { unfold gradients in E. destruct (_ || _); [discriminate|]. destruct (truthy ps); [destruct (truthy fd)|]; try destruct (Qc_eqb _ _); try destruct negate; congruence. }
  assert (NC : forall A (a b : list A) k p q, nth_error a k = Some p -> nth_error b k = Some q -> nth_error (combine a b) k = Some (p, q)).
  { clear. induction a as [|x a IH]; intros [|y b] [|k] p q Ha Hb; cbn in *; try discriminate; [congruence|]. exact (IH b k p q Ha Hb). }
  subst h. unfold half_sum. rewrite nth_error_map, (NC _ _ _ _ _ _ H1 H2). cbn [option_map fst snd]. eexists. eexists. split; [reflexivity|].
  rewrite nth_error_map, (NC _ _ _ _ _ _ H3 H4). cbn [option_map fst snd]. split; [reflexivity|]. change (qz 2) with (1 + 1)%Qc. field. intros C. discriminate C.
Qed.
