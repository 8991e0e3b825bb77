From Coq Require Import Reals.
From Verif Require Import Common Dpc_Proofs Snip_Model.
From Coq Require Import Lra.
Local Open Scope R_scope.

Lemma all_some_ok {A} (f : nat -> A) (g : nat -> option A) l : (forall i, In i l -> g i = Some (f i)) -> all_some (map g l) = Some (map f l).
Proof. induction l as [|a l IH]; intros H; cbn; [reflexivity|]. rewrite (H a) by (left; reflexivity). cbn. rewrite IH; [reflexivity|]. intros i Hi. apply H. right. exact Hi. Qed.
Lemma all_some_none {A} (g : nat -> option A) l i : In i l -> g i = None -> all_some (map g l) = None.
Proof. induction l as [|a l IH]; intros Hi E; [contradiction|]. cbn. destruct Hi as [->|Hi]; [rewrite E; reflexivity|]. destruct (g a); cbn; [rewrite IH by assumption|]; reflexivity. Qed.
Lemma nthR_map_seq (f : nat -> R) n i : (i < n)%nat -> nthR (map f (seq 0 n)) i = f i.
Proof. intros H. unfold nthR. apply nth_error_nth. rewrite nth_error_map_seq by exact H. reflexivity. Qed.
Lemma nthR_map (f : R -> R) l i : (i < length l)%nat -> nthR (map f l) i = f (nthR l i).
Proof. intros H. unfold nthR. rewrite (nth_indep _ 0 (f 0)) by (rewrite map_length; exact H). apply map_nth. Qed.

(** ** Truncation and clipping *)
Lemma Int_part_le x : IZR (Int_part x) <= x < IZR (Int_part x) + 1.
Proof. pose proof (base_Int_part x) as [H1 H2]. lra. Qed.
Lemma trunc_bounds x n : 0 <= x <= INR n - 1 -> (0 <= trunc x < Z.of_nat n)%Z.
Proof.
  intros H. unfold trunc. destruct (Rlt_dec x 0) as [L|_]; [lra|]. pose proof (Int_part_le x) as B. rewrite INR_IZR_INZ in H. split.
  - apply Z.lt_succ_r. apply lt_IZR. unfold Z.succ. rewrite plus_IZR. lra.
  - apply lt_IZR. lra.
Qed.
Lemma clip_range x lo hi : 0 <= lo -> 0 <= hi -> 0 <= clip x lo hi <= hi.
Proof. intros Hl Hh. unfold clip. pose proof (Rmax_r x lo). split; [apply Rmin_glb; lra|apply Rmin_r]. Qed.

Section Safe.
Context (xmin xmax : R).
Lemma index_ok n i w : 0 <= xmax -> (0 < n)%nat -> exists k, index_of xmin xmax n i w = Some k /\ (k < n)%nat.
Proof.
  intros Hx Hn. unfold index_of. pose proof (Rmax_r xmin 0) as Hl. fold (lo_lim xmin) in Hl.
  assert (Hh : 0 <= hi_lim xmax n). { unfold hi_lim. apply Rmin_glb; [exact Hx|]. apply le_INR in Hn. cbn in Hn. lra. }
  pose proof (clip_range (INR i + w) _ _ Hl Hh) as C. pose proof (Rmin_r xmax (INR n - 1)) as Hm. fold (hi_lim xmax n) in Hm.
  pose proof (trunc_bounds (clip (INR i + w) (lo_lim xmin) (hi_lim xmax n)) n ltac:(lra)) as B.
  set (t := trunc _) in *. clearbody t. exists (Z.to_nat t). unfold pyindex. replace ((0 <=? t)%Z && (t <? Z.of_nat n)%Z) with true by lia. split; [reflexivity|lia].
Qed.
(** the partners do not depend on the data *)
Lemma point_ok bg ws i : 0 <= xmax -> (i < length bg)%nat -> exists lo hi, (lo < length bg)%nat /\ (hi < length bg)%nat /\
  index_of xmin xmax (length bg) i (- nthR ws i) = Some lo /\ index_of xmin xmax (length bg) i (nthR ws i) = Some hi /\
  point xmin xmax bg ws i = Some (Rmin (nthR bg i) ((nthR bg lo + nthR bg hi) / 2)).
Proof.
  intros Hx Hi. destruct (index_ok (length bg) i (- nthR ws i) Hx ltac:(lia)) as [lo [E1 L1]]. destruct (index_ok (length bg) i (nthR ws i) Hx ltac:(lia)) as [hi [E2 L2]].
  exists lo, hi. repeat (split; [assumption|]). unfold point. rewrite E1, E2. cbn [bind]. f_equal. unfold Rmin.
  destruct (Rlt_dec _ _), (Rle_dec _ _); lra.
Qed.
Definition pval (bg ws : list R) (i : nat) : R := match point xmin xmax bg ws i with Some x => x | None => 0 end.
Lemma snip1_ok bg ws : 0 <= xmax -> snip1 xmin xmax bg ws = Some (map (pval bg ws) (seq 0 (length bg))).
Proof.
  intros Hx. unfold snip1. apply all_some_ok. intros i Hi. apply in_seq in Hi. destruct (point_ok bg ws i Hx ltac:(lia)) as [lo [hi [_ [_ [_ [_ E]]]]]].
  unfold pval. rewrite E. reflexivity.
Qed.
Definition below (a b : list R) : Prop := length a = length b /\ forall i, (i < length a)%nat -> nthR a i <= nthR b i.
Definition above (m : R) (a : list R) : Prop := forall i, (i < length a)%nat -> m <= nthR a i.
Lemma below_refl a : below a a. Proof. split; [reflexivity|intros; lra]. Qed.
Lemma below_trans a b c : below a b -> below b c -> below a c.
Proof. intros [L1 H1] [L2 H2]. split; [congruence|]. intros i Hi. specialize (H1 i Hi). specialize (H2 i ltac:(lia)). lra. Qed.
Lemma snip1_props bg ws : 0 <= xmax -> exists b, snip1 xmin xmax bg ws = Some b /\ below b bg /\ (forall m, above m bg -> above m b).
Proof.
  intros Hx. exists (map (pval bg ws) (seq 0 (length bg))). split; [apply snip1_ok; exact Hx|]. unfold below, above. rewrite map_length, seq_length. split.
  - split; [reflexivity|]. intros i Hi. rewrite nthR_map_seq by exact Hi. destruct (point_ok bg ws i Hx Hi) as [lo [hi [_ [_ [_ [_ E]]]]]]. unfold pval. rewrite E. apply Rmin_l.
  - intros m Hm i Hi. rewrite nthR_map_seq by exact Hi. destruct (point_ok bg ws i Hx Hi) as [lo [hi [L1 [L2 [_ [_ E]]]]]]. unfold pval. rewrite E.
    pose proof (Hm i Hi). pose proof (Hm lo L1). pose proof (Hm hi L2). apply Rmin_glb; lra.
Qed.
Lemma snip1_mono bg bg' ws b b' : 0 <= xmax -> below bg bg' -> snip1 xmin xmax bg ws = Some b -> snip1 xmin xmax bg' ws = Some b' -> below b b'.
Proof.
  intros Hx [L H] E E'. rewrite snip1_ok in E, E' by exact Hx. injection E as <-. injection E' as <-. unfold below. rewrite !map_length, !seq_length. split; [exact L|].
  intros i Hi. rewrite !nthR_map_seq by lia. destruct (point_ok bg ws i Hx Hi) as [lo [hi [L1 [L2 [I1 [I2 E]]]]]]. destruct (point_ok bg' ws i Hx ltac:(lia)) as [lo' [hi' [L1' [L2' [I1' [I2' E']]]]]].
  unfold pval. rewrite E, E'. rewrite <- L in I1', I2'. assert (lo' = lo) by congruence. assert (hi' = hi) by congruence. subst lo' hi'.
  pose proof (H i Hi). pose proof (H lo L1). pose proof (H hi L2). unfold Rmin. destruct (Rle_dec _ _), (Rle_dec _ _); lra.
Qed.
Lemma first_props k : forall bg ws, 0 <= xmax -> exists b, first xmin xmax k bg ws = Some b /\ below b bg /\ (forall m, above m bg -> above m b).
Proof.
  induction k as [|k IH]; intros bg ws Hx; cbn; [exists bg; split; [reflexivity|]; split; [apply below_refl|auto]|].
  destruct (snip1_props bg ws Hx) as [b [E [B A]]]. rewrite E. cbn [bind]. destruct (IH b ws Hx) as [c [E' [B' A']]]. exists c. split; [exact E'|]. split; [exact (below_trans _ _ _ B' B)|auto].
Qed.
Lemma first_mono k : forall bg bg' ws b b', 0 <= xmax -> below bg bg' -> first xmin xmax k bg ws = Some b -> first xmin xmax k bg' ws = Some b' -> below b b'.
Proof.
  induction k as [|k IH]; intros bg bg' ws b b' Hx H E E'; cbn in E, E'; [injection E as <-; injection E' as <-; exact H|].
  destruct (snip1_props bg ws Hx) as [c [Ec _]]. destruct (snip1_props bg' ws Hx) as [c' [Ec' _]]. rewrite Ec in E. rewrite Ec' in E'. cbn [bind] in *.
  exact (IH _ _ ws _ _ Hx (snip1_mono _ _ _ _ _ Hx H Ec Ec') E E').
Qed.
Section Width.
Context (factor threshold : R).
Notation shr := (shrink xmin xmax factor threshold).
Lemma shrink_safe fuel : forall bg ws, 0 <= xmax -> shr fuel bg ws <> Raises.
Proof.
  induction fuel as [|f IH]; intros bg ws Hx; cbn; [discriminate|]. destruct (Rle_dec _ _); [|discriminate].
  destruct (snip1_props bg ws Hx) as [b [E _]]. rewrite E. apply IH. exact Hx.
Qed.
Lemma shrink_props fuel : forall bg ws b, 0 <= xmax -> shr fuel bg ws = Val b -> below b bg /\ (forall m, above m bg -> above m b).
Proof.
  induction fuel as [|f IH]; intros bg ws b Hx E; cbn in E; [discriminate|]. destruct (Rle_dec _ _).
  - destruct (snip1_props bg ws Hx) as [c [Ec [B A]]]. rewrite Ec in E. destruct (IH c _ b Hx E) as [B' A']. split; [exact (below_trans _ _ _ B' B)|auto].
  - injection E as <-. split; [apply below_refl|auto].
Qed.
Lemma shrink_mono fuel : forall bg bg' ws, 0 <= xmax -> below bg bg' -> match shr fuel bg ws, shr fuel bg' ws with Val b, Val b' => below b b' | Running, Running => True | _, _ => False end.
Proof.
  induction fuel as [|f IH]; intros bg bg' ws Hx H; cbn; [exact I|]. destruct (Rle_dec _ _); [|exact H].
  destruct (snip1_props bg ws Hx) as [c [Ec _]]. destruct (snip1_props bg' ws Hx) as [c' [Ec' _]]. rewrite Ec, Ec'. apply IH; [exact Hx|]. exact (snip1_mono _ _ _ _ _ Hx H Ec Ec').
Qed.
Lemma shrink_more fuel : forall bg ws b, shr fuel bg ws = Val b -> forall fuel', (fuel <= fuel')%nat -> shr fuel' bg ws = Val b.
Proof.
  induction fuel as [|f IH]; intros bg ws b E f' Hf; [discriminate|]. destruct f' as [|f']; [lia|]. cbn in *. destruct (Rle_dec _ _); [|exact E].
  destruct (snip1 xmin xmax bg ws); [|discriminate]. apply (IH _ _ _ E). lia.
Qed.
Lemma amax_div ws : 0 < factor -> ws <> [] -> amax (map (fun w => w / factor) ws) = amax ws / factor.
Proof.
  intros Hf Hn. destruct ws as [|a r]; [contradiction|]. clear Hn. cbn. induction r as [|b r IH]; cbn; [reflexivity|]. rewrite IH.
  assert (Hi : 0 < / factor) by (apply Rinv_0_lt_compat; exact Hf). unfold Rdiv. set (m := fold_right Rmax a r). unfold Rmax.
  destruct (Rle_dec b m) as [L|L], (Rle_dec (b * / factor) (m * / factor)) as [L'|L']; try reflexivity; exfalso.
  - apply L'. apply Rmult_le_compat_r; lra.
  - apply L. apply Rmult_le_reg_r in L'; assumption.
Qed.
Lemma shrink_terminates : 0 <= xmax -> 1 < factor -> 0 < threshold -> forall n bg ws, ws <> [] -> amax ws < threshold * factor ^ n -> exists fuel b, shr fuel bg ws = Val b.
Proof.
  intros Hx Hf Ht. induction n as [|n IH]; intros bg ws Hn Hm.
  - exists 1%nat, bg. cbn. cbn in Hm. destruct (Rle_dec _ _); [lra|reflexivity].
  - destruct (Rle_dec threshold (amax ws)) as [L|L]; [|exists 1%nat, bg; cbn; destruct (Rle_dec _ _); [contradiction|reflexivity]].
    destruct (snip1_props bg ws Hx) as [b [E _]].
    destruct (IH b (map (fun w => w / factor) ws)) as [fuel [c Ec]].
    + destruct ws; [contradiction|discriminate].
    + rewrite amax_div by (lra || exact Hn). apply (Rmult_lt_reg_r factor); [lra|]. unfold Rdiv. rewrite Rmult_assoc, Rinv_l, Rmult_1_r by lra. cbn in Hm. lra.
    + exists (S fuel), c. cbn. destruct (Rle_dec _ _); [|contradiction]. rewrite E. exact Ec.
Qed.
Lemma shrink_total bg ws : 0 <= xmax -> 1 < factor -> 0 < threshold -> ws <> [] -> exists fuel b, shr fuel bg ws = Val b.
Proof.
  intros Hx Hf Ht Hn. destruct (Pow_x_infinity factor) with (b := Rmax 0 (amax ws) / threshold + 1) as [N HN]; [rewrite Rabs_pos_eq; lra|].
  apply (shrink_terminates Hx Hf Ht N); [exact Hn|]. specialize (HN N (le_n N)). pose proof (pow_lt factor N ltac:(lra)) as P. rewrite Rabs_pos_eq in HN by lra.
  pose proof (Rmax_r 0 (amax ws)) as M. set (q := Rmax 0 (amax ws)) in *. assert (E : q = threshold * (q / threshold)) by (field; lra).
  assert (threshold * (q / threshold + 1) <= threshold * factor ^ N) by (apply Rmult_le_compat_l; lra). lra.
Qed.
Lemma shrink_forever : 0 <= xmax -> 0 < factor <= 1 -> forall fuel bg ws, ws <> [] -> 0 <= amax ws -> threshold <= amax ws -> shr fuel bg ws = Running.
Proof.
  intros Hx Hf. induction fuel as [|f IH]; intros bg ws Hn H0 Ht; cbn; [reflexivity|]. destruct (Rle_dec _ _); [|contradiction].
  destruct (snip1_props bg ws Hx) as [b [E _]]. rewrite E.
  assert (G : amax ws <= amax ws / factor). { apply (Rmult_le_reg_r factor); [lra|]. unfold Rdiv. rewrite Rmult_assoc, Rinv_l, Rmult_1_r by lra. rewrite <- (Rmult_1_r (amax ws)) at 2. apply Rmult_le_compat_l; lra. }
  apply IH; [destruct ws; [contradiction|discriminate]| |]; rewrite amax_div by (lra || exact Hn); lra.
Qed.
End Width.
End Safe.

(** ** The transform *)
Lemma stretch_squash x : 0 <= x -> stretch (squash x) = x.
Proof.
  intros H. unfold stretch, squash. assert (0 <= ln (x + 1)). { rewrite <- ln_1. destruct (Rle_lt_or_eq_dec 1 (x + 1) ltac:(lra)) as [L|E]; [apply Rlt_le, ln_increasing; lra|rewrite <- E; lra]. }
  rewrite exp_ln by lra. replace (ln (x + 1) + 1 - 1) with (ln (x + 1)) by ring. rewrite exp_ln by lra. ring.
Qed.
Lemma exp_le_mono a b : a <= b -> exp a <= exp b.
Proof. intros [H|H]; [left; apply exp_increasing; exact H|right; rewrite H; reflexivity]. Qed.
Lemma stretch_mono a b : a <= b -> stretch a <= stretch b.
Proof. intros H. unfold stretch. pose proof (exp_le_mono _ _ H). pose proof (exp_le_mono (exp a - 1) (exp b - 1) ltac:(lra)). lra. Qed.
Lemma ln_le_mono a b : 0 < a -> a <= b -> ln a <= ln b.
Proof. intros H [L|E]; [left; apply ln_increasing; assumption|right; rewrite E; reflexivity]. Qed.
Lemma squash_mono a b : 0 <= a -> a <= b -> squash a <= squash b.
Proof.
  intros H L. unfold squash. assert (0 <= ln (a + 1)) by (rewrite <- ln_1; apply ln_le_mono; lra). pose proof (ln_le_mono (a + 1) (b + 1) ltac:(lra) ltac:(lra)). apply ln_le_mono; lra.
Qed.
(** ** Smoothing *)
Lemma sumr_ext n f g : (forall k, (k < n)%nat -> f k = g k) -> sumr n f = sumr n g.
Proof. induction n as [|n IH]; intros H; cbn; [reflexivity|]. rewrite IH, H by (intros; try apply H; lia). reflexivity. Qed.
Lemma sumr_le n f g : (forall k, (k < n)%nat -> f k <= g k) -> sumr n f <= sumr n g.
Proof. induction n as [|n IH]; intros H; cbn; [lra|]. pose proof (H n ltac:(lia)). pose proof (IH ltac:(intros; apply H; lia)). lra. Qed.
Lemma sumr_const n c : sumr n (fun _ => c) = INR n * c.
Proof. induction n as [|n IH]; [cbn; ring|]. cbn [sumr]. rewrite IH, S_INR. ring. Qed.
Lemma at_z_mono a b z : below a b -> at_z a z <= at_z b z.
Proof.
  intros [L H]. unfold at_z. destruct (z <? 0)%Z; [lra|]. destruct (Nat.ltb_spec (Z.to_nat z) (length a)) as [B|B]; [apply H; exact B|].
  rewrite !nth_overflow by lia. lra.
Qed.
Definition nonneg (l : list R) : Prop := above 0 l.
Lemma at_z_nonneg l z : nonneg l -> 0 <= at_z l z.
Proof. intros H. unfold at_z. destruct (z <? 0)%Z; [lra|]. destruct (Nat.ltb_spec (Z.to_nat z) (length l)) as [B|B]; [apply H; exact B|]. rewrite nth_overflow by lia. lra. Qed.
Section Smooth.
Context (sb : option R) (cv : option nat).
Notation sm := (smooth sb cv).
Notation c := (con_val' sb cv).
Hypothesis Hc : (0 < c)%nat.
Lemma c_pos : 0 < / INR c. Proof. apply Rinv_0_lt_compat. apply lt_0_INR. exact Hc. Qed.
Lemma smooth_len l : length (sm l) = length l. Proof. unfold smooth. rewrite map_length, seq_length. reflexivity. Qed.
Lemma smooth_nonneg l : nonneg l -> nonneg (sm l).
Proof.
  intros H i Hi. rewrite smooth_len in Hi. unfold smooth. rewrite nthR_map_seq by exact Hi. pose proof c_pos. apply Rmult_le_pos; [|lra].
  replace 0 with (sumr c (fun _ => 0)) by (rewrite sumr_const; ring). apply sumr_le. intros k _. apply at_z_nonneg. exact H.
Qed.
Lemma smooth_mono a b : below a b -> below (sm a) (sm b).
Proof.
  intros H. split; [rewrite !smooth_len; apply H|]. intros i Hi. rewrite smooth_len in Hi. destruct H as [L H]. unfold smooth. rewrite !nthR_map_seq by lia.
  pose proof c_pos. apply Rmult_le_compat_r; [lra|]. apply sumr_le. intros k _. apply at_z_mono. split; assumption.
Qed.
(** where the whole window lies inside, a constant stays; at the edges it drops *)
Lemma smooth_const v n i : (c - 1 - (c - 1) / 2 <= i)%nat -> (i + (c - 1) / 2 < n)%nat -> nthR (sm (repeat v n)) i = v.
Proof.
  intros H1 H2. unfold smooth. rewrite repeat_length, nthR_map_seq by lia.
  rewrite (sumr_ext c _ (fun _ => v)).
  - rewrite sumr_const. field. apply not_0_INR. lia.
  - intros k Hk. unfold at_z. set (h := ((c - 1) / 2)%nat) in *. clearbody h. replace (Z.of_nat i + Z.of_nat h - Z.of_nat k <? 0)%Z with false by lia.
    assert (B : (Z.to_nat (Z.of_nat i + Z.of_nat h - Z.of_nat k) < n)%nat) by lia. apply (repeat_spec n v). apply nth_In. rewrite repeat_length. exact B.
Qed.
End Smooth.

(** ** snip_method *)
Section Whole.
Context (e_off e_lin e_quad xmin xmax epsilon width factor : R) (sb : option R) (cv it : option nat) (threshold : R).
Notation snip := (snip_method e_off e_lin e_quad xmin xmax epsilon width factor sb cv it threshold).
Notation win := (window_p e_off e_lin e_quad epsilon width sb).
Notation c := (con_val' sb cv).
Theorem snip_safe fuel l : 0 <= xmax -> l <> [] -> snip fuel l <> Raises.
Proof.
  intros Hx Hl. destruct l as [|v l]; [contradiction|]. unfold snip_method. destruct (first_props xmin xmax (iter_num' sb it) (map squash (smooth sb cv (v :: l))) (map win (seq 0 (length (v :: l)))) Hx) as [b [E _]].
  rewrite E. pose proof (shrink_safe xmin xmax factor threshold fuel b (map win (seq 0 (length (v :: l)))) Hx) as S. destruct (shrink _ _ _ _ _ _ _); [discriminate|contradiction|discriminate].
Qed.
Lemma snip_val fuel l b : snip fuel l = Val b -> 0 <= xmax -> exists m d, first xmin xmax (iter_num' sb it) (map squash (smooth sb cv l)) (map win (seq 0 (length l))) = Some m /\
  shrink xmin xmax factor threshold fuel m (map win (seq 0 (length l))) = Val d /\ b = map stretch d.
Proof.
  intros E Hx. destruct l as [|v l]; [discriminate|]. unfold snip_method in E. destruct (first _ _ _ _ _) as [m|]; [|discriminate]. exists m.
  destruct (shrink _ _ _ _ _ _ _) as [| |d]; try discriminate. injection E as <-. exists d. auto.
Qed.
Theorem snip_bounds fuel l b : (0 < c)%nat -> 0 <= xmax -> nonneg l -> snip fuel l = Val b ->
  length b = length l /\ forall i, (i < length l)%nat -> nthR b i <= nthR (smooth sb cv l) i /\
    forall m, 0 <= m -> (forall k, (k < length l)%nat -> m <= nthR (smooth sb cv l) k) -> m <= nthR b i.
Proof.
  intros Hc Hx Hl E. destruct (snip_val fuel l b E Hx) as [m [d [E1 [E2 ->]]]].
  destruct (first_props xmin xmax (iter_num' sb it) (map squash (smooth sb cv l)) (map win (seq 0 (length l))) Hx) as [m' [E1' [B1 A1]]].
  rewrite E1 in E1'. injection E1' as <-. destruct (shrink_props xmin xmax factor threshold fuel m _ d Hx E2) as [B2 A2].
  pose proof (below_trans _ _ _ B2 B1) as [L B]. rewrite map_length, smooth_len in L. rewrite map_length. split; [exact L|]. intros i Hi.
  pose proof (smooth_nonneg sb cv Hc l Hl) as SN.
  assert (K : forall k, (k < length l)%nat -> 0 <= nthR (smooth sb cv l) k) by (intros k Hk; apply SN; rewrite smooth_len; exact Hk).
  rewrite nthR_map by lia. split.
  - specialize (B i ltac:(lia)). rewrite nthR_map in B by (rewrite smooth_len; exact Hi). rewrite <- (stretch_squash (nthR (smooth sb cv l) i)) by (apply K; exact Hi). apply stretch_mono. exact B.
  - intros w Hw HM. rewrite <- (stretch_squash w) by exact Hw. apply stretch_mono. apply (A2 (squash w)); [apply A1|lia].
    intros k Hk. rewrite map_length, smooth_len in Hk. rewrite nthR_map by (rewrite smooth_len; exact Hk). apply squash_mono; [exact Hw|apply HM; exact Hk].
Qed.
Theorem snip_monotone fuel l l' b : (0 < c)%nat -> 0 <= xmax -> nonneg l -> below l l' -> snip fuel l = Val b -> exists b', snip fuel l' = Val b' /\ below b b'.
Proof.
  intros Hc Hx Hl HB E. destruct (snip_val fuel l b E Hx) as [m [d [E1 [E2 ->]]]].
  assert (N : l' <> []). { intros ->. destruct HB as [L _]. apply length_zero_iff_nil in L. subst l. discriminate. }
  assert (HS : below (map squash (smooth sb cv l)) (map squash (smooth sb cv l'))).
  { destruct (smooth_mono sb cv Hc l l' HB) as [L H]. split; [rewrite !map_length; exact L|]. intros i Hi. rewrite map_length in Hi. rewrite !nthR_map by lia.
    apply squash_mono; [apply (smooth_nonneg sb cv Hc l Hl); exact Hi|apply H; exact Hi]. }
  destruct (first_props xmin xmax (iter_num' sb it) (map squash (smooth sb cv l')) (map win (seq 0 (length l))) Hx) as [m' [E1' _]].
  pose proof (first_mono xmin xmax _ _ _ _ _ _ Hx HS E1 E1') as Hm.
  pose proof (shrink_mono xmin xmax factor threshold fuel m m' (map win (seq 0 (length l))) Hx Hm) as Hd. rewrite E2 in Hd.
  destruct (shrink xmin xmax factor threshold fuel m' (map win (seq 0 (length l)))) as [| |d'] eqn:E2'; try contradiction.
  exists (map stretch d'). destruct HB as [L _]. split.
  - unfold snip_method. destruct l' as [|v l'']; [contradiction|]. rewrite <- L. rewrite E1', E2'. reflexivity.
  - destruct Hd as [Ld Hd]. split; [rewrite !map_length; exact Ld|]. intros i Hi. rewrite map_length in Hi. rewrite !nthR_map by lia. apply stretch_mono, Hd, Hi.
Qed.
Lemma win_ne (l : list R) : l <> [] -> map win (seq 0 (length l)) <> []. Proof. destruct l; [contradiction|discriminate]. Qed.
Theorem snip_terminates l : 0 <= xmax -> l <> [] -> 1 < factor -> 0 < threshold -> exists fuel b, forall fuel', (fuel <= fuel')%nat -> snip fuel' l = Val b.
Proof.
  intros Hx Hl Hf Ht. destruct (first_props xmin xmax (iter_num' sb it) (map squash (smooth sb cv l)) (map win (seq 0 (length l))) Hx) as [m [E1 _]].
  destruct (shrink_total xmin xmax factor threshold m _ Hx Hf Ht (win_ne l Hl)) as [fuel [d E2]]. exists fuel, (map stretch d). intros f Hle.
  pose proof (shrink_more xmin xmax factor threshold _ _ _ _ E2 f Hle) as E3. unfold snip_method. destruct l as [|v l]; [contradiction|]. rewrite E1, E3. reflexivity.
Qed.
Theorem snip_forever l k : 0 <= xmax -> 0 < factor <= 1 -> (k < length l)%nat -> 0 <= win k -> threshold <= win k -> forall fuel, snip fuel l = Running.
Proof.
  intros Hx Hf Hk H0 Ht fuel. assert (Hl : l <> []) by (destruct l; [cbn in Hk; lia|discriminate]).
  destruct (first_props xmin xmax (iter_num' sb it) (map squash (smooth sb cv l)) (map win (seq 0 (length l))) Hx) as [m [E1 _]].
  assert (M : forall l0 x, In x l0 -> x <= amax l0).
  { intros l0 x. destruct l0 as [|a r]; [intros []|]. cbn. intros H. assert (G : x = a \/ In x r) by (destruct H; auto). clear H. induction r as [|y r IH]; cbn.
    - destruct G as [->|[]]. lra.
    - pose proof (Rmax_l y (fold_right Rmax a r)). pose proof (Rmax_r y (fold_right Rmax a r)). destruct G as [G|[G|G]]; [specialize (IH (or_introl G)); lra|subst; lra|specialize (IH (or_intror G)); lra]. }
  assert (MK : win k <= amax (map win (seq 0 (length l)))) by (apply M; apply in_map; apply in_seq; lia).
  pose proof (shrink_forever xmin xmax factor threshold Hx Hf fuel m _ (win_ne l Hl) ltac:(lra) ltac:(lra)) as E2.
  unfold snip_method. destruct l as [|v l]; [contradiction|]. rewrite E1, E2. reflexivity.
Qed.
(** xmax far enough below 0 *)
Theorem snip_raises fuel (l : list R) : xmax <= - INR (length l) - 1 -> (0 < iter_num' sb it)%nat -> snip fuel l = Raises.
Proof.
  intros Hx Hi. destruct l as [|v l]; [reflexivity|]. unfold snip_method. set (L := v :: l) in *. destruct (iter_num' sb it) as [|k]; [lia|]. cbn [first].
  assert (E : snip1 xmin xmax (map squash (smooth sb cv L)) (map win (seq 0 (length L))) = None); [|rewrite E; reflexivity].
  unfold snip1. assert (Ln : length (map squash (smooth sb cv L)) = length L) by (rewrite map_length, smooth_len; reflexivity).
  apply (all_some_none _ _ 0%nat); [apply in_seq; rewrite Ln; cbn; lia|]. unfold point. rewrite Ln.
  match goal with |- context [index_of _ _ _ _ ?w] => assert (Ei : index_of xmin xmax (length L) 0 w = None) end; [|rewrite Ei; reflexivity].
  unfold index_of. unfold clip. rewrite (Rmin_right (Rmax _ _) (hi_lim xmax (length L))).
  - unfold hi_lim. rewrite Rmin_left by (pose proof (pos_INR (length L)); lra). unfold trunc. pose proof (pos_INR (length L)). destruct (Rlt_dec xmax 0); [|lra].
    pose proof (Int_part_le (- xmax)) as [B1 B2]. unfold pyindex.
    assert (B : (Z.of_nat (length L) < Int_part (- xmax))%Z). { apply lt_IZR. rewrite <- INR_IZR_INZ. lra. }
    set (t := Int_part (- xmax)) in *. clearbody t. replace ((0 <=? - t)%Z && (- t <? Z.of_nat (length L))%Z) with false by lia. replace ((- Z.of_nat (length L) <=? - t)%Z && (- t <? 0)%Z) with false by lia. reflexivity.
  - unfold hi_lim. pose proof (Rmin_l xmax (INR (length L) - 1)). pose proof (pos_INR (length L)). pose proof (Rmax_r xmin 0). fold (lo_lim xmin) in *. pose proof (Rmax_r (INR 0 + - nthR (map win (seq 0 (length L))) 0) (lo_lim xmin)). lra.
Qed.
End Whole.

(** ** A peak removed *)
Lemma trunc_is x z : (0 <= z)%Z -> IZR z <= x < IZR z + 1 -> trunc x = z.
Proof.
  intros Hz H. unfold trunc. apply IZR_le in Hz. destruct (Rlt_dec x 0); [lra|]. pose proof (Int_part_le x). apply Z.le_antisymm; apply Z.lt_succ_r; apply lt_IZR; unfold Z.succ; rewrite plus_IZR; lra.
Qed.
Lemma index_is xmin xmax n i w k : (k < n)%nat -> INR k <= clip (INR i + w) (lo_lim xmin) (hi_lim xmax n) < INR k + 1 -> index_of xmin xmax n i w = Some k.
Proof.
  intros Hk H. unfold index_of. rewrite (trunc_is _ (Z.of_nat k)); [|lia|rewrite <- INR_IZR_INZ; exact H].
  unfold pyindex. replace ((0 <=? Z.of_nat k)%Z && (Z.of_nat k <? Z.of_nat n)%Z) with true by lia. f_equal. lia.
Qed.
Lemma clip3 x : clip x (lo_lim 0) (hi_lim 4096 3) = Rmin (Rmax x 0) 2.
Proof. unfold clip, lo_lim, hi_lim. rewrite (Rmax_left 0 0) by lra. cbn. rewrite (Rmin_right 4096) by lra. f_equal. lra. Qed.
Lemma peak_removed : snip1 0 4096 [0; 9; 4] [1; 1; 1] = Some [0; 2; 4].
Proof.
  unfold snip1. cbn [length seq map]. assert (I : forall i w k, (k < 3)%nat -> INR k <= Rmin (Rmax (INR i + w) 0) 2 < INR k + 1 -> index_of 0 4096 3 i w = Some k).
  { intros i w k Hk H. apply index_is; [exact Hk|]. rewrite clip3. exact H. }
  unfold point, nthR. cbn [length nth].
  rewrite (I 0%nat (Ropp 1) 0%nat), (I 0%nat 1 1%nat), (I 1%nat (Ropp 1) 0%nat), (I 1%nat 1 2%nat), (I 2%nat (Ropp 1) 1%nat), (I 2%nat 1 2%nat);
    try lia; try (cbn; unfold Rmin, Rmax; repeat (destruct (Rle_dec _ _)); lra).
  cbn [bind nth all_some]. repeat (destruct (Rlt_dec _ _)); cbn [bind]; try lra. repeat f_equal; lra.
Qed.
