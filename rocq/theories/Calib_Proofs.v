From Coq Require Import Reals Sorted String.
From Verif Require Import Common Peak_Model Peak_Spec Peak_Proofs QSpace_Model Powder_Model Calib_Model Calib_Spec.
From Coq Require Import Lra.
Local Open Scope R_scope.
Local Open Scope list_scope.
Notation length := List.length.

Lemma rltb_true a b : rltb a b = true <-> a < b.
Proof. unfold rltb. destruct (Rlt_dec a b); intuition discriminate. Qed.
Lemma rleb_true a b : rleb a b = true <-> a <= b.
Proof. unfold rleb. destruct (Rle_dec a b); intuition discriminate. Qed.
Lemma rmaxl_spec l : forall a, (forall v, In v (a :: l) -> v <= rmaxl a l) /\ In (rmaxl a l) (a :: l).
Proof.
  induction l as [|b l IH]; intros a; cbn [rmaxl]; [split; [intros v [->|[]]; lra|now left]|].
  unfold rltb. destruct (Rlt_dec a b) as [H|H].
  - destruct (IH b) as [U I]. split; [|right; exact I]. intros v [<-|Hv]; [|now apply U]. pose proof (U b ltac:(now left)). lra.
  - destruct (IH a) as [U I]. split; [|destruct I as [I|I]; [now left|right; now right]].
    intros v [<-|[<-|Hv]]; [apply U; now left| |apply U; now right]. pose proof (U a ltac:(now left)). lra.
Qed.
Lemma rminl_spec l : forall a, (forall v, In v (a :: l) -> rminl a l <= v) /\ In (rminl a l) (a :: l).
Proof.
  induction l as [|b l IH]; intros a; cbn [rminl]; [split; [intros v [->|[]]; lra|now left]|].
  unfold rltb. destruct (Rlt_dec b a) as [H|H].
  - destruct (IH b) as [U I]. split; [|right; exact I]. intros v [<-|Hv]; [|now apply U]. pose proof (U b ltac:(now left)). lra.
  - destruct (IH a) as [U I]. split; [|destruct I as [I|I]; [now left|right; now right]].
    intros v [<-|[<-|Hv]]; [apply U; now left| |apply U; now right]. pose proof (U a ltac:(now left)). lra.
Qed.
Lemma np_max_ok l : l <> [] -> exists m, np_max l = Some m /\ In m l /\ forall v, In v l -> v <= m.
Proof. destruct l as [|a l]; [easy|]. intros _. exists (rmaxl a l). destruct (rmaxl_spec l a). auto. Qed.
Lemma np_min_ok l : l <> [] -> exists m, np_min l = Some m /\ In m l /\ forall v, In v l -> m <= v.
Proof. destruct l as [|a l]; [easy|]. intros _. exists (rminl a l). destruct (rminl_spec l a). auto. Qed.

(** ** samples *)
Lemma sample_at y i : (0 <= i < Z.of_nat (length y))%Z -> sample y i (at_ y i).
Proof. intros H. split; [lia|]. unfold at_. apply nth_error_nth'. lia. Qed.
Lemma sample_fun y i a b : sample y i a -> sample y i b -> a = b.
Proof. intros [_ A] [_ B]. congruence. Qed.
Lemma sample_range y i a : sample y i a -> (0 <= i < Z.of_nat (length y))%Z.
Proof. intros [P A]. assert (nth_error y (Z.to_nat i) <> None) by congruence. apply nth_error_Some in H. lia. Qed.
Lemma sample_in y i a : sample y i a -> In a y.
Proof. intros [_ A]. eapply nth_error_In; eauto. Qed.
(** ** candidates *)
Lemma is_cand_ok y w i : (1 <= w)%Z -> (0 <= i < Z.of_nat (length y))%Z -> is_cand y w i = true <-> local_max y w i.
Proof.
  intros Hw Hi. unfold is_cand. rewrite forallb_forall. set (n := Z.of_nat (length y)) in *. split.
  - intros H. assert (G : forall s, (1 <= s <= w)%Z -> at_ y (clip n (i + s)) < at_ y i /\ at_ y (clip n (i - s)) < at_ y i).
    { intros s Hs. specialize (H (Z.to_nat s) ltac:(apply in_seq; lia)). cbv zeta in H. rewrite Z2Nat.id in H by lia.
      apply andb_prop in H as [A B]. rewrite rltb_true in A, B. auto. }
    split.
    + destruct (G 1%Z ltac:(lia)) as [A B]. split.
      * destruct (Z.eq_dec i 0) as [->|]; [|lia]. unfold clip in B. replace (Z.max 0 (Z.min (n - 1) (0 - 1))) with 0%Z in B by lia. lra.
      * fold n. destruct (Z.eq_dec i (n - 1)) as [->|]; [|lia]. unfold clip in A. replace (Z.max 0 (Z.min (n - 1) (n - 1 + 1))) with (n - 1)%Z in A by lia. lra.
    + intros j a b Hj Hd Sa Sb. rewrite (sample_fun _ _ _ _ Sb (sample_at y i Hi)). pose proof (sample_range _ _ _ Sa) as Rj. fold n in Rj.
      rewrite (sample_fun _ _ _ _ Sa (sample_at y j Rj)). destruct (Z.lt_ge_cases j i) as [L|L].
      * destruct (G (i - j)%Z ltac:(lia)) as [_ B]. unfold clip in B. replace (Z.max 0 (Z.min (n - 1) (i - (i - j)))) with j in B by lia. exact B.
      * destruct (G (j - i)%Z ltac:(lia)) as [A _]. unfold clip in A. replace (Z.max 0 (Z.min (n - 1) (i + (j - i)))) with j in A by lia. exact A.
  - intros [B M] s Hs. apply in_seq in Hs. fold n in B. cbv zeta.
    assert (G : forall k, (0 <= k < n)%Z -> k <> i -> (Z.abs (k - i) <= w)%Z -> at_ y k < at_ y i).
    { intros k Hk N D. eapply M; eauto; now apply sample_at. }
    apply andb_true_intro. rewrite !rltb_true. unfold clip. split; apply G; lia.
Qed.
Lemma argrelmax_ok y w : (1 <= w)%Z -> exists l, argrelmax y w = Some l /\ StronglySorted Z.lt l /\ forall i, In i l <-> local_max y w i.
Proof.
  intros Hw. unfold argrelmax. replace (w <? 1)%Z with false by lia. eexists. split; [reflexivity|]. split.
  - assert (S : forall n s, StronglySorted Z.lt (map Z.of_nat (seq s n))).
    { induction n as [|n IH]; intros s; cbn; constructor; [apply IH|]. apply Forall_forall. intros z Hz. apply in_map_iff in Hz as (k & <- & Hk). apply in_seq in Hk. lia. }
    specialize (S (length y) 0%nat). induction S as [|a l S IH F]; cbn; [constructor|]. destruct (is_cand y w a); [|exact IH]. constructor; [exact IH|].
    apply Forall_forall. intros z Hz. apply filter_In in Hz as [Hz _]. eapply Forall_forall in F; eauto.
  - intros i. rewrite filter_In, in_map_iff. split.
    + intros [(k & <- & Hk) C]. apply in_seq in Hk. apply is_cand_ok in C; [exact C|exact Hw|lia].
    + intros L. pose proof (proj1 L). split; [exists (Z.to_nat i); rewrite in_seq; lia|]. apply is_cand_ok; [exact Hw|lia|exact L].
Qed.
Lemma window_ne {A} (y : list A) i w : (0 <= i < Z.of_nat (length y))%Z -> (0 <= w)%Z -> window_of (Z.of_nat (length y)) y i w <> [].
Proof. intros Hi Hw E. destruct (window_around y i w Hi Hw) as (lo & -> & L & _). rewrite E in L. cbn in L. lia. Qed.
Lemma window_in y i w v : (0 <= i < Z.of_nat (length y))%Z -> (0 <= w)%Z -> In v (window_of (Z.of_nat (length y)) y i w) <-> exists j, (Z.abs (j - i) <= w)%Z /\ sample y j v.
Proof.
  intros Hi Hw. rewrite (around_in y i w _ Hi Hw (window_around y i w Hi Hw)). split.
  - intros (k & D & E). exists (Z.of_nat k). split; [exact D|]. split; [lia|]. now rewrite Nat2Z.id.
  - intros (j & D & P & E). exists (Z.to_nat j). rewrite Z2Nat.id by lia. auto.
Qed.
Lemma filter_height_ok y w t : (0 <= w)%Z -> forall l, (forall i, In i l -> (0 <= i < Z.of_nat (length y))%Z) -> StronglySorted Z.lt l ->
  exists r, filter_height y l t w = Some r /\ StronglySorted Z.lt r /\
  forall i, In i r <-> In i l /\ exists j k a b, (Z.abs (j - i) <= w)%Z /\ (Z.abs (k - i) <= w)%Z /\ sample y j a /\ sample y k b /\ t < a - b.
Proof.
  intros Hw. induction l as [|i l IH]; intros V S; cbn [filter_height]; [exists []; split; [reflexivity|]; split; [constructor|]; cbn; tauto|].
  inversion S as [|? ? S' F]; subst. assert (Hi : (0 <= i < Z.of_nat (length y))%Z) by (apply V; now left).
  destruct (np_max_ok _ (window_ne y i w Hi Hw)) as (hi & -> & Ihi & Uhi). destruct (np_min_ok _ (window_ne y i w Hi Hw)) as (lo & -> & Ilo & Ulo).
  destruct (IH ltac:(intros; apply V; now right) S') as (r & -> & Sr & Hr). cbn [bind]. eexists. split; [reflexivity|].
  assert (T : t < hi - lo <-> exists j k a b, (Z.abs (j - i) <= w)%Z /\ (Z.abs (k - i) <= w)%Z /\ sample y j a /\ sample y k b /\ t < a - b).
  { split.
    - intros T. apply window_in in Ihi as (j & Dj & Sj); [|exact Hi|exact Hw]. apply window_in in Ilo as (k & Dk & Sk); [|exact Hi|exact Hw]. exists j, k, hi, lo. auto.
    - intros (j & k & a & b & Dj & Dk & Sa & Sb & T). pose proof (Uhi a ltac:(apply window_in; [exact Hi|exact Hw|eauto])). pose proof (Ulo b ltac:(apply window_in; [exact Hi|exact Hw|eauto])). lra. }
  destruct (rltb t (hi - lo)) eqn:E.
  - apply rltb_true in E. split.
    + constructor; [exact Sr|]. apply Forall_forall. intros z Hz. apply Hr in Hz as [Hz _]. eapply Forall_forall in F; eauto.
    + intros z. cbn [In]. rewrite Hr. split; [intros [<-|[A B]]; auto; split; [now left|now apply T]|]. intros [[->|A] B]; auto.
  - assert (N : ~ t < hi - lo) by (rewrite <- rltb_true; congruence). split; [exact Sr|]. intros z. rewrite Hr. cbn [In]. split; [tauto|].
    intros [[->|A] B]; [exfalso; apply N; now apply T|auto].
Qed.
Lemma sorted_same l l' : StronglySorted Z.lt l -> StronglySorted Z.lt l' -> (forall i, In i l <-> In i l') -> l = l'.
Proof.
  intros S. revert l'. induction S as [|a l S IH F]; intros l' S' H.
  - destruct l' as [|b l']; [reflexivity|]. exfalso. apply (H b). now left.
  - destruct S' as [|b l' S' F']; [exfalso; apply (H a); now left|]. assert (a = b).
    { destruct (proj1 (H a) ltac:(now left)) as [->|Ia]; [reflexivity|]. destruct (proj2 (H b) ltac:(now left)) as [->|Ib]; [reflexivity|].
      eapply Forall_forall in F; [|exact Ib]. eapply Forall_forall in F'; [|exact Ia]. lia. }
    subst b. f_equal. apply IH; [exact S'|]. intros i. specialize (H i). cbn [In] in H. split; intros I.
    + destruct (proj1 H (or_intror I)) as [->|]; [|assumption]. eapply Forall_forall in F; [|exact I]. lia.
    + destruct (proj2 H (or_intror I)) as [->|]; [|assumption]. eapply Forall_forall in F'; [|exact I]. lia.
Qed.
Lemma find_peaks_ok y w t ps : (1 <= w)%Z -> y <> [] -> peaks_at y w t ps -> find_peaks y w t = Some ps.
Proof.
  intros Hw Hy [S P]. unfold find_peaks. destruct (argrelmax_ok y w Hw) as (l & -> & Sl & Hl). destruct (np_max_ok y Hy) as (m & -> & Im & Um). cbn [bind].
  destruct (filter_height_ok y w (t * m) ltac:(lia) l ltac:(intros i Hi; apply Hl in Hi; destruct Hi; lia) Sl) as (r & -> & Sr & Hr). f_equal.
  apply sorted_same; [exact Sr|exact S|]. intros i. rewrite Hr, P, Hl. split.
  - intros (A & j & k & a & b & Q). split; [exact A|]. intros m' Im' Um'. assert (m' = m) by (apply Rle_antisym; [now apply Um|now apply Um']). subst m'. eauto 10.
  - intros [A B]. split; [exact A|]. now apply B.
Qed.
Lemma peaks_exist y w t : (1 <= w)%Z -> y <> [] -> exists ps, peaks_at y w t ps.
Proof.
  intros Hw Hy. destruct (argrelmax_ok y w Hw) as (l & _ & Sl & Hl). destruct (np_max_ok y Hy) as (m & _ & Im & Um).
  destruct (filter_height_ok y w (t * m) ltac:(lia) l ltac:(intros i Hi; apply Hl in Hi; destruct Hi; lia) Sl) as (r & _ & Sr & Hr). exists r. split; [exact Sr|].
  intros i. rewrite Hr, Hl. split.
  - intros (A & j & k & a & b & Q). split; [exact A|]. intros m' Im' Um'. assert (m' = m) by (apply Rle_antisym; [now apply Um|now apply Um']). subst m'. eauto 10.
  - intros [A B]. split; [exact A|]. now apply B.
Qed.

(** ** estimate_d_blind *)
Lemma total_rsuml l : total l = rsuml l. Proof. induction l as [|a l IH]; cbn; congruence. Qed.
Lemma mean_ok l : l <> [] -> mean_of l (mean l).
Proof.
  intros N. unfold mean_of, mean. change (total l) with (rsuml l). field. apply not_0_INR. destruct l; [easy|discriminate].
Qed.
Lemma rsuml_sq l m : 0 <= rsuml (map (fun v => (v - m) * (v - m)) l).
Proof. apply rsuml_nonneg. apply Forall_map. apply Forall_forall. intros v _. apply sq_nn. Qed.
Lemma std_ok l : l <> [] -> std_of l (mean l) (sqrt (mean (map (fun x => (x - mean l) * (x - mean l)) l))).
Proof.
  intros N. assert (Hn : 0 < INR (length l)) by (apply lt_0_INR; destruct l; [easy|cbn; lia]). split; [apply sqrt_pos|].
  generalize (mean l). intros m. unfold mean. rewrite map_length. rewrite sqrt_sqrt.
  - change total with rsuml. field. lra.
  - unfold Rdiv. apply Rmult_le_pos; [apply rsuml_sq|]. left. now apply Rinv_0_lt_compat.
Qed.
Lemma mapM_some {A} (l : list A) : mapM (fun x => x) (map Some l) = Some l.
Proof. induction l as [|a l IH]; cbn; [reflexivity|]. now rewrite IH. Qed.
Lemma mapM_none {A} (l : list (option A)) : In None l -> mapM (fun x => x) l = None.
Proof. induction l as [|a l IH]; [easy|]. intros [->|H]; [reflexivity|]. cbn. rewrite IH by exact H. now destruct a. Qed.
Lemma np_mean_ok l : l <> [] -> np_mean (map Some l) = Some (mean l) /\ np_std (map Some l) = Some (sqrt (mean (map (fun x => (x - mean l) * (x - mean l)) l))).
Proof. intros N. unfold np_mean, np_std. rewrite mapM_some. cbn [bind]. destruct l; [easy|]. auto. Qed.

Lemma asin_bragg wl r th : 0 <= th <= PI -> 4 * PI * sin (th / 2) = q_ r * wl -> q_to_twotheta (q_ r) wl = th.
Proof.
  intros H E. pose proof PI_RGT_0. unfold q_to_twotheta. replace (q_ r * (wl / (4 * PI))) with (sin (th / 2)) by (apply (Rmult_eq_reg_l (4 * PI)); [rewrite E; field; lra|lra]).
  rewrite asin_sin by lra. field.
Qed.
Lemma cos_half_pi th : 0 <= th <= PI -> th <> PI / 2 -> cos th <> 0.
Proof.
  intros H N E. destruct (Rtotal_order th (PI / 2)) as [L|[L|L]]; [|contradiction|].
  - pose proof (cos_gt_0 th ltac:(lra) L). lra.
  - pose proof (cos_lt_0 th L ltac:(lra)). lra.
Qed.
Lemma tan_ok wl r t : tangent wl r t -> tan_2theta wl r = Some t.
Proof.
  intros (th & H & E & N & ->). pose proof PI_RGT_0. unfold tan_2theta.
  assert (Q : q_ r * wl / (4 * PI) = sin (th / 2)) by (rewrite <- E; field; lra). rewrite Q.
  assert (B : rleb (Rabs (sin (th / 2))) 1 = true) by (apply rleb_true, Rabs_le, SIN_bound). rewrite B. rewrite (asin_bragg wl r th H E).
  destruct (Req_EM_T (cos th) 0) as [Z|]; [|reflexivity]. destruct (cos_half_pi th H N Z).
Qed.
Lemma tan_nan wl r : ~ (Rabs (q_ r * wl) <= 4 * PI) -> tan_2theta wl r = None.
Proof.
  intros N. pose proof PI_RGT_0. unfold tan_2theta. destruct (rleb (Rabs (q_ r * wl / (4 * PI))) 1) eqn:E; [|reflexivity]. apply rleb_true in E. exfalso. apply N.
  unfold Rdiv in E. rewrite Rabs_mult, (Rabs_right (/ (4 * PI))) in E by (left; apply Rinv_0_lt_compat; lra).
  apply (Rmult_le_compat_r (4 * PI)) in E; [|lra]. rewrite Rmult_assoc, Rinv_l, Rmult_1_r in E by lra. lra.
Qed.
Section Blind.
Context (lstsq : list R -> list R -> beta) (LS : least_squares lstsq).
Lemma refine_peaks x y w ps : length x = length y -> (1 <= w)%Z -> forall cs, length cs = length ps ->
  (forall k p c, nth_error ps k = Some p -> nth_error cs k = Some c -> (0 <= p < Z.of_nat (length x))%Z /\ gaussian_at x y w p c) ->
  exists hs, length hs = length ps /\ refine_all (refine_log_quadratic lstsq None) x y w ps = Some (combine (map Some cs) hs).
Proof.
  intros L Hw. induction ps as [|p ps IH]; intros cs Lc H.
  - destruct cs; [|discriminate]. exists []. auto.
  - destruct cs as [|c cs]; [discriminate|]. destruct (H 0%nat p c eq_refl eq_refl) as (Hp & h & s & xs & Ph & Ps & Ax & Ay & T).
    destruct (IH cs ltac:(cbn in Lc; lia) ltac:(intros k; exact (H (S k)))) as (hs & Lh & E). exists (Some h :: hs). split; [cbn; congruence|].
    cbn [refine_all]. rewrite (around_unique x p w _ _ (window_around x p w Hp ltac:(lia)) Ax).
    assert (Ay' : window_of (Z.of_nat (length x)) y p w = map (gauss_peak h c s) xs) by (rewrite L in *; exact (around_unique y p w _ _ (window_around y p w Hp ltac:(lia)) Ay)).
    rewrite Ay'. rewrite (refine_log_exact lstsq LS None xs h c s Ph Ps T ltac:(discriminate)). rewrite E. reflexivity.
Qed.
Lemma pyslice_firstn {A} (l : list A) k : (k <= length l)%nat -> pyslice l 0 (Z.of_nat k) = firstn k l.
Proof.
  intros H. unfold pyslice. cbv zeta. replace (pybound (Z.of_nat (length l)) 0) with 0%Z by (unfold pybound; destruct (Z.ltb_spec 0 0); lia).
  replace (pybound (Z.of_nat (length l)) (Z.of_nat k)) with (Z.of_nat k) by (unfold pybound; destruct (Z.ltb_spec (Z.of_nat k) 0); lia). rewrite Nat2Z.id. cbn. now rewrite ?Nat.sub_0_r.
Qed.
Lemma map_fst_combine_some {A B} (l : list A) (r : list B) : length r = length l -> map fst (combine l r) = l.
Proof. revert r. induction l as [|a l IH]; intros [|b r]; cbn; intros H; try discriminate; [reflexivity|]. f_equal. apply IH. lia. Qed.
(** the list of ratios the two statistics are taken over *)
Lemma blind_run standards name wl x y w mx thr cal ps cs : standards name = Some cal -> length x = length y -> (1 <= w)%Z -> (0 <= mx)%Z ->
  peaks_at y w thr ps -> ps <> [] -> length cs = length ps -> (forall k p c, nth_error ps k = Some p -> nth_error cs k = Some c -> gaussian_at x y w p c) ->
  let n := Nat.min (Nat.min (length cal) (length ps)) (Z.to_nat mx) in
  let d := map (fun p => opt_div (Some (fst p)) (tan_2theta wl (snd p))) (combine (firstn n cs) (firstn n cal)) in
  estimate_d_blind lstsq standards name wl x y w mx thr = Some (np_mean d, np_std d).
Proof.
  intros Hs L Hw Hm P Hps Lc G n d. assert (Hy : y <> []).
  { intros ->. destruct ps as [|p ps]; [easy|]. destruct P as [_ P]. destruct (proj1 (P p) ltac:(now left)) as [[B _] _]. cbn in B. lia. }
  unfold estimate_d_blind. rewrite Hs. cbn [bind]. rewrite (find_peaks_ok y w thr ps Hw Hy P). cbn [bind].
  destruct (refine_peaks x y w ps L Hw cs Lc) as (hs & Lh & E).
  { intros k p c Ep Ec. split; [|eauto]. pose proof (proj2 P p) as [Q _]. destruct (Q (nth_error_In _ _ Ep)) as [[B _] _]. lia. }
  unfold peak_refinement. rewrite E. cbn [bind].
  destruct (combine (map Some cs) hs) as [|z zs] eqn:Ez.
  { destruct ps; [easy|]. destruct cs; [discriminate|]. destruct hs; discriminate. }
  cbn [bind]. rewrite <- Ez. rewrite (map_fst_combine_some (map Some cs) hs) by (rewrite map_length; congruence). cbn [fst].
  rewrite !map_length.
  assert (En : Z.min (Z.min (Z.of_nat (length cal)) (Z.of_nat (length cs))) mx = Z.of_nat n) by (unfold n; lia). rewrite En.
  rewrite !pyslice_firstn by (rewrite map_length; unfold n; lia). unfold zip_div. rewrite !firstn_length, !map_length.
  replace (Nat.min n (length cs) =? Nat.min n (length cal))%nat with true by (unfold n; symmetry; apply Nat.eqb_eq; lia). cbn [bind].
  assert (D : map (fun p => opt_div (fst p) (snd p)) (combine (firstn n (map Some cs)) (firstn n (map (tan_2theta wl) cal))) = d); [|now rewrite D].
  unfold d. clearbody n. clear. revert cs cal. induction n as [|n0 IH]; intros cs cal; [reflexivity|]. destruct cs as [|c cs]; [reflexivity|]. destruct cal as [|r cal]; [reflexivity|].
  cbn [firstn map combine fst snd]. f_equal. apply IH.
Qed.
Theorem blind_ok standards name wl x y w mx thr cal ps cs n ts ds : standards name = Some cal -> length x = length y -> (1 <= w)%Z -> (0 < mx)%Z ->
  peaks_at y w thr ps -> length cs = length ps -> (forall k p c, nth_error ps k = Some p -> nth_error cs k = Some c -> gaussian_at x y w p c) ->
  Z.of_nat n = Z.min (Z.min (Z.of_nat (length cal)) (Z.of_nat (length ps))) mx -> (0 < n)%nat ->
  length ts = n -> (forall k r t, nth_error cal k = Some r -> nth_error ts k = Some t -> t <> 0 /\ tangent wl r t) ->
  length ds = n -> (forall k c t d, nth_error cs k = Some c -> nth_error ts k = Some t -> nth_error ds k = Some d -> d * t = c) ->
  exists m s, estimate_d_blind lstsq standards name wl x y w mx thr = Some (Some m, Some s) /\ mean_of ds m /\ std_of ds m s.
Proof.
  intros Hs L Hw Hm P Lc G En Hn Lt Ht Ld Hd. assert (ps <> []) by (intros ->; cbn in En; lia).
  pose proof (blind_run standards name wl x y w mx thr cal ps cs Hs L Hw ltac:(lia) P H Lc G) as E. cbv zeta in E.
  replace (Nat.min (Nat.min (length cal) (length ps)) (Z.to_nat mx)) with n in E by lia.
  assert (D : map (fun p => opt_div (Some (fst p)) (tan_2theta wl (snd p))) (combine (firstn n cs) (firstn n cal)) = map Some ds).
  { assert (L1 : (n <= length cs)%nat) by lia. assert (L2 : (n <= length cal)%nat) by lia. clear - Ht Hd Lt Ld L1 L2. revert cs cal ts ds Ht Hd Lt Ld L1 L2.
    induction n as [|n IH]; intros cs cal ts ds Ht Hd Lt Ld L1 L2; [destruct ds; [reflexivity|discriminate]|].
    destruct cs as [|c cs]; [cbn in L1; lia|]. destruct cal as [|r cal]; [cbn in L2; lia|]. destruct ts as [|t ts]; [discriminate|]. destruct ds as [|d ds]; [discriminate|].
    cbn [firstn combine map fst snd]. destruct (Ht 0%nat r t eq_refl eq_refl) as [Nt Tt]. rewrite (tan_ok wl r t Tt). unfold opt_div at 1. cbn [bind]. unfold fin_div.
    destruct (Req_EM_T t 0); [contradiction|]. pose proof (Hd 0%nat c t d eq_refl eq_refl eq_refl) as Q. f_equal; [f_equal; rewrite <- Q; field; exact Nt|].
    apply (IH cs cal ts ds); [intros k; exact (Ht (S k))|intros k; exact (Hd (S k))|cbn in *; lia|cbn in *; lia|cbn in *; lia|cbn in *; lia]. }
  rewrite D in E. assert (Nd : ds <> []) by (intros ->; cbn in Ld; lia). destruct (np_mean_ok ds Nd) as [M S]. rewrite M, S in E.
  exists (mean ds), (sqrt (mean (map (fun x0 => (x0 - mean ds) * (x0 - mean ds)) ds))). split; [exact E|]. split; [now apply mean_ok|now apply std_ok].
Qed.
Theorem blind_nan standards name wl x y w mx thr cal ps cs k r : standards name = Some cal -> length x = length y -> (1 <= w)%Z ->
  peaks_at y w thr ps -> length cs = length ps -> (forall k p c, nth_error ps k = Some p -> nth_error cs k = Some c -> gaussian_at x y w p c) ->
  nth_error cal k = Some r -> (k < length ps)%nat -> (Z.of_nat k < mx)%Z -> ~ (Rabs (q_ r * wl) <= 4 * PI) ->
  estimate_d_blind lstsq standards name wl x y w mx thr = Some (None, None).
Proof.
  intros Hs L Hw P Lc G Er Hk Hm N. assert (ps <> []) by (intros ->; cbn in Hk; lia).
  pose proof (blind_run standards name wl x y w mx thr cal ps cs Hs L Hw ltac:(lia) P H Lc G) as E. cbv zeta in E.
  set (n := Nat.min (Nat.min (length cal) (length ps)) (Z.to_nat mx)) in *.
  assert (Lk : (k < length cal)%nat) by (apply nth_error_Some; congruence).
  assert (I : In None (map (fun p => opt_div (Some (fst p)) (tan_2theta wl (snd p))) (combine (firstn n cs) (firstn n cal)))).
  { destruct (nth_error cs k) as [c|] eqn:Ec; [|apply nth_error_None in Ec; lia]. apply in_map_iff. exists (c, r). cbn [fst snd]. rewrite (tan_nan wl r N). split; [reflexivity|].
    apply (nth_error_In _ k). assert (Q : forall {A} (l : list A) n k, (k < n)%nat -> nth_error (firstn n l) k = nth_error l k).
    { intros A l. induction l as [|a l IH]; intros [|m] [|j] Hj; cbn; try reflexivity; try lia. apply IH. lia. }
    assert (C : forall {A B} (a : list A) (b : list B) k x y, nth_error a k = Some x -> nth_error b k = Some y -> nth_error (combine a b) k = Some (x, y)).
    { clear. intros A B a. induction a as [|x a IH]; intros [|y b] [|k] u v; cbn; intros; try discriminate; [congruence|eauto]. }
    apply C; rewrite Q by (unfold n; lia); assumption. }
  rewrite E. unfold np_mean, np_std. rewrite (mapM_none _ I). reflexivity.
Qed.
Theorem blind_no_peaks standards name wl x y w mx thr : (1 <= w)%Z -> peaks_at y w thr [] -> estimate_d_blind lstsq standards name wl x y w mx thr = None.
Proof.
  intros Hw P. unfold estimate_d_blind. destruct (standards name) as [cal|]; [|reflexivity]. cbn [bind].
  destruct y as [|y0 y']. { unfold find_peaks. destruct (argrelmax [] w); reflexivity. }
  rewrite (find_peaks_ok (y0 :: y') w thr [] Hw ltac:(discriminate) P). cbn. reflexivity.
Qed.
End Blind.
