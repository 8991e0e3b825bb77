From Verif Require Import Common QcArith Utils_Model RingAuto_Model RingAuto_Spec.
From Coq Require Import Permutation Qround.
Local Open Scope list_scope.

Definition pt_dec (x y : nat * nat) : {x = y} + {x <> y}.
Proof. repeat decide equality. Defined.
Lemma inj_some {A} (x y : A) : Some x = Some y -> x = y. Proof. congruence. Qed.
Lemma qtrunc_whole q : whole q (qtrunc q).
Proof.
  unfold whole, qtrunc. destruct (Qc_leb_spec 0%Qc q) as [H|H].
  - left. split; [exact H|]. destruct (Qfloor_qc q) as [A B]. split; [exact A|]. rewrite qz_add, qz_1. exact B.
  - right. split; [qclra|]. split.
    + unfold Qclt. rewrite qz_this. apply Qceiling_lt.
    + unfold Qcle. rewrite qz_this. apply Qle_ceiling.
Qed.
Lemma whole_unique q a b : whole q a -> whole q b -> a = b.
Proof.
  unfold whole. intros [(A1 & A2 & A3)|(A1 & A2 & A3)] [(B1 & B2 & B3)|(B1 & B2 & B3)]; try (exfalso; qclra).
  - assert (a < b + 1)%Z by (apply (proj1 (qz_lt _ _)); qclra). assert (b < a + 1)%Z by (apply (proj1 (qz_lt _ _)); qclra). lia.
  - assert (a - 1 < b)%Z by (apply (proj1 (qz_lt _ _)); qclra). assert (b - 1 < a)%Z by (apply (proj1 (qz_lt _ _)); qclra). lia.
Qed.

Lemma marked_total {A} b (l : list A) m : length m = length l -> exists r, marked b l m r.
Proof.
  revert m. induction l as [|a l IH]; intros [|x m]; cbn; intros E; try discriminate.
  - exists []. constructor.
  - destruct (IH m) as [r H]; [lia|]. destruct b, x.
    + exists (a :: r). now constructor.
    + exists r. now apply (marked_no true).
    + exists r. now apply (marked_no false).
    + exists (a :: r). now constructor.
Qed.
Lemma marked_false_filter {A} (l : list A) m : length m = length l ->
  marked false l m (map fst (filter (fun t => negb (snd t)) (combine l m))).
Proof.
  revert m. induction l as [|a l IH]; intros [|x m]; cbn; intros E; try discriminate; [constructor|].
  destruct x; cbn; [apply (marked_no false)|apply marked_yes]; apply IH; lia.
Qed.
Lemma marked_perm {A} (l : list A) m r s : marked true l m r -> marked false l m s -> Permutation l (r ++ s).
Proof.
  intros H. revert s. induction H as [|a l m r H IH|a l m r H IH]; intros s K; inversion K; subst; try discriminate; cbn.
  - constructor.
  - constructor. auto.
  - eapply perm_trans; [constructor; apply IH; eassumption|]. apply Permutation_middle.
Qed.

Section Auto.
Variables (ransac : nat -> list (nat * nat) -> option (circle * list bool)) (perimeter : Z -> Z -> Z -> list (nat * nat)).
Variables (h w : nat).
Notation ring := (RingAuto_Model.ring ransac perimeter h w).
Notation good_round := (RingAuto_Spec.good_round ransac).
Notation drawn := (RingAuto_Spec.drawn perimeter).
Notation painted := (RingAuto_Spec.painted h w).
Notation auto := (auto_find_center_rings ransac perimeter h w).

Lemma flat_inj i j i' j' : (j < w) -> (j' < w) -> (i * w + j = i' * w + j') -> i = i' /\ j = j'.
Proof. intros H1 H2 E. assert (i = i') by nia. subst. split; [reflexivity|lia]. Qed.
Lemma paint_inv v pts : forall img img', paint h w v img pts = Some img' ->
  length img' = length img /\ (forall p, In p pts -> fst p < h /\ snd p < w) /\
  forall i j, j < w -> (In (i, j) pts -> nth_error img' (i * w + j) = Some v) /\ (~ In (i, j) pts -> nth_error img' (i * w + j) = nth_error img (i * w + j)).
Proof.
  unfold paint. induction pts as [|[a b] pts IH]; intros img img'; cbn [foldM].
  - intros E. apply inj_some in E. subst. split; [reflexivity|]. split; [intros ? []|]. intros i j Hj. split; [intros []|reflexivity].
  - cbn [fst snd]. destruct ((a <? h) && (b <? w)) eqn:R; [|discriminate]. destruct (upd img (a * w + b) v) as [im|] eqn:U; cbn [bind]; [|discriminate].
    intros E. apply IH in E. destruct E as (L & I & P). pose proof (upd_length _ _ _ _ U) as LU. split; [congruence|]. split.
    { intros p [<-|Hp]; [cbn; lia|auto]. }
    intros i j Hj. destruct (P i j Hj) as [P1 P2]. split.
    + intros [Hp|Hp]; [|auto]. injection Hp as -> ->.
      assert (D : In (i, j) pts \/ ~ In (i, j) pts).
      { destruct (in_dec pt_dec (i, j) pts); tauto. }
      destruct D as [D|D]; [auto|]. rewrite (P2 D). eapply upd_nth_eq; eauto.
    + intros N. rewrite P2 by (intros X; apply N; right; exact X). eapply upd_nth_ne; [exact U|].
      intros E. apply N. left. destruct (flat_inj a b i j) as [-> ->]; [lia|exact Hj|congruence|reflexivity].
Qed.
Lemma paint_succeeds v pts : (forall p, In p pts -> fst p < h /\ snd p < w) -> forall img, length img = h * w -> exists img', paint h w v img pts = Some img'.
Proof.
  unfold paint. induction pts as [|[a b] pts IH]; intros I img L; cbn [foldM]; [eauto|]. cbn [fst snd].
  destruct (I (a, b) (or_introl eq_refl)) as [A B]. cbn in A, B. replace ((a <? h) && (b <? w)) with true by lia.
  destruct (upd_some img (a * w + b) v) as [im U]; [nia|]. rewrite U. cbn [bind]. apply IH; [intros p Hp; apply I; right; exact Hp|].
  rewrite (upd_length _ _ _ _ U). exact L.
Qed.

Lemma on_ring_snoc_in rings r p : In p r -> on_ring (rings ++ [r]) p (S (length rings)).
Proof.
  intros H. exists r. split; [rewrite nth_error_app2, Nat.sub_diag by lia; reflexivity|]. split; [exact H|].
  intros j r' Hj E. exfalso. assert (j < length (rings ++ [r])) by (apply nth_error_Some; congruence). rewrite app_length in H0. cbn in H0. lia.
Qed.
Lemma on_ring_snoc_out rings r p n : ~ In p r -> on_ring rings p n -> on_ring (rings ++ [r]) p n.
Proof.
  intros H. destruct n as [|k]; cbn.
  - intros HF. apply Forall_app. split; [exact HF|constructor; [exact H|constructor]].
  - intros (q & E & Hi & Hl). exists q. assert (k < length rings) by (apply nth_error_Some; congruence).
    split; [rewrite nth_error_app1 by assumption; exact E|]. split; [exact Hi|]. intros j p' Hj E'.
    destruct (Nat.lt_ge_cases j (length rings)) as [L|L].
    + rewrite nth_error_app1 in E' by exact L. eauto.
    + rewrite nth_error_app2 in E' by exact L. destruct (j - length rings) as [|[|m]]; cbn in E'; try discriminate. injection E' as <-. exact H.
Qed.

Lemma chained_snoc rds : forall pts last r, chained pts rds last -> offered r = last -> chained pts (rds ++ [r]) (remaining r).
Proof.
  induction rds as [|a rds IH]; intros pts last r; cbn [app chained].
  - intros -> E. split; [exact E|reflexivity].
  - intros [A B] E. split; [exact A|]. eapply IH; eauto.
Qed.
Lemma loop_inv image pts0 n s : foldM ring (seq 0 n) (mkState None image [] pts0) = Some s ->
  exists rds rings, length rds = n /\ (forall k rd, nth_error rds k = Some rd -> good_round k rd) /\ chained pts0 rds (st_pts s) /\
    st_radii s = map radius rds /\ (n = 0 -> st_center s = None) /\
    (0 < n -> exists c, st_center s = Some c /\ center_of c rds /\ Forall2 (drawn c) rds rings) /\
    length rings = n /\ painted image (st_image s) rings.
Proof.
  revert s. induction n as [|n IH]; intros s.
  - cbn. intros E. apply inj_some in E. subst s. exists [], []. cbn. repeat (split; [try reflexivity; try lia|]).
    + intros [|k] rd X; discriminate X.
    + intros i j Hi Hj. exists 0. split; [constructor|reflexivity].
  - rewrite seq_S, foldM_app. cbn [Nat.add]. destruct (foldM ring (seq 0 n) _) as [s1|] eqn:E1; cbn [bind foldM]; [|discriminate].
    destruct (IH s1 eq_refl) as (rds & rings & L & G & CH & RD & C0 & C1 & LR & PL & PT). clear IH.
    destruct (ring s1 n) as [s2|] eqn:E2; cbn [bind]; [|discriminate]. intros E. apply inj_some in E. subst s2.
    unfold RingAuto_Model.ring in E2. destruct (ransac n (st_pts s1)) as [[[[x y] r] m]|] eqn:EF; cbn [bind] in E2; [|discriminate].
    destruct (if n =? 0 then Some (qtrunc x, qtrunc y) else st_center s1) as [c|] eqn:EC; cbn [bind] in E2; [|discriminate].
    destruct (paint h w (qn (n + 1)) (st_image s1) (perimeter (snd c) (fst c) (qtrunc r))) as [img|] eqn:EP; cbn [bind] in E2; [|discriminate].
    destruct (outliers (st_pts s1) m) as [rest|] eqn:EO; cbn [bind] in E2; [|discriminate]. apply inj_some in E2. subst s. cbn [st_center st_image st_radii st_pts].
    unfold outliers in EO. destruct (Nat.eqb_spec (length m) (length (st_pts s1))) as [LM|]; [|discriminate]. apply inj_some in EO.
    destruct (marked_total true (st_pts s1) m LM) as [ins HM]. pose proof (marked_false_filter (st_pts s1) m LM) as HF. rewrite EO in HF.
    set (rd := mkRound (st_pts s1) (x, y, r) ins rest).
    assert (DR : drawn c rd (perimeter (snd c) (fst c) (qtrunc r))) by (exists (qtrunc r); split; [apply qtrunc_whole|reflexivity]).
    exists (rds ++ [rd]), (rings ++ [perimeter (snd c) (fst c) (qtrunc r)]).
    split; [rewrite app_length; cbn; lia|]. split.
    { intros k q Hq. destruct (Nat.lt_ge_cases k (length rds)) as [Lk|Lk]; [rewrite nth_error_app1 in Hq by exact Lk; auto|].
      rewrite nth_error_app2 in Hq by exact Lk. destruct (k - length rds) as [|[|e]] eqn:D; cbn in Hq; try discriminate. apply inj_some in Hq. subst q.
      assert (k = n) by lia. subst k. exists m. split; [exact EF|]. split; assumption. }
    split; [exact (chained_snoc rds pts0 (st_pts s1) rd CH eq_refl)|]. split; [rewrite map_app, RD; reflexivity|]. split; [discriminate|]. split.
    { intros _. exists c. split; [reflexivity|]. destruct (Nat.eqb_spec n 0) as [N0|N0].
      - destruct rds; [|cbn in L; lia]. destruct rings; [|cbn in LR; lia]. apply inj_some in EC. subst c. split.
        + exists rd. cbn. repeat split; apply qtrunc_whole.
        + constructor; [exact DR|constructor].
      - destruct (C1 ltac:(lia)) as (c' & Ec' & Hc & F2). assert (c' = c) by congruence. subst c'. split.
        + destruct Hc as (r0 & H0 & W0). exists r0. split; [|exact W0]. rewrite nth_error_app1 by lia. exact H0.
        + apply Forall2_app; [exact F2|]. constructor; [exact DR|constructor]. }
    split; [rewrite app_length; cbn; lia|]. destruct (paint_inv _ _ _ _ EP) as (LP & _ & PP). split; [congruence|].
    intros i j Hi Hj. destruct (PP i j Hj) as [P1 P2]. destruct (in_dec pt_dec (i, j) (perimeter (snd c) (fst c) (qtrunc r))) as [I|I].
    + exists (S n). split; [rewrite <- LR; apply on_ring_snoc_in; exact I|]. rewrite (P1 I), Nat.add_1_r. reflexivity.
    + destruct (PT i j Hi Hj) as (q & Q & V). exists q. split; [apply on_ring_snoc_out; assumption|]. rewrite (P2 I). exact V.
Qed.
Lemma chained_perm rds : (forall k rd, nth_error rds k = Some rd -> exists m, marked true (offered rd) m (inliers rd) /\ marked false (offered rd) m (remaining rd)) ->
  forall pts last, chained pts rds last -> Permutation pts (concat (map inliers rds) ++ last).
Proof.
  induction rds as [|r rds IH]; intros G pts last; cbn [chained map concat].
  - intros ->. reflexivity.
  - intros [<- B]. destruct (G 0 r eq_refl) as (m & M1 & M2). eapply perm_trans; [exact (marked_perm _ _ _ _ M1 M2)|].
    rewrite <- app_assoc. apply Permutation_app_head. apply IH; [|exact B]. intros k rd Hk. exact (G (S k) rd Hk).
Qed.

Theorem auto_sound image edges n c img radii : auto image edges n = Some (c, img, radii) ->
  exists rds rings left, length rds = n /\ 0 < n /\ (forall k rd, nth_error rds k = Some rd -> good_round k rd) /\
    chained (map (fun p => (snd p, fst p)) edges) rds left /\ Permutation (map (fun p => (snd p, fst p)) edges) (concat (map inliers rds) ++ left) /\
    radii = map radius rds /\ center_of c rds /\ Forall2 (drawn c) rds rings /\ painted image img rings.
Proof.
  unfold auto_find_center_rings. destruct (foldM ring (seq 0 n) _) as [s|] eqn:E; cbn [bind]; [|discriminate].
  destruct (st_center s) as [c'|] eqn:EC; cbn [bind]; [|discriminate]. intros X. injection X as <- <- <-.
  destruct (loop_inv _ _ _ _ E) as (rds & rings & L & G & CH & RD & C0 & C1 & LR & P).
  destruct n as [|n]; [rewrite C0 in EC by reflexivity; discriminate|]. destruct (C1 ltac:(lia)) as (c & Ec & CO & DR).
  assert (c = c') by congruence. subst c'. exists rds, rings, (st_pts s). repeat (split; [assumption || lia|]). split.
  - apply chained_perm; [|exact CH]. intros k rd Hk. destruct (G k rd Hk) as (m & _ & M). exists m. exact M.
  - repeat (split; [assumption|]). exact P.
Qed.
Theorem auto_complete image edges n : length image = h * w -> 0 < n ->
  (forall k pts, k < n -> exists c m, ransac k pts = Some (c, m) /\ length m = length pts) ->
  (forall y x r p, In p (perimeter y x r) -> fst p < h /\ snd p < w) ->
  exists c img radii, auto image edges n = Some (c, img, radii).
Proof.
  intros L N R I. unfold auto_find_center_rings.
  set (s0 := mkState None image [] _).
  assert (H : forall m, m <= n -> exists s, foldM ring (seq 0 m) s0 = Some s /\ length (st_image s) = h * w /\ (0 < m -> exists c, st_center s = Some c)).
  { induction m as [|m IH]; intros Hm; [exists s0; repeat split; [exact L|lia]|]. destruct IH as (s & E & LS & C); [lia|].
    rewrite seq_S, foldM_app, E. cbn [bind foldM Nat.add]. unfold RingAuto_Model.ring. destruct (R m (st_pts s)) as ([[x y] r] & ms & EF & LM); [lia|]. rewrite EF. cbn [bind].
    assert (D : exists c, (if m =? 0 then Some (qtrunc x, qtrunc y) else st_center s) = Some c).
    { destruct (Nat.eqb_spec m 0); [eauto|]. apply C. lia. }
    destruct D as [c D]. rewrite D. cbn [bind]. destruct (paint_succeeds (qn (m + 1)) (perimeter (snd c) (fst c) (qtrunc r)) (I _ _ _) (st_image s) LS) as [img P]. rewrite P. cbn [bind].
    unfold outliers. rewrite LM, Nat.eqb_refl. cbn [bind]. eexists. split; [reflexivity|]. cbn. split; [|eauto]. destruct (paint_inv _ _ _ _ P) as [Q _]. congruence. }
  destruct (H n (Nat.le_refl n)) as (s & E & _ & C). rewrite E. cbn [bind]. destruct (C N) as [c EC]. rewrite EC. cbn [bind]. eauto.
Qed.
Theorem auto_fails image edges n : n = 0 \/ ransac 0 (map (fun p => (snd p, fst p)) edges) = None -> auto image edges n = None.
Proof.
  intros H. destruct n as [|n]; [reflexivity|]. destruct H as [H|H]; [discriminate|].
  unfold auto_find_center_rings. cbn [seq foldM]. unfold RingAuto_Model.ring at 1. cbn [st_pts]. rewrite H. reflexivity.
Qed.
End Auto.

(** only the radii of later circles matter *)
Theorem later_centers ransac ransac' perimeter h w image edges n :
  (forall pts, ransac 0 pts = ransac' 0 pts) ->
  (forall k pts, 0 < k -> match ransac k pts, ransac' k pts with
                          | Some ((_, _, r), m), Some ((_, _, r'), m') => r = r' /\ m = m'
                          | None, None => True | _, _ => False end) ->
  auto_find_center_rings ransac perimeter h w image edges n = auto_find_center_rings ransac' perimeter h w image edges n.
Proof.
  intros H0 H1. unfold auto_find_center_rings. set (s0 := mkState _ _ _ _). clearbody s0.
  replace (foldM (ring ransac' perimeter h w) (seq 0 n) s0) with (foldM (ring ransac perimeter h w) (seq 0 n) s0); [reflexivity|].
  generalize (seq 0 n). intros l. revert s0. induction l as [|i l IH]; intros s; [reflexivity|]. cbn [foldM].
  replace (ring ransac' perimeter h w s i) with (ring ransac perimeter h w s i).
  { destruct (ring ransac perimeter h w s i); [cbn [bind]; apply IH|reflexivity]. }
  unfold ring. destruct (Nat.eq_dec i 0) as [->|N]; [rewrite (H0 (st_pts s)); reflexivity|]. specialize (H1 i (st_pts s) ltac:(lia)).
  destruct (ransac i (st_pts s)) as [[[[x y] r] m]|], (ransac' i (st_pts s)) as [[[[x' y'] r'] m']|]; try contradiction; [|reflexivity].
  destruct H1 as [-> ->]. cbn [bind]. destruct (Nat.eqb_spec i 0); [contradiction|]. reflexivity.
Qed.
