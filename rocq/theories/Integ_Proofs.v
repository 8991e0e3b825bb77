From Coq Require Import Sorted.
From Verif Require Import Common QcArith Integ_Model Integ_Spec.
Local Open Scope Qc_scope.

Lemma qsign_pos a : qsign a = 1%Z <-> 0 < a.
Proof.
  unfold qsign. destruct (Qc_ltb_spec 0 a) as [H|H]; [tauto|]. destruct (Qc_ltb_spec a 0) as [K|K]; split; intros; try discriminate; contradiction.
Qed.
Lemma qsign_neg a : qsign a = (-1)%Z <-> a < 0.
Proof.
  unfold qsign. destruct (Qc_ltb_spec 0 a) as [H|H]; [split; [discriminate|intros K; exfalso; qclra]|]. destruct (Qc_ltb_spec a 0) as [K|K]; split; intros; try discriminate; tauto.
Qed.
Lemma qsign_opp a : qsign (- a) = (- qsign a)%Z.
Proof.
  unfold qsign. destruct (Qc_ltb_spec 0 a), (Qc_ltb_spec 0 (- a)), (Qc_ltb_spec a 0), (Qc_ltb_spec (- a) 0); try reflexivity; exfalso;
    repeat match goal with H : ~ _ < _ |- _ => apply Qcnot_lt_le in H end; qclra.
Qed.
Lemma qsign_zero a : qsign a = 0%Z -> a = 0.
Proof.
  unfold qsign. destruct (Qc_ltb_spec 0 a) as [H|H]; [discriminate|]. destruct (Qc_ltb_spec a 0) as [K|K]; [discriminate|]. intros _. apply Qcle_antisym; now apply Qcnot_lt_le.
Qed.
Lemma signs_cons a b l : signs (a :: b :: l) = qsign (b - a) :: signs (b :: l). Proof. reflexivity. Qed.
Lemma signs_app l : forall a b, signs (l ++ [a; b]) = signs (l ++ [a]) ++ [qsign (b - a)].
Proof.
  induction l as [|x l IH]; intros a b; [reflexivity|]. destruct l as [|y l]; [reflexivity|]. cbn [app]. rewrite !signs_cons. cbn [app] in IH. rewrite IH. reflexivity.
Qed.
Lemma signs_rev l : signs (rev l) = map Z.opp (rev (signs l)).
Proof.
  induction l as [|a l IH]; [reflexivity|]. destruct l as [|b l]; [reflexivity|]. rewrite signs_cons. cbn [rev] in *. rewrite <- app_assoc. cbn [app]. rewrite signs_app, IH, map_app. cbn [map]. rewrite <- qsign_opp.
  f_equal. f_equal. f_equal. ring.
Qed.
Lemma signs_len l : length (signs l) = (length l - 1)%nat.
Proof. induction l as [|a l IH]; [reflexivity|]. destruct l as [|b l]; [reflexivity|]. rewrite signs_cons. cbn [length] in *. lia. Qed.
Lemma ascending_signs x y : length x = length y -> ascending (combine x y) <-> Forall (fun t => t = 1%Z) (signs x).
Proof.
  revert y. induction x as [|a x IH]; intros y L; [split; constructor|]. destruct y as [|v y]; [discriminate|]. destruct x as [|b x].
  - destruct y; [|discriminate]. split; repeat constructor.
  - destruct y as [|w y]; [discriminate|]. rewrite signs_cons. assert (L' : length (b :: x) = length (w :: y)) by (cbn in *; lia). specialize (IH (w :: y) L'). split.
    + intros H. inversion H as [|? ? S F]; subst. constructor; [|now apply IH]. apply qsign_pos. inversion F as [|? ? F1 _]; subst. cbn in F1. qclra.
    + intros H. inversion H as [|? ? F S]; subst. apply IH in S. apply qsign_pos in F. assert (LT : a < b) by qclra. cbn [combine] in *. constructor; [exact S|]. constructor; [exact LT|].
      inversion S as [|? ? _ G]; subst. eapply Forall_impl; [|exact G]. intros p P. cbn in *. eapply Qclt_trans; eauto.
Qed.
Lemma anyb_false {A} (p : A -> bool) l : anyb p l = false <-> Forall (fun a => p a = false) l.
Proof.
  unfold anyb. induction l as [|a l IH]; cbn; [split; constructor|]. rewrite Bool.orb_false_iff, IH. split; [intros [H K]; now constructor|]. intros H. inversion H; auto.
Qed.
(** searchsorted splits an ascending list *)
Lemma search_split x y v : length x = length y -> ascending (combine x y) -> let k := searchsorted x v in
  Forall (fun p => fst p < v) (firstn k (combine x y)) /\ Forall (fun p => v <= fst p) (skipn k (combine x y)).
Proof.
  revert y. induction x as [|a x IH]; intros y L AS; [split; constructor|]. destruct y as [|w y]; [discriminate|]. cbn in L. injection L as L. cbn [combine] in AS. inversion AS as [|? ? S F]; subst.
  cbn [searchsorted]. destruct (Qc_ltb_spec a v) as [H|H]; cbn [firstn skipn combine].
  - destruct (IH y L S) as [I1 I2]. split; [now constructor|exact I2].
  - apply Qcnot_lt_le in H. split; [constructor|]. constructor; [exact H|]. eapply Forall_impl; [|exact F]. intros p P. cbn in *. eapply Qcle_trans; [exact H|now apply Qclt_le_weak].
Qed.
Lemma search_le x v : (searchsorted x v <= length x)%nat.
Proof. induction x as [|a x IH]; cbn; [lia|]. destruct (Qc_ltb a v); lia. Qed.
Lemma search_mono x a b : a <= b -> (searchsorted x a <= searchsorted x b)%nat.
Proof.
  intros AB. induction x as [|v x IH]; cbn; [lia|]. destruct (Qc_ltb_spec v a) as [H|H], (Qc_ltb_spec v b) as [K|K]; try lia. exfalso. apply K. eapply Qclt_le_trans; eauto.
Qed.
Lemma combine_slice {A B} (x : list A) (y : list B) n k : length x = length y -> map fst (firstn n (skipn k (combine x y))) = firstn n (skipn k x) /\ map snd (firstn n (skipn k (combine x y))) = firstn n (skipn k y).
Proof.
  revert y n. induction k as [|k IH]; intros y n L.
  - cbn [skipn]. revert y n L. induction x as [|a x IHx]; intros [|b y] [|n] L; try discriminate; try (split; reflexivity). cbn. destruct (IHx y n) as [E1 E2]; [cbn in L; lia|]. now rewrite E1, E2.
  - destruct x as [|a x], y as [|b y]; try discriminate; [rewrite !skipn_nil, !firstn_nil; split; reflexivity|]. cbn [skipn combine]. cbn in L. injection L as L. clear IH. revert k y n L. 
    assert (G : forall k (x : list A) (y : list B) n, length x = length y -> map fst (firstn n (skipn k (combine x y))) = firstn n (skipn k x) /\ map snd (firstn n (skipn k (combine x y))) = firstn n (skipn k y)).
    { clear. induction k as [|k IH]; intros x y n L.
      - cbn [skipn]. revert y n L. induction x as [|a x IHx]; intros [|b y] [|n] L; try discriminate; try (split; reflexivity). cbn. destruct (IHx y n) as [E1 E2]; [cbn in L; lia|]. now rewrite E1, E2.
      - destruct x as [|a x], y as [|b y]; try discriminate; [rewrite ?skipn_nil, ?firstn_nil; split; reflexivity|]. cbn [skipn combine]. apply IH. cbn in L. lia. }
    intros k y n L. now apply G.
Qed.
Lemma region_slice x y a b : length x = length y -> ascending (combine x y) -> a < b -> (exists p, In p (combine x y) /\ b <= fst p) ->
  region (combine x y) a b (firstn (searchsorted x b + 1 - searchsorted x a) (skipn (searchsorted x a) (combine x y))).
Proof.
  intros L AS AB (q & Iq & Q). set (pts := combine x y) in *. set (i := searchsorted x a). set (j := searchsorted x b).
  assert (IJ : (i <= j)%nat) by (apply search_mono; now apply Qclt_le_weak). destruct (search_split x y a L AS) as [A1 A2]. destruct (search_split x y b L AS) as [B1 B2]. fold pts in A1, A2, B1, B2. fold i in A1, A2. fold j in B1, B2.
  assert (JL : (j < length pts)%nat).
  { destruct (Nat.lt_ge_cases j (length pts)) as [H|H]; [exact H|]. rewrite firstn_all2 in B1 by exact H. eapply Forall_forall in B1; [|exact Iq]. exfalso. qclra. }
  destruct (nth_error pts j) as [e|] eqn:E; [|apply nth_error_None in E; lia]. apply nth_error_split in E as (l1 & post & E & L1). 
  assert (F1 : firstn j pts = l1) by (rewrite E, <- L1, firstn_app, firstn_all, Nat.sub_diag; cbn; apply app_nil_r).
  assert (S1 : skipn j pts = e :: post) by (rewrite E, <- L1, skipn_app, skipn_all, Nat.sub_diag; reflexivity).
  rewrite S1 in B2. pose proof (Forall_inv B2) as BE. cbv beta in BE. rewrite F1 in B1.
  exists (firstn i l1), (skipn i l1), e, post.
  assert (SP : skipn i pts = skipn i l1 ++ e :: post).
  { rewrite E, skipn_app. replace (i - length l1)%nat with 0%nat by lia. reflexivity. }
  split; [rewrite app_assoc, firstn_skipn; exact E|]. split.
  - rewrite SP, firstn_app, skipn_length, L1. replace (j + 1 - i - (j - i))%nat with 1%nat by lia. rewrite firstn_all2 by (rewrite skipn_length; lia). reflexivity.
  - split; [|split; [|split]].
    + rewrite <- F1, firstn_firstn. replace (Nat.min i j) with i by lia. exact A1.
    + rewrite SP in A2. apply Forall_app in A2 as [A2 _]. rewrite <- (firstn_skipn i l1) in B1. apply Forall_app in B1 as [_ B1]. apply Forall_forall. intros p I. split; [eapply Forall_forall in A2; eauto|eapply Forall_forall in B1; eauto].
    + rewrite SP in A2. apply Forall_app in A2 as [_ A2]. now inversion A2.
    + exact BE.
Qed.
Lemma region_unique pts a b u u' : ascending pts -> a < b -> region pts a b u -> region pts a b u' -> u = u'.
Proof.
  intros AS AB (pre & mid & e & post & E & -> & P & M & EA & EB) (pre' & mid' & e' & post' & E' & -> & P' & M' & EA' & EB').
  assert (K1 : forall (l q r r' : list (Qc * Qc)), Forall (fun p => fst p < a) l -> Forall (fun p => fst p < a) q -> l ++ r = q ++ r' -> (forall x, hd_error r = Some x -> a <= fst x) -> (forall x, hd_error r' = Some x -> a <= fst x) -> l = q /\ r = r').
  { induction l as [|v l IH]; intros q r r' Fl Fq EQ H1 H2.
    - destruct q as [|w q]; [auto|]. cbn in EQ. subst r. cbn in H1. specialize (H1 w eq_refl). inversion Fq; subst. exfalso. qclra.
    - destruct q as [|w q]. + cbn in EQ. subst r'. cbn in H2. specialize (H2 v eq_refl). inversion Fl; subst. exfalso. qclra.
      + cbn in EQ. injection EQ as -> EQ. inversion Fl; inversion Fq; subst. destruct (IH q r r') as [-> ->]; auto. }
  assert (HD : forall m (z : Qc * Qc) po, Forall (fun p => a <= fst p /\ fst p < b) m -> a <= fst z -> forall x, hd_error (m ++ z :: po) = Some x -> a <= fst x).
  { intros [|w m] z po F Z x; cbn; intros [= <-]; [exact Z|]. inversion F as [|? ? [? ?] ?]; subst. assumption. }
  destruct (K1 pre pre' (mid ++ e :: post) (mid' ++ e' :: post')) as [-> EQ]; auto; try congruence; try (apply HD; assumption).
  clear - M M' EB EB' EQ. revert mid' M' EQ. induction mid as [|v m IH]; intros [|w m'] M' EQ; cbn in EQ; injection EQ as -> EQ.
  - reflexivity.
  - inversion M' as [|? ? [? ?] ?]; subst. exfalso. qclra.
  - inversion M as [|? ? [? ?] ?]; subst. exfalso. qclra.
  - cbn. f_equal. inversion M; inversion M'; subst. now apply IH.
Qed.
Lemma regions_acc rule x y bs : forall acc, regions rule x y bs acc = acc + regions rule x y bs 0.
Proof. induction bs as [|[a b] bs IH]; intros acc; cbn [regions]; [ring|]. rewrite IH, (IH (0 + _)). ring. Qed.
Lemma regions_ok rule x y bs vals : length x = length y -> ascending (combine x y) -> (forall a b, In (a, b) bs -> a < b /\ exists p, In p (combine x y) /\ b <= fst p) ->
  Forall2 (fun bd v => exists u, region (combine x y) (fst bd) (snd bd) u /\ v = applied rule u) bs vals -> regions rule x y bs 0 = qsum vals.
Proof.
  intros L AS G H. induction H as [|[a b] v bs vals (u & U & E) H IH]; [reflexivity|]. cbn [regions fst snd] in *. rewrite regions_acc, IH by (intros; apply G; now right).
  destruct (G a b (or_introl eq_refl)) as [AB B]. pose proof (region_slice x y a b L AS AB B) as RS. rewrite (region_unique _ _ _ _ _ AS AB U RS) in E. unfold applied in E.
  destruct (combine_slice x y (searchsorted x b + 1 - searchsorted x a) (searchsorted x a) L) as [E1 E2]. rewrite E1, E2 in E. subst v. cbn [qsum fold_right]. unfold qsum. cbn. ring.
Qed.
(** hd and last bound an ascending list *)
Lemma hd_le x y p : length x = length y -> ascending (combine x y) -> In p (combine x y) -> hd 0 x <= fst p.
Proof.
  destruct x as [|a x], y as [|b y]; cbn; try discriminate; try tauto. intros L AS [<-|I]; [apply Qcle_refl|]. inversion AS as [|? ? _ F]; subst. eapply Forall_forall in F; [|exact I]. now apply Qclt_le_weak.
Qed.
Lemma le_last x : forall y p, length x = length y -> ascending (combine x y) -> In p (combine x y) -> fst p <= last x 0.
Proof.
  induction x as [|a x IH]; intros [|b y] p; cbn [combine length]; try discriminate; [intros _ _ []|]. intros L AS I. injection L as L. inversion AS as [|? ? S F]; subst. destruct x as [|c x].
  - destruct y; [|discriminate]. destruct I as [<-|[]]. apply Qcle_refl.
  - destruct y as [|d y]; [discriminate|]. destruct I as [<-|I]; [|now apply (IH (d :: y))]. eapply Qcle_trans; [apply Qclt_le_weak|apply (IH (d :: y) (c, d) L S); now left]. inversion F; subst. assumption.
Qed.
Lemma hd_in (x y : list Qc) : x <> [] -> length x = length y -> exists v, In (hd 0 x, v) (combine x y).
Proof. destruct x as [|a x], y as [|b y]; cbn; try congruence; try discriminate. eauto. Qed.
Lemma last_in (x : list Qc) : forall y : list Qc, x <> [] -> length x = length y -> exists v, In (last x 0, v) (combine x y).
Proof.
  induction x as [|a x IH]; [congruence|]. intros [|b y] _ L; [discriminate|]. destruct x as [|c x]; [exists b; now left|]. destruct (IH y) as [v I]; [discriminate|cbn in *; lia|]. exists v. now right.
Qed.
Lemma bounds_checked x y x_min x_max : x <> [] -> length x = length y -> ascending (combine x y) -> length x_min = length x_max ->
  (anyb (fun p => Qc_leb (snd p) (fst p)) (combine x_min x_max) = false /\ anyb (fun a => Qc_ltb a (hd 0 x)) x_min = false /\ anyb (fun b => Qc_ltb (last x 0) b) x_max = false) <-> good_bounds (combine x y) (combine x_min x_max).
Proof.
  intros NE L AS LB. rewrite !anyb_false. unfold good_bounds. revert x_max LB. induction x_min as [|a l IH]; intros [|b m] LB; try discriminate.
  - split; [intros _ a b []|]. repeat split; constructor.
  - injection LB as LB. specialize (IH m LB). cbn [combine]. split.
    + intros (H1 & H2 & H3). inversion H1 as [|? ? P1 Q1]; inversion H2 as [|? ? P2 Q2]; inversion H3 as [|? ? P3 Q3]; subst. intros a' b' [[= <- <-]|I]; [|now apply IH].
      cbn [fst snd] in P1. destruct (Qc_leb_spec b a) as [?|N1]; [discriminate|]. destruct (Qc_ltb_spec a (hd 0 x)) as [?|N2]; [discriminate|]. destruct (Qc_ltb_spec (last x 0) b) as [?|N3]; [discriminate|].
      split; [now apply Qcnot_le_lt|]. split.
      * destruct (hd_in x y NE L) as [v I]. eexists. split; [exact I|]. now apply Qcnot_lt_le.
      * destruct (last_in x y NE L) as [v I]. eexists. split; [exact I|]. now apply Qcnot_lt_le.
    + intros G. destruct (proj2 IH) as (Q1 & Q2 & Q3); [intros; apply G; now right|]. destruct (G a b (or_introl eq_refl)) as (AB & (p & Ip & P) & (q & Iq & Q)).
      pose proof (hd_le x y p L AS Ip). pose proof (le_last x y q L AS Iq). split; [|split]; constructor; auto; cbn [fst snd].
      * destruct (Qc_leb_spec b a); [exfalso; qclra|reflexivity].
      * destruct (Qc_ltb_spec a (hd 0 x)); [exfalso; qclra|reflexivity].
      * destruct (Qc_ltb_spec (last x 0) b); [exfalso; qclra|reflexivity].
Qed.
Lemma forallb_Forall s l : forallb (fun t => t =? s)%Z l = true <-> Forall (fun t => t = s) l.
Proof. induction l as [|t l IH]; cbn; [split; constructor|]. rewrite Bool.andb_true_iff, IH, Z.eqb_eq. split; [intros []; now constructor|]. intros H; inversion H; auto. Qed.
Lemma signs_hd x : (2 <= length x)%nat -> exists s r, signs x = s :: r.
Proof. destruct x as [|a [|b x]]; cbn [length]; try lia. intros _. rewrite signs_cons. eauto. Qed.
Lemma map_combine_fst {A B} (x : list A) (y : list B) : length x = length y -> map fst (combine x y) = x.
Proof. revert y. induction x; intros [|? y] L; try discriminate; [reflexivity|]. cbn. f_equal. apply IHx. cbn in L. lia. Qed.
(** all regions at once, for increasing x *)
Theorem integrate_asc rule x y x_min x_max vals : (2 <= length x)%nat -> length x = length y -> ascending (combine x y) -> length x_min = length x_max -> good_bounds (combine x y) (combine x_min x_max) ->
  Forall2 (fun bd v => exists u, region (combine x y) (fst bd) (snd bd) u /\ v = applied rule u) (combine x_min x_max) vals ->
  integrate_ROI rule x y x_min x_max = inl (qsum vals).
Proof.
  intros N L AS LB G F. unfold integrate_ROI. rewrite L, Nat.eqb_refl. cbn [negb]. rewrite (ascending_signs x y L) in AS. destruct (signs_hd x N) as (s & r & E). pose proof AS as AS'. rewrite E in AS. inversion AS as [|? ? S R]; subst.
  rewrite E. cbv iota beta. rewrite (proj2 (forallb_Forall 1 (1%Z :: r))) by (constructor; auto). cbn [negb]. change (1 =? -1)%Z with false. cbv iota. rewrite LB, Nat.eqb_refl. cbn [negb].
  apply (ascending_signs x y L) in AS'. assert (NE : x <> []) by (intros ->; cbn in N; lia). destruct (proj2 (bounds_checked x y x_min x_max NE L AS' LB) G) as (-> & -> & ->).
  f_equal. apply regions_ok; auto. intros a b I. destruct (G a b I) as (? & _ & ?). auto.
Qed.
(** every region exists when the bounds are good *)
Theorem region_exists x y a b : length x = length y -> ascending (combine x y) -> a < b -> (exists p, In p (combine x y) /\ b <= fst p) -> exists u, region (combine x y) a b u.
Proof. intros. eexists. now apply region_slice. Qed.
Lemma hd_rev_last (l : list Z) s : Forall (fun t => t = s) l -> Forall (fun t => t = (- s)%Z) (map Z.opp (rev l)).
Proof. intros H. apply Forall_forall. intros t I. apply in_map_iff in I as (u & <- & I). apply in_rev in I. eapply Forall_forall in H; [|exact I]. lia. Qed.
Lemma map_opp_invol l : map Z.opp (map Z.opp l) = l.
Proof. induction l; cbn; [reflexivity|]. rewrite IHl. f_equal. lia. Qed.
Lemma all_same s l : forallb (fun t => t =? s)%Z l = false -> l <> [] -> hd_error l = Some s -> forall t, hd_error (map Z.opp (rev l)) = Some t -> forallb (fun u => u =? t)%Z (map Z.opp (rev l)) = false.
Proof.
  intros F NE H t T. destruct (forallb (fun u => u =? t)%Z (map Z.opp (rev l))) eqn:E; [|reflexivity]. apply forallb_Forall in E.
  assert (G : Forall (fun u => u = (- t)%Z) l).
  { apply Forall_forall. intros u I. eapply Forall_forall in E; [|apply in_map_iff; exists u; split; [reflexivity|apply in_rev; rewrite rev_involutive; exact I]]. cbv beta in E. lia. }
  assert (ST : s = (- t)%Z). { destruct l; [congruence|]. cbn in H. injection H as <-. now inversion G. }
  rewrite ST in F. apply forallb_Forall in G. congruence.
Qed.
Lemma const_last (a : Qc) l : Forall (fun t => t = 0%Z) (signs (a :: l)) -> last (a :: l) 0 = a.
Proof.
  revert a. induction l as [|b l IH]; intros a F; [reflexivity|]. rewrite signs_cons in F. inversion F as [|? ? E R]; subst. apply qsign_zero in E. change (last (b :: l) 0 = a). rewrite IH by exact R. qclra.
Qed.
Lemma hd_rev (l : list Qc) : hd 0 (rev l) = last l 0.
Proof. induction l as [|a l IH]; [reflexivity|]. cbn [rev]. destruct l as [|b l]; [reflexivity|]. change (last (a :: b :: l) 0) with (last (b :: l) 0). rewrite <- IH. cbn [rev]. destruct (rev l); reflexivity. Qed.
Lemma last_rev (l : list Qc) : last (rev l) 0 = hd 0 l.
Proof. rewrite <- (rev_involutive l) at 2. now rewrite hd_rev. Qed.
(** a constant x never gets through with bounds *)
Lemma const_fails c x_min x_max : length x_min = length x_max -> anyb (fun p => Qc_leb (snd p) (fst p)) (combine x_min x_max) = false -> anyb (fun a => Qc_ltb a c) x_min = false -> anyb (fun b => Qc_ltb c b) x_max = false -> x_min = [] /\ x_max = [].
Proof.
  destruct x_min as [|a l], x_max as [|b m]; try discriminate; [auto|]. intros _. cbn [anyb combine existsb fst snd]. rewrite !Bool.orb_false_iff. intros [P1 _] [P2 _] [P3 _]. exfalso.
  destruct (Qc_leb_spec b a) as [?|N1]; [discriminate|]. destruct (Qc_ltb_spec a c) as [?|N2]; [discriminate|]. destruct (Qc_ltb_spec c b) as [?|N3]; [discriminate|].
  apply Qcnot_le_lt in N1. apply Qcnot_lt_le in N2, N3. qclra.
Qed.
Theorem reversed rule x y x_min x_max : integrate_ROI rule (rev x) (rev y) x_min x_max = integrate_ROI rule x y x_min x_max.
Proof.
  unfold integrate_ROI. rewrite !rev_length. destruct (Nat.eqb_spec (length x) (length y)) as [L|L]; [|reflexivity]. cbn [negb]. rewrite signs_rev.
  destruct (signs x) as [|s r] eqn:E; [reflexivity|]. assert (NE : s :: r <> []) by discriminate.
  assert (RE : exists t q, map Z.opp (rev (s :: r)) = t :: q). { destruct (map Z.opp (rev (s :: r))) as [|t q] eqn:M; [|eauto]. apply (f_equal (@length Z)) in M. rewrite map_length, rev_length in M. discriminate. }
  destruct RE as (t & q & RE). rewrite RE.
  destruct (forallb (fun u => u =? s)%Z (s :: r)) eqn:F.
  - apply forallb_Forall in F. pose proof (hd_rev_last _ _ F) as G. rewrite RE in G. assert (T : t = (- s)%Z) by now inversion G. subst t. rewrite (proj2 (forallb_Forall _ _) G). cbn [negb].
    assert (CS : s = 1%Z \/ s = (-1)%Z \/ s = 0%Z).
    { assert (In s (signs x)) by (rewrite E; now left). clear - H. revert s H. induction x as [|a x IH]; [intros ? []|]. destruct x as [|b x]; [intros ? []|]. intros s. rewrite signs_cons. intros [<-|I]; [|now apply IH]. unfold qsign. destruct (Qc_ltb _ _); [auto|]. destruct (Qc_ltb _ _); auto. }
    destruct CS as [-> |[-> | ->]].
    + change (- (1) =? -1)%Z with true. change (1 =? -1)%Z with false. cbv iota. now rewrite !rev_involutive.
    + change (- -1 =? -1)%Z with false. change (-1 =? -1)%Z with true. reflexivity.
    + change (- 0 =? -1)%Z with false. change (0 =? -1)%Z with false. cbv iota. rewrite hd_rev, last_rev.
      assert (HL : last x 0 = hd 0 x). { destruct x as [|a x]; [reflexivity|]. rewrite const_last by (rewrite E; exact F). reflexivity. }
      rewrite HL. destruct (Nat.eqb_spec (length x_min) (length x_max)) as [LB|LB]; [|reflexivity]. cbn [negb].
      destruct (anyb _ (combine x_min x_max)) eqn:A1; [reflexivity|]. destruct (anyb _ x_min) eqn:A2; [reflexivity|]. destruct (anyb _ x_max) eqn:A3; [reflexivity|].
      destruct (const_fails _ _ _ LB A1 A2 A3) as [-> ->]. reflexivity.
  - rewrite <- RE. rewrite (all_same s (s :: r) F NE eq_refl t) by (rewrite RE; reflexivity). reflexivity.
Qed.
(** when it answers at all *)
Definition monotone (x y : list Qc) : Prop := ascending (combine x y) \/ ascending (combine (rev x) (rev y)).
Theorem integrate_rejects rule x y x_min x_max v : integrate_ROI rule x y x_min x_max = inl v -> x_min <> [] ->
  (2 <= length x)%nat /\ length x = length y /\ monotone x y /\ length x_min = length x_max /\ good_bounds (combine x y) (combine x_min x_max).
Proof.
  intros H NB. unfold integrate_ROI in H. destruct (Nat.eqb_spec (length x) (length y)) as [L|L]; [|discriminate]. cbn [negb] in H. destruct (signs x) as [|s r] eqn:E; [discriminate|].
  assert (N : (2 <= length x)%nat) by (pose proof (signs_len x) as K; rewrite E in K; cbn in K; lia).
  destruct (forallb (fun u => u =? s)%Z (s :: r)) eqn:F; [|discriminate]. cbn [negb] in H. apply forallb_Forall in F. rewrite <- E in F.
  destruct (Nat.eqb_spec (length x_min) (length x_max)) as [LB|LB]; [|discriminate]. cbn [negb] in H.
  destruct (anyb _ (combine x_min x_max)) eqn:A1; [discriminate|]. destruct (anyb _ x_min) eqn:A2; [discriminate|]. destruct (anyb _ x_max) eqn:A3; [discriminate|]. clear H.
  assert (CS : s = 1%Z \/ s = (-1)%Z \/ s = 0%Z).
  { assert (In s (signs x)) by (rewrite E; now left). clear - H. revert s H. induction x as [|a x IH]; [intros ? []|]. destruct x as [|b x]; [intros ? []|]. intros s. rewrite signs_cons. intros [<-|I]; [|now apply IH]. unfold qsign. destruct (Qc_ltb _ _); [auto|]. destruct (Qc_ltb _ _); auto. }
  assert (NE : x <> []) by (intros ->; cbn in N; lia). split; [exact N|]. split; [exact L|]. destruct CS as [-> |[-> | ->]].
  - change (1 =? -1)%Z with false in *. cbv iota in *. assert (AS : ascending (combine x y)) by now apply ascending_signs. split; [now left|]. split; [exact LB|]. now apply bounds_checked.
  - change (-1 =? -1)%Z with true in *. cbv iota in *. assert (RL : length (rev x) = length (rev y)) by now rewrite !rev_length.
    assert (AS : ascending (combine (rev x) (rev y))). { apply ascending_signs; [exact RL|]. rewrite signs_rev. apply (hd_rev_last _ _ F). }
    split; [now right|]. split; [exact LB|].
    assert (RN : rev x <> []) by (intros Q; apply NE; rewrite <- (rev_involutive x), Q; reflexivity).
    pose proof (proj1 (bounds_checked (rev x) (rev y) x_min x_max RN RL AS LB) (conj A1 (conj A2 A3))) as G.
    assert (SUB : forall p, In p (combine (rev x) (rev y)) -> In p (combine x y)).
    { intros p I. assert (CR : combine (rev x) (rev y) = rev (combine x y)).
      { clear - L. revert y L. induction x as [|a x IH]; intros [|b y] L; try discriminate; [reflexivity|]. cbn. rewrite <- IH by (cbn in L; lia).
        assert (CA : forall (u : list Qc) (w : list Qc) a b, length u = length w -> combine (u ++ [a]) (w ++ [b]) = combine u w ++ [(a, b)]).
        { induction u as [|c u IHu]; intros [|d w] a' b' L'; try discriminate; [reflexivity|]. cbn. rewrite IHu by (cbn in L'; lia). reflexivity. }
        apply CA. rewrite !rev_length. cbn in L. lia. }
      rewrite CR in I. now apply in_rev. }
    intros a b I. destruct (G a b I) as (AB & (p & Ip & P) & (q & Iq & Q)). split; [exact AB|]. split; eauto.
  - exfalso. change (0 =? -1)%Z with false in *. cbv iota in *. assert (HL : last x 0 = hd 0 x). { destruct x as [|a x]; [reflexivity|]. rewrite const_last by exact F. reflexivity. }
    rewrite HL in A3. destruct (const_fails _ _ _ LB A1 A2 A3) as [-> _]. contradiction.
Qed.
(** a constant spectrum *)
Lemma region_ends pts a b u : ascending pts -> a < b -> region pts a b u -> exists f e, hd_error u = Some f /\ last u f = e /\
  (In f pts /\ a <= fst f /\ forall p, In p pts -> a <= fst p -> fst f <= fst p) /\ (In e pts /\ b <= fst e /\ forall p, In p pts -> b <= fst p -> fst e <= fst p).
Proof.
  intros AS AB (pre & mid & e & post & E & -> & P & M & EA & EB).
  assert (AFT : forall p, In p post -> fst e < fst p).
  { rewrite E, app_assoc in AS. clear - AS. induction (pre ++ mid) as [|z l IH]; cbn in AS; inversion AS as [|? ? S F]; subst; [|now apply IH]. intros p I. eapply Forall_forall in F; eauto. }
  assert (EMIN : forall p, In p pts -> b <= fst p -> fst e <= fst p).
  { intros p I B. rewrite E in I. rewrite !in_app_iff in I. destruct I as [I|[I|[<-|I]]].
    - eapply Forall_forall in P; [|exact I]. cbv beta in P. exfalso. qclra.
    - eapply Forall_forall in M; [|exact I]. cbv beta in M. destruct M. exfalso. qclra.
    - apply Qcle_refl.
    - apply Qclt_le_weak. auto. }
  assert (EI : In e pts) by (rewrite E, !in_app_iff; right; right; now left).
  destruct mid as [|m mid].
  - exists e, e. split; [reflexivity|]. split; [reflexivity|]. split; [|auto]. split; [exact EI|]. split; [exact EA|]. intros p I A. rewrite E in I. cbn in I. rewrite in_app_iff in I. destruct I as [I|[<-|I]].
    + eapply Forall_forall in P; [|exact I]. cbv beta in P. exfalso. qclra.
    + apply Qcle_refl.
    + apply Qclt_le_weak. auto.
  - exists m, e. split; [reflexivity|]. split; [apply last_last|]. split; [|auto]. split; [rewrite E, !in_app_iff; right; left; now left|]. inversion M as [|? ? [MA MB] M']; subst. split; [exact MA|].
    intros p I A. rewrite !in_app_iff in I. destruct I as [I|I].
    + eapply Forall_forall in P; [|exact I]. cbv beta in P. exfalso. qclra.
    + assert (AS' : ascending ((m :: mid) ++ e :: post)). { clear - AS. revert AS. generalize ((m :: mid) ++ e :: post). intros l. induction pre as [|z pre IH]; cbn; [auto|]. intros H. inversion H; subst. now apply IH. }
      cbn in AS'. inversion AS' as [|? ? _ F]; subst. destruct I as [[<-|I]|I]; [apply Qcle_refl| |]; apply Qclt_le_weak; eapply Forall_forall in F; [exact F| |exact F|]; apply in_app_iff; auto.
Qed.
Theorem spectrum_right_edges rule a edges counts x_min x_max : integrate_ROI_spectrum rule (a :: edges) counts x_min x_max = integrate_ROI rule edges counts x_min x_max.
Proof.
  unfold integrate_ROI_spectrum. assert (P : forall l a, positions (a :: l) = l); [|now rewrite P]. induction l as [|b l IH]; intros a'; [reflexivity|]. cbn [positions] in *. rewrite IH. f_equal. ring.
Qed.
