From Coq Require Import Permutation Sorted Qround.
From Verif Require Import QcArith Common QSpace_Model QSpace_Proofs Powder_Model.
From Coq Require Import Reals Lra.
Local Open Scope R_scope.

Definition by_q (a b : reflection) : Prop := q_ a <= q_ b.
(** the reflections of one q, in order *)
Definition at_q (v : R) (l : list reflection) : list reflection := filter (fun r => if Req_EM_T (q_ r) v then true else false) l.
Lemma insert_perm x l : Permutation (insert x l) (x :: l).
Proof. induction l as [|y l IH]; cbn; [reflexivity|]. destruct (Rle_dec _ _); [reflexivity|]. rewrite IH. apply perm_swap. Qed.
Lemma sort_perm l : Permutation (sort_q l) l.
Proof. induction l as [|x l IH]; cbn; [reflexivity|]. rewrite insert_perm. now constructor. Qed.
Lemma insert_sorted x l : StronglySorted by_q l -> StronglySorted by_q (insert x l).
Proof.
  induction 1 as [|y l S IH F]; cbn; [repeat constructor|]. destruct (Rle_dec (q_ x) (q_ y)) as [H|H].
  - constructor; [now constructor|]. constructor; [exact H|]. eapply Forall_impl; [|exact F]. intros z Z. unfold by_q in *. lra.
  - constructor; [exact IH|]. apply Forall_forall. intros z I. apply (Permutation_in _ (insert_perm x l)) in I as [<-|I]; [unfold by_q; lra|]. eapply Forall_forall in F; eauto.
Qed.
Lemma sort_sorted l : StronglySorted by_q (sort_q l).
Proof. induction l as [|x l IH]; cbn; [constructor|]. now apply insert_sorted. Qed.
Lemma at_q_cons v x l : at_q v (x :: l) = if Req_EM_T (q_ x) v then x :: at_q v l else at_q v l.
Proof. unfold at_q. cbn. destruct (Req_EM_T (q_ x) v); reflexivity. Qed.
Lemma insert_stable v x l : StronglySorted by_q l -> at_q v (insert x l) = at_q v (x :: l).
Proof.
  induction 1 as [|y l S IH F]; cbn [insert]; [reflexivity|]. destruct (Rle_dec (q_ x) (q_ y)) as [H|H]; [reflexivity|].
  rewrite at_q_cons, IH, !at_q_cons. destruct (Req_EM_T (q_ y) v) as [E|E], (Req_EM_T (q_ x) v) as [E'|E']; try reflexivity. exfalso. lra.
Qed.
Lemma sort_stable v l : at_q v (sort_q l) = at_q v l.
Proof. induction l as [|x l IH]; [reflexivity|]. change (sort_q (x :: l)) with (insert x (sort_q l)). rewrite insert_stable by apply sort_sorted. now rewrite !at_q_cons, IH. Qed.
(** ** construction *)
Definition good_triple (t : R * list Qc * R) (r : reflection) : Prop := exists h k m, snd (fst t) = [h; k; m] /\ d_ r = fst (fst t) /\ q_ r = snd t /\ hkl_ r = (py_int h, py_int k, py_int m).
Lemma make_all_some l rs : make_all l = Some rs <-> Forall2 good_triple l rs.
Proof.
  revert rs. induction l as [|[[d h] q] l IH]; intros rs; cbn [make_all].
  - split; [intros [= <-]; constructor|]. intros H. now inversion H.
  - split.
    + destruct (make_hkl h) as [hk|] eqn:E; [|discriminate]. cbn [bind]. destruct (make_all l) as [r|]; [|discriminate]. cbn [bind]. intros [= <-]. constructor; [|now apply IH].
      unfold make_hkl in E. destruct h as [|a [|b [|c [|]]]]; try discriminate. injection E as <-. exists a, b, c. auto.
    + intros H. inversion H as [|? r ? rest (a & b & c & E1 & E2 & E3 & E4) F]; subst. cbn in *. subst h. cbn [make_hkl bind]. apply IH in F. rewrite F. cbn [bind]. destruct r; cbn in *. congruence.
Qed.
Theorem standard_ok l s : powder_standard l = Some s -> exists rs, Forall2 good_triple l rs /\ Permutation s rs /\ StronglySorted by_q s /\ forall v, at_q v s = at_q v rs.
Proof.
  unfold powder_standard. destruct (make_all l) as [rs|] eqn:E; [|discriminate]. cbn [bind]. intros [= <-]. apply make_all_some in E. exists rs. split; [exact E|]. split; [apply sort_perm|]. split; [apply sort_sorted|]. intros v. apply sort_stable.
Qed.
Theorem standard_fails l : powder_standard l = None <-> exists d h q, In (d, h, q) l /\ length h <> 3%nat.
Proof.
  unfold powder_standard. induction l as [|[[d h] q] l IH]; cbn [make_all bind]; [split; [discriminate|intros (d & h & q & [] & _)]|]. split.
  - intros H. destruct (make_hkl h) as [hk|] eqn:E.
    + cbn [bind] in H. destruct (make_all l) as [r|]; [discriminate|]. destruct (proj1 IH eq_refl) as (d' & h' & q' & I & N). exists d', h', q'. split; [now right|exact N].
    + exists d, h, q. split; [now left|]. destruct h as [|a [|b [|c [|]]]]; try discriminate; cbn; lia.
  - intros (d' & h' & q' & [[= -> -> ->]|I] & N).
    + destruct h' as [|a [|b [|c [|]]]]; cbn in *; try reflexivity. lia.
    + destruct (make_hkl h); [|reflexivity]. cbn [bind]. destruct (make_all l); [|reflexivity]. destruct IH as [_ IH]. discriminate IH. eauto 6.
Qed.
Lemma F2_length {A B} (P : A -> B -> Prop) a b : Forall2 P a b -> length a = length b.
Proof. induction 1; cbn; congruence. Qed.
(** ** zip *)
Definition labelled (h : option (list (list Qc))) (i : nat) : option (list Qc) := match h with Some h => nth_error h i | None => Some [0%Qc; 0%Qc; 0%Qc] end.
Lemma combine_nth_error {A B} (a : list A) : forall (b : list B) i, nth_error (combine a b) i = match nth_error a i, nth_error b i with Some x, Some y => Some (x, y) | _, _ => None end.
Proof.
  induction a as [|x a IH]; intros b i; [cbn; destruct i; reflexivity|]. destruct b as [|y b]; [cbn; destruct i; cbn; [reflexivity|destruct (nth_error a i); reflexivity]|].
  destruct i; cbn; [reflexivity|apply IH].
Qed.
Lemma nth_repeat' {A} (x : A) n i : nth_error (repeat x n) i = if (i <? n)%nat then Some x else None.
Proof. revert i. induction n as [|n IH]; intros [|i]; cbn; try reflexivity. rewrite IH. reflexivity. Qed.
Lemma zip3_nth d h q i : nth_error (zip3 d h q) i = match nth_error d i, labelled h i, nth_error q i with Some a, Some l, Some c => Some (a, l, c) | _, _, _ => None end.
Proof.
  unfold zip3. rewrite !combine_nth_error. destruct h as [h|]; cbn [labelled].
  - destruct (nth_error d i); [|reflexivity]. destruct (nth_error h i); [|reflexivity]. now destruct (nth_error q i).
  - destruct (nth_error d i) eqn:E; [|reflexivity]. rewrite nth_repeat'. assert (L : (i < length d)%nat) by (apply nth_error_Some; congruence). rewrite (proj2 (Nat.ltb_lt _ _) L). reflexivity.
Qed.
Lemma zip3_len d h q : length (zip3 d h q) = Nat.min (Nat.min (length d) (match h with Some h => length h | None => length d end)) (length q).
Proof. unfold zip3. rewrite !combine_length. destruct h; [reflexivity|]. now rewrite repeat_length. Qed.
Definition used (n : nat) (h : option (list (list Qc))) : nat := match h with Some h => Nat.min n (length h) | None => n end.
Theorem from_angles wl tt h s : from_lambda_2theta_hkl wl tt h = Some s ->
  exists rs, length rs = used (length tt) h /\
  (forall i, (i < length rs)%nat -> exists r t a b c, nth_error rs i = Some r /\ nth_error tt i = Some t /\ labelled h i = Some [a; b; c] /\ q_ r = twotheta_to_q t wl /\ d_ r = q_to_d (q_ r) /\ hkl_ r = (py_int a, py_int b, py_int c)) /\
  Permutation s rs /\ StronglySorted by_q s /\ forall v, at_q v s = at_q v rs.
Proof.
  unfold from_lambda_2theta_hkl. intros H. apply standard_ok in H as (rs & F & P & S & ST). set (q := map (fun t => twotheta_to_q t wl) tt) in *. exists rs.
  assert (LR : length rs = used (length tt) h).
  { rewrite <- (F2_length _ _ _ F). rewrite zip3_len. unfold used, q. rewrite !map_length. destruct h; lia. }
  split; [exact LR|]. split; [|auto]. intros i I.
  destruct (nth_error rs i) as [r|] eqn:ER; [|apply nth_error_None in ER; lia].
  assert (G : exists t3, nth_error (zip3 (map q_to_d q) h q) i = Some t3 /\ good_triple t3 r).
  { clear - F ER. revert i ER. induction F as [|t3 r' l rs G F IH]; intros [|i] E; try discriminate; cbn in *; [injection E as ->; eauto|now apply IH]. }
  destruct G as (t3 & E3 & a & b & c & E1 & E2 & EQ & EH). rewrite zip3_nth in E3. destruct (nth_error (map q_to_d q) i) as [dd|] eqn:ED; [|discriminate]. destruct (labelled h i) as [lb|] eqn:EL; [|discriminate]. destruct (nth_error q i) as [qq|] eqn:EQQ; [|discriminate]. injection E3 as <-. cbn in *. subst lb.
  rewrite nth_error_map, EQQ in ED. cbn in ED. injection ED as <-. unfold q in EQQ. rewrite nth_error_map in EQQ. destruct (nth_error tt i) as [t|] eqn:ET; [|discriminate]. cbn in EQQ. injection EQQ as <-.
  exists r, t, a, b, c. rewrite EQ, E2. auto 8.
Qed.
Lemma SS_map' {A B} (f : A -> B) (R : B -> B -> Prop) l : StronglySorted (fun a b => R (f a) (f b)) l -> StronglySorted R (map f l).
Proof. induction 1 as [|a l S IH F]; cbn; constructor; auto. apply Forall_forall. intros b I. apply in_map_iff in I as (c & <- & I). eapply Forall_forall in F; eauto. Qed.
(** the angles come back, sorted *)
Theorem angles_back wl tt h s : 0 < wl -> Forall (fun t => 0 <= t <= PI) tt -> used (length tt) h = length tt -> from_lambda_2theta_hkl wl tt h = Some s ->
  Permutation (convert_2theta s wl) tt /\ StronglySorted Rle (convert_2theta s wl).
Proof.
  intros W T U H. apply from_angles in H as (rs & L & N & P & S & _). assert (E : map (fun r => q_to_twotheta (q_ r) wl) rs = tt).
  { apply nth_error_ext_len; [rewrite map_length; lia|]. intros i I. rewrite map_length in I. destruct (N i I) as (r & t & a & b & c & ER & ET & _ & Q & _). rewrite nth_error_map, ER, ET. cbn. f_equal. rewrite Q.
    apply nth_error_In in ET. eapply Forall_forall in T; [|exact ET]. cbv beta in T. apply tt_roundtrip; lra. }
  split; [unfold convert_2theta; rewrite P, E; reflexivity|]. unfold convert_2theta. apply SS_map'.
  assert (B : Forall (fun r => exists t, 0 <= t <= PI /\ q_ r = twotheta_to_q t wl) s).
  { apply Forall_forall. intros r I. apply (Permutation_in _ P) in I. apply In_nth_error in I as [i Ei]. assert (I : (i < length rs)%nat) by (apply nth_error_Some; congruence).
    destruct (N i I) as (r' & t & _ & _ & _ & ER & ET & _ & Q & _). exists t. split; [|congruence]. apply nth_error_In in ET. eapply Forall_forall in T; [|exact ET]. exact T. }
  clear - S B W. induction S as [|a l S IH F]; [constructor|]. inversion B as [|? ? (t & Ht & Qt) B']; subst. constructor; [now apply IH|]. clear IH S. apply Forall_forall. intros b I.
  eapply Forall_forall in B'; [|exact I]. destruct B' as (u & Hu & Qu). eapply Forall_forall in F; [|exact I]. unfold by_q in F. rewrite Qt, Qu in *. rewrite !tt_roundtrip by lra.
  destruct (Rle_dec t u) as [K|K]; [exact K|]. exfalso. assert (X : twotheta_to_q u wl < twotheta_to_q t wl) by (apply tt_increasing; lra). lra.
Qed.
(** Bragg's law, and the same reflections at another wavelength *)
Theorem other_wavelength wl tt h s wl' : 0 < wl -> 0 < wl' -> Forall (fun t => 0 < t <= PI) tt -> from_lambda_2theta_hkl wl tt h = Some s ->
  forall r, In r s -> q_ r <= 4 * PI / wl' -> wl' = 2 * d_ r * sin (q_to_twotheta (q_ r) wl' / 2).
Proof.
  intros W W' T H r I Q. apply from_angles in H as (rs & L & N & P & _). apply (Permutation_in _ P) in I. apply In_nth_error in I as [i Ei]. assert (IL : (i < length rs)%nat) by (apply nth_error_Some; congruence).
  destruct (N i IL) as (r' & t & _ & _ & _ & ER & ET & _ & Qr & D & _). assert (r' = r) by congruence. subst r'. apply nth_error_In in ET. eapply Forall_forall in T; [|exact ET]. cbv beta in T.
  assert (QP : 0 < q_ r). { rewrite Qr. unfold twotheta_to_q. pose proof PI_RGT_0. apply Rmult_lt_0_compat; [apply Rdiv_lt_0_compat; lra|]. apply sin_gt_0; lra. }
  rewrite D. unfold q_to_d. assert (X : twotheta_to_q (q_to_twotheta (q_ r) wl') wl' = q_ r). { apply q_roundtrip; [exact W'|]. rewrite Rabs_pos_eq by lra. exact Q. }
  unfold twotheta_to_q in X. set (sn := sin _) in *. clearbody sn. pose proof PI_RGT_0. assert (E : sn = q_ r * wl' / (4 * PI)) by (rewrite <- X; field; lra). rewrite E. field. lra.
Qed.
Theorem from_d_ok d h s : Forall (fun x => 0 < x) d -> from_d d h = Some s ->
  Permutation (map d_ s) (firstn (used (length d) h) d) /\ StronglySorted (fun a b => b <= a) (map d_ s) /\ Forall (fun r => q_ r * d_ r = 2 * PI) s.
Proof.
  unfold from_d. intros D H. apply standard_ok in H as (rs & F & P & S & _).
  assert (G : forall i r, nth_error rs i = Some r -> exists v, nth_error d i = Some v /\ d_ r = v /\ q_ r = d_to_q v).
  { intros i r ER. assert (G : exists t3, nth_error (zip3 d h (map d_to_q d)) i = Some t3 /\ good_triple t3 r).
    { clear - F ER. revert i ER. induction F as [|t3 r' l rs G F IH]; intros [|i] E; try discriminate; cbn in *; [injection E as ->; eauto|now apply IH]. }
    destruct G as (t3 & E3 & a & b & c & E1 & E2 & EQ & EH). rewrite zip3_nth, nth_error_map in E3. destruct (nth_error d i) as [v|]; [|discriminate]. destruct (labelled h i); [|discriminate]. cbn in E3. injection E3 as <-. cbn in *. eauto. }
  assert (LR : length rs = used (length d) h). { rewrite <- (F2_length _ _ _ F), zip3_len, map_length. unfold used. destruct h; lia. }
  assert (E : map d_ rs = firstn (used (length d) h) d).
  { assert (LE : (length rs <= length d)%nat) by (rewrite LR; unfold used; destruct h; lia). apply nth_error_ext_len; [rewrite map_length, firstn_length; lia|]. intros i I. rewrite map_length in I.
    destruct (nth_error rs i) as [r|] eqn:ER; [|apply nth_error_None in ER; lia]. rewrite nth_error_map, ER. cbn. destruct (G i r ER) as (v & EV & <- & _).
    assert (FN : forall n (m : list R) k, (k < n)%nat -> nth_error (firstn n m) k = nth_error m k). { induction n as [|n IH]; intros [|x m] [|k] K; cbn; try lia; try reflexivity. apply IH. lia. }
    rewrite FN by lia. now rewrite EV. }
  assert (Q : Forall (fun r => 0 < d_ r /\ q_ r * d_ r = 2 * PI) s).
  { apply Forall_forall. intros r I. apply (Permutation_in _ P) in I. apply In_nth_error in I as [i ER]. destruct (G i r ER) as (v & EV & Dv & Qv). apply nth_error_In in EV. eapply Forall_forall in D; [|exact EV]. cbv beta in D. rewrite Dv, Qv. unfold d_to_q. split; [exact D|]. field. lra. }
  split; [rewrite P, E; reflexivity|]. split; [|eapply Forall_impl; [|exact Q]; cbv beta; tauto].
  apply SS_map'. clear - S Q. induction S as [|a l S IH F]; [constructor|]. inversion Q as [|? ? [Da Qa] Q']; subst. constructor; [now apply IH|]. apply Forall_forall. intros b I. eapply Forall_forall in Q'; [|exact I]. destruct Q' as [Db Qb]. eapply Forall_forall in F; [|exact I]. unfold by_q in F.
  destruct (Rle_dec (d_ b) (d_ a)) as [K|K]; [exact K|]. exfalso. pose proof PI_RGT_0. assert (QA : 0 < q_ a). { destruct (Rle_dec (q_ a) 0); [|lra]. assert (q_ a * d_ a <= 0) by nra. lra. } nra.
Qed.
(** int() *)
Lemma py_int_Z z : py_int (qz z) = z.
Proof.
  assert (F : forall w, Qfloor (this (qz w)) = w).
  { intros w. apply Qfloor_unique; qclra. }
  unfold py_int. destruct (Qc_ltb _ _); [|apply F]. replace (- qz z)%Qc with (qz (- z)); [rewrite F; lia|].
  apply qz_opp.
Qed.

Lemma py_int_trunc x : let n := py_int x in
  ((0 <= x -> qz n <= x /\ x < qz n + 1) /\ (x <= 0 -> x <= qz n /\ qz n - 1 < x))%Qc.
Proof.
  unfold py_int. cbv zeta. destruct (Qc_ltb_spec x 0%Qc) as [H|H]; (split; intros K).
  - exfalso. exact (Qclt_not_le _ _ H K).
  - pose proof (Qfloor_qc (- x)%Qc) as [A B]. rewrite qz_opp. set (f := qz _) in *. clearbody f. split; qclra.
  - exact (Qfloor_qc x).
  - assert (x = 0)%Qc as -> by (apply Qcle_antisym; [exact K|now apply Qcnot_lt_le]). split; [apply Qcle_refl|reflexivity].
Qed.
