From Coq Require Import Permutation Sorted.
From Verif Require Import Common QcArith Peak_Model Peak_Spec.
From Coq Require Import Reals Lra.
Local Open Scope R_scope.

(** ** windows *)
Lemma pyslice_len {A} (l : list A) lo hi : length (pyslice l lo hi) = (Z.to_nat (pybound (Z.of_nat (length l)) hi) - Z.to_nat (pybound (Z.of_nat (length l)) lo))%nat.
Proof.
  unfold pyslice. rewrite firstn_length, skipn_length. set (n := length l).
  assert (Z.to_nat (pybound (Z.of_nat n) hi) <= n)%nat by (unfold pybound; destruct (hi <? 0)%Z eqn:E; lia). lia.
Qed.
Lemma pyslice_nth {A} (l : list A) lo hi k : (k < length (pyslice l lo hi))%nat -> nth_error (pyslice l lo hi) k = nth_error l (Z.to_nat (pybound (Z.of_nat (length l)) lo) + k).
Proof.
  intros H. pose proof (pyslice_len l lo hi) as E. rewrite E in H. unfold pyslice. set (a := Z.to_nat (pybound _ lo)) in *. set (b := Z.to_nat (pybound _ hi)) in *. clearbody a b. clear E.
  revert k H. intros k H. assert (F : forall n (m : list A) i, (i < n)%nat -> nth_error (firstn n m) i = nth_error m i).
  { induction n as [|n IH]; intros [|x m] [|i] Hi; cbn; try lia; try reflexivity. apply IH. lia. }
  rewrite F by lia. clear. revert l. induction a as [|a IH]; intros l; [reflexivity|]. destruct l; [destruct k; reflexivity|]. apply IH.
Qed.
Lemma window_around {A} (l : list A) i w : (0 <= i < Z.of_nat (length l))%Z -> (0 <= w)%Z -> around l i w (window_of (Z.of_nat (length l)) l i w).
Proof.
  intros Hi Hw. exists (Z.max 0 (i - w)). split; [reflexivity|]. unfold window_of. set (n := Z.of_nat (length l)) in *.
  assert (B1 : pybound n (Z.max 0 (i - w)) = Z.max 0 (i - w)) by (unfold pybound; destruct (_ <? 0)%Z eqn:E; lia).
  assert (B2 : pybound n (Z.min n (i + w + 1)) = Z.min n (i + w + 1)) by (unfold pybound; destruct (_ <? 0)%Z eqn:E; lia).
  split.
  - rewrite pyslice_len. fold n. rewrite B1, B2. lia.
  - intros k Hk. rewrite pyslice_nth by exact Hk. fold n. now rewrite B1.
Qed.
Lemma around_unique {A} (l : list A) i w r r' : around l i w r -> around l i w r' -> r = r'.
Proof.
  intros (lo & -> & L & N) (lo' & -> & L' & N'). assert (E : length r = length r') by lia.
  apply nth_error_ext_len; [exact E|]. intros k K. rewrite N, N' by lia. reflexivity.
Qed.
Lemma around_in {A} (l : list A) i w r : (0 <= i < Z.of_nat (length l))%Z -> (0 <= w)%Z -> around l i w r ->
  forall v, In v r <-> exists k, (Z.abs (Z.of_nat k - i) <= w)%Z /\ nth_error l k = Some v.
Proof.
  intros Hi Hw (lo & -> & L & N) v. split.
  - intros I. apply In_nth_error in I as [k E]. assert (K : (k < length r)%nat) by (apply nth_error_Some; congruence). rewrite N in E by exact K.
    eexists. split; [|exact E]. lia.
  - intros (k & K & E). assert (KL : (k < length l)%nat) by (apply nth_error_Some; congruence).
    apply (nth_error_In r (k - Z.to_nat (Z.max 0 (i - w)))). rewrite N by lia. replace (Z.to_nat (Z.max 0 (i - w)) + (k - Z.to_nat (Z.max 0 (i - w))))%nat with k by lia. exact E.
Qed.
(** ** peak_refinement *)
Section Refine.
Context {A B C : Type} (refine : list A -> list A -> refined (B * C)).
Definition outcome (x y : list A) (w : Z) (c : Z) : refined (B * C) := refine (window_of (Z.of_nat (length x)) x c w) (window_of (Z.of_nat (length x)) y c w).
Lemma refine_all_some x y w cands l : refine_all refine x y w cands = Some l <-> survivors (outcome x y w) cands l.
Proof.
  revert l. induction cands as [|c cs IH]; intros l; cbn [refine_all].
  - split; [intros [= <-]; constructor|]. intros H. now inversion H.
  - fold (outcome x y w c). destruct (outcome x y w c) as [p| |] eqn:E.
    + destruct (refine_all refine x y w cs) as [rest|] eqn:R; cbn [bind].
      * split. { intros [= <-]. apply s_keep; [exact E|]. now apply IH. }
        intros H. inversion H as [|? ? ? ? E' S|? ? ? E' S]; subst; rewrite E in E'; [|discriminate]. injection E' as <-. apply IH in S. congruence.
      * split; [discriminate|]. intros H. inversion H as [|? ? ? ? E' S|? ? ? E' S]; subst; rewrite E in E'; [|discriminate]. apply IH in S. discriminate.
    + rewrite IH. split; [intros; now apply s_drop|]. intros H. inversion H as [|? ? ? ? E' S|? ? ? E' S]; subst; rewrite E in E'; [discriminate|exact S].
    + split; [discriminate|]. intros H. inversion H as [|? ? ? ? E' S|? ? ? E' S]; subst; rewrite E in E'; discriminate.
Qed.
Lemma refine_all_none x y w cands : refine_all refine x y w cands = None <-> exists c, In c cands /\ outcome x y w c = Raised.
Proof.
  induction cands as [|c cs IH]; cbn [refine_all]; [split; [discriminate|intros (c & [] & _)]|]. fold (outcome x y w c). destruct (outcome x y w c) as [p| |] eqn:E.
  - destruct (refine_all refine x y w cs) as [rest|]; cbn [bind].
    + split; [discriminate|]. intros (d & [->|I] & H); [congruence|]. destruct IH as [_ IH]. specialize (IH (ex_intro _ d (conj I H))). discriminate.
    + split; [|reflexivity]. intros _. destruct IH as [IH _]. destruct (IH eq_refl) as (d & I & H). exists d. split; [now right|exact H].
  - rewrite IH. split; intros (d & I & H); exists d; (split; [|exact H]); [now right|]. destruct I as [->|I]; [congruence|exact I].
  - split; [|reflexivity]. intros _. exists c. split; [now left|exact E].
Qed.
Theorem refinement_ok x y cands w : length x = length y -> valid_cands x cands -> (0 <= w)%Z ->
  forall out, (forall c xs ys, In c cands -> around x c w xs -> around y c w ys -> out c = refine xs ys) ->
  (peak_refinement refine x y cands w = None <-> exists c, In c cands /\ out c = Raised) /\
  (forall l, survivors out cands l -> peak_refinement refine x y cands w = Some (match l with [] => None | _ => Some (map fst l, map snd l) end)) /\
  ((forall c, In c cands -> out c <> Raised) -> exists l, survivors out cands l).
Proof.
  intros L V W out O.
  assert (EO : forall c, In c cands -> out c = outcome x y w c).
  { intros c I. unfold outcome. eapply Forall_forall in V; [|exact I]. apply O; [exact I|now apply window_around|]. rewrite L in *. now apply window_around. }
  assert (ES : forall cs l, incl cs cands -> survivors out cs l <-> survivors (outcome x y w) cs l).
  { induction cs as [|c cs IH]; intros l I.
    - split; intros H; inversion H; constructor.
    - assert (IC : incl cs cands) by (intros d D; apply I; now right). assert (E : out c = outcome x y w c) by (apply EO, I; now left).
      split; intros H; inversion H as [|? ? ? ? E' S|? ? ? E' S]; subst; [apply s_keep|apply s_drop|apply s_keep|apply s_drop]; try congruence; now apply IH. }
  split; [|split].
  - unfold peak_refinement. destruct (refine_all refine x y w cands) as [l|] eqn:R; cbn [bind].
    + split; [discriminate|]. intros (c & I & H). rewrite EO in H by exact I. assert (X : refine_all refine x y w cands = None) by (apply refine_all_none; eauto). congruence.
    + split; [|reflexivity]. intros _. apply refine_all_none in R as (c & I & H). exists c. split; [exact I|]. now rewrite EO.
  - intros l H. apply ES in H; [|apply incl_refl]. apply refine_all_some in H. unfold peak_refinement. rewrite H. reflexivity.
  - intros NR. destruct (refine_all refine x y w cands) as [l|] eqn:R.
    + exists l. apply ES; [apply incl_refl|]. now apply refine_all_some.
    + apply refine_all_none in R as (c & I & H). rewrite <- EO in H by exact I. now destruct (NR c I).
Qed.
End Refine.
(** ** filters *)
Lemma takes_ok {A} (d : A) (l : list A) is : Forall (fun i => 0 <= i < Z.of_nat (length l))%Z is -> takes l is = Some (map (fun i => nth (Z.to_nat i) l d) is).
Proof.
  induction 1 as [|i is H _ IH]; [reflexivity|]. cbn [takes map]. unfold pyindex. rewrite (proj2 (Z.leb_le _ _)), (proj2 (Z.ltb_lt _ _)) by lia. cbn [andb bind].
  rewrite (nth_error_nth' l d) by lia. cbn [bind]. now rewrite IH.
Qed.
Lemma SS_app {A} (R : A -> A -> Prop) l1 l2 : StronglySorted R (l1 ++ l2) -> StronglySorted R l1 /\ StronglySorted R l2 /\ forall a b, In a l1 -> In b l2 -> R a b.
Proof.
  induction l1 as [|x l1 IH]; cbn; [intros H; repeat split; auto; [constructor|contradiction]|]. intros H. inversion H as [|? ? S F]; subst. destruct (IH S) as (A1 & A2 & A3). repeat split; auto.
  - constructor; [exact A1|]. apply Forall_app in F. tauto.
  - intros a b [->|I] J; [|auto]. apply Forall_app in F as [_ F]. eapply Forall_forall in F; eauto.
Qed.
Lemma SS_map {A B} (f : A -> B) (R : B -> B -> Prop) l : StronglySorted (fun a b => R (f a) (f b)) l -> StronglySorted R (map f l).
Proof.
  induction 1 as [|a l S IH F]; cbn; constructor; auto. apply Forall_forall. intros b I. apply in_map_iff in I as (c & <- & I). eapply Forall_forall in F; eauto.
Qed.
Lemma SS_rev {A} (R : A -> A -> Prop) l : StronglySorted R l -> StronglySorted (fun a b => R b a) (rev l).
Proof.
  induction 1 as [|a l S IH F]; cbn; [constructor|].
  assert (G : forall l1 x, StronglySorted (fun u v => R v u) l1 -> (forall u, In u l1 -> R x u) -> StronglySorted (fun u v => R v u) (l1 ++ [x])).
  { induction l1 as [|y l1 IH1]; intros x S1 H; cbn; [repeat constructor|]. inversion S1; subst. constructor; [apply IH1; auto; intros; apply H; now right|].
    apply Forall_app. split; [assumption|]. constructor; [apply H; now left|constructor]. }
  apply G; [exact IH|]. intros u I. apply in_rev in I. eapply Forall_forall in F; eauto.
Qed.
Lemma SS_impl {A} (R S : A -> A -> Prop) l : (forall a b, In a l -> In b l -> R a b -> S a b) -> StronglySorted R l -> StronglySorted S l.
Proof.
  intros H X. induction X as [|a l X IH F]; constructor.
  - apply IH. intros u v Iu Iv. apply H; now right.
  - apply Forall_forall. intros b I. apply H; [now left|now right|]. eapply Forall_forall in F; eauto.
Qed.
Lemma map_nth_seq {A} (d : A) (l : list A) : map (fun i => nth i l d) (seq 0 (length l)) = l.
Proof.
  apply nth_error_ext_len; [now rewrite map_length, seq_length|]. intros k K. rewrite map_length, seq_length in K.
  rewrite nth_error_map. rewrite (nth_error_nth' _ 0%nat) by now rewrite seq_length. rewrite seq_nth by exact K. cbn. symmetry. now apply nth_error_nth'.
Qed.
Theorem n_largest argsort y cands N : sorts argsort -> valid_cands y cands -> (0 < N)%Z ->
  exists r dropped, filter_n_largest argsort y cands N = inl r /\ Permutation (r ++ dropped) cands /\ length r = Nat.min (Z.to_nat N) (length cands) /\
  StronglySorted (fun a b => (height y b <= height y a)%Qc) r /\ forall a b, In a r -> In b dropped -> (height y b <= height y a)%Qc.
Proof.
  intros AS V P. unfold filter_n_largest. rewrite (proj2 (Z.leb_gt N 0)) by lia. rewrite (takes_ok 0%Qc) by exact V.
  set (h := map (fun i => nth (Z.to_nat i) y 0%Qc) cands). destruct (AS h) as [PM SS]. set (s := argsort h) in *.
  assert (LH : length h = length cands) by (unfold h; apply map_length). assert (LS : length s = length cands) by (rewrite (Permutation_length PM), seq_length; exact LH).
  assert (IS : forall i, In i s -> (i < length cands)%nat) by (intros i I; apply (Permutation_in _ PM), in_seq in I; lia).
  assert (HN : forall i, (i < length cands)%nat -> nth i h 0%Qc = height y (nth i cands 0%Z)).
  { intros i I. unfold h, height. rewrite (nth_indep _ 0%Qc ((fun c => nth (Z.to_nat c) y 0%Qc) 0%Z)) by (rewrite map_length; exact I). apply (map_nth (fun c => nth (Z.to_nat c) y 0%Qc)). }
  set (c := (length cands - Z.to_nat N)%nat).
  assert (E : (if (Z.of_nat (length cands) <? N)%Z then s else pyslice s (- N) (Z.of_nat (length s))) = skipn c s).
  { destruct (Z.ltb_spec (Z.of_nat (length cands)) N) as [H|H]; [replace c with 0%nat by lia; reflexivity|].
    unfold pyslice, pybound. rewrite LS. rewrite (proj2 (Z.ltb_lt (- N) 0)), (proj2 (Z.ltb_ge (Z.of_nat (length cands)) 0)) by lia.
    replace (Z.to_nat (Z.max 0 (Z.of_nat (length cands) + - N))) with c by lia. replace (Z.to_nat (Z.min (Z.of_nat (length cands)) (Z.of_nat (length cands)))) with (length cands) by lia.
    apply firstn_all2. rewrite skipn_length. lia. }
  cbv zeta. rewrite E. clear E.
  assert (D : s = firstn c s ++ skipn c s) by (symmetry; apply firstn_skipn).
  assert (T : takes cands (map Z.of_nat (skipn c s)) = Some (map (fun i => nth i cands 0%Z) (skipn c s))).
  { rewrite (takes_ok 0%Z). - rewrite map_map. f_equal. apply map_ext. intros i. now rewrite Nat2Z.id.
    - apply Forall_forall. intros z I. apply in_map_iff in I as (i & <- & I). assert (In i s) by (rewrite D; apply in_or_app; now right). specialize (IS i H). lia. }
  rewrite T. exists (rev (map (fun i => nth i cands 0%Z) (skipn c s))), (map (fun i => nth i cands 0%Z) (firstn c s)). split; [reflexivity|].
  rewrite D in SS. destruct (SS_app _ _ _ SS) as (S1 & S2 & S12).
  assert (I1 : forall i, In i (firstn c s) -> (i < length cands)%nat) by (intros i I; apply IS; rewrite D; apply in_or_app; now left).
  assert (I2 : forall i, In i (skipn c s) -> (i < length cands)%nat) by (intros i I; apply IS; rewrite D; apply in_or_app; now right).
  split; [|split; [|split]].
  - rewrite <- Permutation_rev. rewrite Permutation_app_comm, <- map_app, <- D. rewrite PM, LH, map_nth_seq. reflexivity.
  - rewrite rev_length, map_length, skipn_length. lia.
  - apply (SS_rev (fun a b => (height y a <= height y b)%Qc)). apply SS_map. eapply SS_impl; [|exact S2]. intros a b Ia Ib. cbv beta. rewrite !HN by auto. auto.
  - intros a b Ia Ib. rewrite <- in_rev in Ia. apply in_map_iff in Ia as (i & <- & Ii). apply in_map_iff in Ib as (j & <- & Ij). specialize (S12 j i Ij Ii). cbv beta in S12. rewrite !HN in S12 by auto. exact S12.
Qed.
Theorem n_largest_bad argsort y cands N : (N <= 0)%Z -> filter_n_largest argsort y cands N = inr ValueErr.
Proof. intros H. unfold filter_n_largest. now rewrite (proj2 (Z.leb_le N 0)). Qed.
Lemma qmaxl_spec l : forall a, (forall v, In v (a :: l) -> (v <= qmaxl a l)%Qc) /\ In (qmaxl a l) (a :: l).
Proof.
  induction l as [|b l IH]; intros a; cbn [qmaxl]; [split; [intros v [->|[]]; apply Qcle_refl|now left]|].
  destruct (Qc_ltb_spec a b) as [H|H]; [destruct (IH b) as [U I]|destruct (IH a) as [U I]]; split.
  - intros v [->|J]; [|auto]. eapply Qcle_trans; [apply Qclt_le_weak; exact H|apply U; now left].
  - now right.
  - apply Qcnot_lt_le in H. intros v [->|[->|J]]; [apply U; now left| |apply U; now right]. eapply Qcle_trans; [exact H|apply U; now left].
  - destruct I as [I|I]; [left; exact I|right; right; exact I].
Qed.
Lemma qminl_spec l : forall a, (forall v, In v (a :: l) -> (qminl a l <= v)%Qc) /\ In (qminl a l) (a :: l).
Proof.
  induction l as [|b l IH]; intros a; cbn [qminl]; [split; [intros v [->|[]]; apply Qcle_refl|now left]|].
  destruct (Qc_ltb_spec b a) as [H|H]; [destruct (IH b) as [U I]|destruct (IH a) as [U I]]; split.
  - intros v [->|J]; [|auto]. eapply Qcle_trans; [apply U; now left|apply Qclt_le_weak; exact H].
  - now right.
  - apply Qcnot_lt_le in H. intros v [->|[->|J]]; [apply U; now left| |apply U; now right]. eapply Qcle_trans; [apply U; now left|exact H].
  - destruct I as [I|I]; [left; exact I|right; right; exact I].
Qed.
Lemma ptp_above l t : l <> [] -> exists h, ptp l = Some h /\ ((t < h)%Qc <-> exists a b, In a l /\ In b l /\ (t < a - b)%Qc).
Proof.
  destruct l as [|x l]; [congruence|]. intros _. eexists. split; [reflexivity|]. destruct (qmaxl_spec l x) as [U1 I1]. destruct (qminl_spec l x) as [U2 I2]. split.
  - intros H. exists (qmaxl x l), (qminl x l). auto.
  - intros (a & b & Ia & Ib & H). specialize (U1 a Ia). specialize (U2 b Ib). set (M := qmaxl x l) in *. set (m := qminl x l) in *. clearbody M m. qclra.
Qed.
Theorem height_filter y cands t w : valid_cands y cands -> (0 <= w)%Z ->
  exists keep, filter_peak_height y cands t w = Some (filter keep cands) /\
  forall c, In c cands -> keep c = true <-> exists i j a b, (Z.abs (Z.of_nat i - c) <= w)%Z /\ (Z.abs (Z.of_nat j - c) <= w)%Z /\ nth_error y i = Some a /\ nth_error y j = Some b /\ (t < a - b)%Qc.
Proof.
  intros V W. exists (fun c => match ptp (window_of (Z.of_nat (length y)) y c w) with Some h => Qc_ltb t h | None => false end).
  assert (NE : forall c, (0 <= c < Z.of_nat (length y))%Z -> window_of (Z.of_nat (length y)) y c w <> []).
  { intros c Hc E. destruct (window_around y c w Hc W) as (lo & -> & L & _). rewrite E in L. cbn in L. lia. }
  split.
  - induction V as [|c cs Hc V IH]; [reflexivity|]. cbn [filter_peak_height filter]. destruct (ptp_above _ t (NE c Hc)) as (h & E & _). rewrite E. cbn [bind]. rewrite IH. reflexivity.
  - intros c I. eapply Forall_forall in V; [|exact I]. destruct (ptp_above _ t (NE c V)) as (h & E & X). rewrite E.
    pose proof (around_in y c w _ V W (window_around y c w V W)) as AI.
    assert (LT : Qc_ltb t h = true <-> (t < h)%Qc) by (destruct (Qc_ltb_spec t h); split; congruence || auto). rewrite LT, X. split.
    + intros (a & b & Ia & Ib & H). apply AI in Ia as (i & Hi & Ei). apply AI in Ib as (j & Hj & Ej). exists i, j, a, b. auto.
    + intros (i & j & a & b & Hi & Hj & Ei & Ej & H). exists a, b. split; [apply AI; eauto|]. split; [apply AI; eauto|exact H].
Qed.
(** ** the fit *)
Lemma sq_nn (a : R) : 0 <= a * a. Proof. exact (Rle_0_sqr a). Qed.
Lemma sq0 (a : R) : a * a = 0 -> a = 0. Proof. exact (Rsqr_0_uniq a). Qed.
Lemma rsuml_nonneg l : Forall (fun v => 0 <= v) l -> 0 <= rsuml l.
Proof. induction 1; cbn; lra. Qed.
Lemma rsuml_zero l : Forall (fun v => 0 <= v) l -> rsuml l = 0 -> Forall (fun v => v = 0) l.
Proof. induction 1 as [|a l H F IH]; cbn; intros E; constructor; pose proof (rsuml_nonneg l F); [lra|apply IH; lra]. Qed.
Lemma sserr_nonneg b xs ys : 0 <= sserr b xs ys.
Proof. apply rsuml_nonneg. apply Forall_forall. intros v I. apply in_map_iff in I as (p & <- & _). apply sq_nn. Qed.
Lemma sserr_zero b xs f : sserr b xs (map f xs) = 0 <-> forall x, In x xs -> polyval b x = f x.
Proof.
  unfold sserr. assert (E : combine xs (map f xs) = map (fun x => (x, f x)) xs) by (induction xs; cbn; congruence). rewrite E, map_map. cbn [fst snd]. split.
  - intros H x I. apply rsuml_zero in H; [|apply Forall_forall; intros v J; apply in_map_iff in J as (p & <- & _); apply sq_nn].
    eapply Forall_forall in H; [|apply in_map_iff; exists x; split; [reflexivity|exact I]]. cbv beta in H. apply sq0 in H. lra.
  - intros H. induction xs as [|x xs IH]; [reflexivity|]. cbn [map rsuml]. rewrite IH by (try (cbn in E; injection E; auto); intros; apply H; now right). rewrite (H x) by now left. ring.
Qed.
Lemma quad_three_roots a b c p q r : p <> q -> p <> r -> q <> r -> a * p * p + b * p + c = 0 -> a * q * q + b * q + c = 0 -> a * r * r + b * r + c = 0 -> a = 0 /\ b = 0 /\ c = 0.
Proof.
  intros N1 N2 N3 E1 E2 E3.
  assert (F1 : (p - q) * (a * (p + q) + b) = 0) by nra. assert (F2 : (p - r) * (a * (p + r) + b) = 0) by nra.
  apply Rmult_integral in F1 as [F1|F1]; [lra|]. apply Rmult_integral in F2 as [F2|F2]; [lra|].
  assert (F3 : a * (q - r) = 0) by nra. apply Rmult_integral in F3 as [F3|F3]; [|lra]. subst a. assert (b = 0) by lra. subst b. split; [reflexivity|]. split; [reflexivity|]. nra.
Qed.
Section Fit.
Context (lstsq : list R -> list R -> beta) (LSQ : least_squares lstsq).
Lemma lstsq_exact xs a c h : three_points xs -> lstsq xs (map (parabola a c h) xs) = (a, - (2 * a * c), a * c * c + h).
Proof.
  intros (p & q & r & Ip & Iq & Ir & N1 & N2 & N3). set (f := parabola a c h).
  assert (Z : sserr (lstsq xs (map f xs)) xs (map f xs) = 0).
  { apply Rle_antisym; [|apply sserr_nonneg]. eapply Rle_trans; [apply (LSQ xs (map f xs) (a, - (2 * a * c), a * c * c + h)); now rewrite map_length|].
    right. apply sserr_zero. intros x _. unfold polyval, f, parabola. ring. }
  destruct (lstsq xs (map f xs)) as [[b0 b1] b2]. pose proof (proj1 (sserr_zero _ _ _) Z) as H.
  assert (G : forall x, In x xs -> (b0 - a) * x * x + (b1 + 2 * a * c) * x + (b2 - (a * c * c + h)) = 0).
  { intros x I. specialize (H x I). unfold polyval, f, parabola in H. lra. }
  destruct (quad_three_roots _ _ _ p q r N1 N2 N3 (G p Ip) (G q Iq) (G r Ir)) as (E1 & E2 & E3).
  replace b0 with a by lra. replace b1 with (- (2 * a * c)) by lra. replace b2 with (a * c * c + h) by lra. reflexivity.
Qed.
Lemma three_len xs : three_points xs -> (3 <= length xs)%nat.
Proof.
  intros (p & q & r & Ip & Iq & Ir & N1 & N2 & N3). assert (ND : NoDup [p; q; r]) by (repeat constructor; cbn; intuition).
  apply (NoDup_incl_length ND). intros x [->|[->|[->|[]]]]; assumption.
Qed.
Lemma sstot_nonneg ys : 0 <= sstot ys.
Proof. apply rsuml_nonneg. apply Forall_forall. intros v I. apply in_map_iff in I as (p & <- & _). apply sq_nn. Qed.
Lemma sstot_zero ys u v : In u ys -> In v ys -> sstot ys = 0 -> u = v.
Proof.
  intros Iu Iv H. apply rsuml_zero in H; [|apply Forall_forall; intros w J; apply in_map_iff in J as (p & <- & _); apply sq_nn].
  assert (G : forall w, In w ys -> w = mean ys). { intros w I. eapply Forall_forall in H; [|apply in_map_iff; exists w; split; [reflexivity|exact I]]. cbv beta in H. apply sq0 in H. lra. }
  rewrite (G u Iu). symmetry. auto.
Qed.
Lemma sstot_parabola xs a c h : a <> 0 -> three_points xs -> sstot (map (parabola a c h) xs) <> 0.
Proof.
  intros NA (p & q & r & Ip & Iq & Ir & N1 & N2 & N3) H. set (f := parabola a c h) in *.
  assert (E1 : f p = f q) by (eapply sstot_zero; [| |exact H]; now apply in_map). assert (E2 : f p = f r) by (eapply sstot_zero; [| |exact H]; now apply in_map).
  unfold f, parabola in *. assert (F1 : a * ((p - q) * (p + q - 2 * c)) = 0) by nra. assert (F2 : a * ((p - r) * (p + r - 2 * c)) = 0) by nra.
  apply Rmult_integral in F1 as [F1|F1]; [contradiction|]. apply Rmult_integral in F2 as [F2|F2]; [contradiction|].
  apply Rmult_integral in F1 as [F1|F1]; [lra|]. apply Rmult_integral in F2 as [F2|F2]; lra.
Qed.
Theorem fit_exact xs a c h : a <> 0 -> three_points xs -> fit_quad_to_peak lstsq xs (map (parabola a c h) xs) = Some ((a, Some c, Some h), Some 1).
Proof.
  intros NA T. unfold fit_quad_to_peak. pose proof (three_len xs T). rewrite (proj2 (Nat.ltb_ge _ _)) by assumption. rewrite map_length, Nat.eqb_refl. cbn [negb orb].
  rewrite (lstsq_exact xs a c h T). unfold fin_div. destruct (Req_EM_T (2 * a) 0) as [E|_]; [lra|]. destruct (Req_EM_T _ 0) as [E|_]; [now apply sstot_parabola in E|]. cbn [bind].
  rewrite (proj2 (sserr_zero (a, - (2 * a * c), a * c * c + h) xs (parabola a c h))) by (intros x _; unfold polyval, parabola; ring).
  f_equal. f_equal; [f_equal; [f_equal|]|]; f_equal.
  - field. exact NA.
  - field. exact NA.
  - field. now apply sstot_parabola.
Qed.
(** the mean is one of the quadratics *)
Lemma sserr_mean xs ys : length xs = length ys -> sserr (0, 0, mean ys) xs ys = sstot ys.
Proof.
  unfold sserr, sstot. generalize (mean ys). intros m. revert ys. induction xs as [|x xs IH]; intros [|y ys] L; try discriminate; [reflexivity|]. cbn [combine map rsuml fst snd]. rewrite IH by (cbn in L; lia).
  unfold polyval. ring.
Qed.
Theorem r2_range xs ys : (3 <= length xs)%nat -> length xs = length ys -> (exists u v, In u ys /\ In v ys /\ u <> v) ->
  exists q r, fit_quad_to_peak lstsq xs ys = Some (q, Some r) /\ 0 <= r <= 1.
Proof.
  intros L E (u & v & Iu & Iv & N). unfold fit_quad_to_peak. rewrite (proj2 (Nat.ltb_ge _ _)) by exact L. rewrite E, Nat.eqb_refl. cbn [negb orb].
  destruct (lstsq xs ys) as [[b0 b1] b2] eqn:B. unfold fin_div at 3. destruct (Req_EM_T (sstot ys) 0) as [Z|Z]; [exfalso; apply N; eapply sstot_zero; eauto|]. cbn [bind].
  eexists. eexists. split; [reflexivity|]. pose proof (sstot_nonneg ys). pose proof (sserr_nonneg (b0, b1, b2) xs ys).
  pose proof (LSQ xs ys (0, 0, mean ys) E) as M. rewrite B, sserr_mean in M by exact E. assert (P : 0 < sstot ys) by lra. split.
  - assert (sserr (b0, b1, b2) xs ys / sstot ys <= 1); [|lra]. apply Rmult_le_reg_r with (sstot ys); [exact P|]. unfold Rdiv. rewrite Rmult_assoc, Rinv_l by lra. lra.
  - assert (0 <= sserr (b0, b1, b2) xs ys / sstot ys); [|lra]. apply Rmult_le_reg_r with (sstot ys); [exact P|]. unfold Rdiv. rewrite Rmult_assoc, Rinv_l by lra. lra.
Qed.
Theorem refine_quadratic_exact thr xs a c h : a <> 0 -> three_points xs -> (forall t, thr = Some t -> t <= 1) ->
  refine_quadratic lstsq thr xs (map (parabola a c h) xs) = Found (Some c, Some h).
Proof.
  intros NA T TH. unfold refine_quadratic. rewrite fit_exact by assumption. unfold below. destruct thr as [t|]; [|reflexivity]. destruct (Rlt_dec 1 t) as [H|_]; [|reflexivity]. specialize (TH t eq_refl). lra.
Qed.
Theorem refine_quadratic_threshold thr t xs ys : thr = Some t -> (3 <= length xs)%nat -> length xs = length ys -> (exists u v, In u ys /\ In v ys /\ u <> v) ->
  (1 < t -> refine_quadratic lstsq thr xs ys = Rejected) /\ (t <= 0 -> exists p, refine_quadratic lstsq thr xs ys = Found p).
Proof.
  intros -> L E D. destruct (r2_range xs ys L E D) as ([[b0 c] h] & r & F & R). unfold refine_quadratic. rewrite F. cbn [below]. split; intros H.
  - destruct (Rlt_dec r t); [reflexivity|lra].
  - destruct (Rlt_dec r t); [lra|]. eauto.
Qed.
Theorem refine_quadratic_short thr xs ys : (length xs < 3)%nat -> refine_quadratic lstsq thr xs ys = Raised /\ refine_log_quadratic lstsq thr xs ys = Raised.
Proof.
  intros H. unfold refine_quadratic, refine_log_quadratic, fit_quad_to_peak. rewrite (proj2 (Nat.ltb_lt _ _) H). cbn [orb]. split; [reflexivity|]. now destruct (all_pos ys).
Qed.
Lemma all_pos_true ys : all_pos ys = true <-> forall y, In y ys -> 0 < y.
Proof.
  unfold all_pos. rewrite forallb_forall. split; intros H y I; specialize (H y I); destruct (Rlt_dec 0 y); auto; discriminate.
Qed.
Lemma log_gauss h c s x : 0 < h -> s <> 0 -> ln (gauss_peak h c s x) = parabola (- / (2 * s * s)) c (ln h) x.
Proof.
  intros H S. unfold gauss_peak, parabola. rewrite ln_mult by (auto; apply exp_pos). rewrite ln_exp. field. exact S.
Qed.
Lemma gauss_pos h c s x : 0 < h -> 0 < gauss_peak h c s x.
Proof. intros H. unfold gauss_peak. apply Rmult_lt_0_compat; [exact H|apply exp_pos]. Qed.
Theorem refine_log_exact thr xs h c s : 0 < h -> s <> 0 -> three_points xs -> (forall t, thr = Some t -> t <= 1) ->
  refine_log_quadratic lstsq thr xs (map (gauss_peak h c s) xs) = Found (Some c, Some h).
Proof.
  intros H S T TH. unfold refine_log_quadratic. rewrite (proj2 (all_pos_true _)) by (intros y I; apply in_map_iff in I as (x & <- & _); now apply gauss_pos).
  rewrite map_map, (map_ext _ _ (fun x => log_gauss h c s x H S)). assert (NA : - / (2 * s * s) <> 0).
  { apply Ropp_neq_0_compat, Rinv_neq_0_compat. nra. }
  rewrite fit_exact by assumption. unfold below. cbn [option_map]. rewrite exp_ln by exact H.
  destruct thr as [t|]; [|reflexivity]. destruct (Rlt_dec 1 t) as [G|_]; [|reflexivity]. specialize (TH t eq_refl). lra.
Qed.
(** ** find_largest_peak *)
Lemma argmax_from_ok : forall l pre best m, nth_error pre best = Some m -> (forall v, In v pre -> v <= m) -> (forall i v, (i < best)%nat -> nth_error pre i = Some v -> v < m) ->
  first_max (pre ++ l) (argmax_from (length pre) best m l).
Proof.
  induction l as [|a l IH]; intros pre best m E U F; cbn [argmax_from].
  - rewrite app_nil_r. exists m. auto.
  - assert (BL : (best < length pre)%nat) by (apply nth_error_Some; congruence). replace (pre ++ a :: l) with ((pre ++ [a]) ++ l) by now rewrite <- app_assoc.
    replace (S (length pre)) with (length (pre ++ [a])) by (rewrite app_length; cbn; lia). destruct (Rlt_dec m a) as [H|H].
    + apply IH.
      * rewrite nth_error_app2, Nat.sub_diag by lia. reflexivity.
      * intros v I. apply in_app_or in I as [I|[->|[]]]; [specialize (U v I); lra|lra].
      * intros i v Hi Ev. rewrite nth_error_app1 in Ev by exact Hi. apply nth_error_In in Ev. specialize (U v Ev). lra.
    + apply IH.
      * now rewrite nth_error_app1.
      * intros v I. apply in_app_or in I as [I|[->|[]]]; [auto|lra].
      * intros i v Hi Ev. rewrite nth_error_app1 in Ev by lia. eauto.
Qed.
Lemma argmax_ok y : y <> [] -> exists j, argmax y = Some j /\ first_max y j.
Proof.
  destruct y as [|a l]; [congruence|]. intros _. eexists. split; [reflexivity|]. apply (argmax_from_ok l [a] 0 a eq_refl).
  - intros v [->|[]]. lra.
  - lia.
Qed.
Lemma first_max_unique y j j' : first_max y j -> first_max y j' -> j = j'.
Proof.
  intros (m & E & U & F) (m' & E' & U' & F'). pose proof (nth_error_In _ _ E). pose proof (nth_error_In _ _ E'). destruct (Nat.lt_trichotomy j j') as [L|[->|L]]; [|reflexivity|].
  - specialize (F' j m L E). specialize (U m' H0). lra.
  - specialize (F j' m' L E'). specialize (U' m H). lra.
Qed.
Lemma slice_around {A} (l : list A) (j w : Z) : (0 <= j < Z.of_nat (length l))%Z -> (0 <= w <= j)%Z -> around l j w (pyslice l (j - w) (j + w + 1)).
Proof.
  intros J W. exists (Z.max 0 (j - w)). split; [reflexivity|]. set (n := Z.of_nat (length l)) in *.
  assert (B1 : pybound n (j - w) = (j - w)%Z) by (unfold pybound; destruct (_ <? 0)%Z eqn:E; lia).
  assert (B2 : pybound n (j + w + 1) = Z.min n (j + w + 1)) by (unfold pybound; destruct (_ <? 0)%Z eqn:E; lia).
  split.
  - rewrite pyslice_len. fold n. rewrite B1, B2. lia.
  - intros k Hk. rewrite pyslice_nth by exact Hk. fold n. rewrite B1. f_equal. lia.
Qed.
Lemma pyslice_map {A B} (f : A -> B) l lo hi : pyslice (map f l) lo hi = map f (pyslice l lo hi).
Proof.
  unfold pyslice. rewrite map_length.
  assert (K : forall a (m : list A), skipn a (map f m) = map f (skipn a m)) by (induction a as [|a IH]; intros [|x m]; cbn; auto).
  now rewrite K, firstn_map.
Qed.
Lemma peak_on x h c s j w xs : 0 < h -> 0 < s -> first_max (map (gauss_peak h c s) x) j ->
  xs = match w with Some w => pyslice x (Z.of_nat j - w) (Z.of_nat j + w + 1) | None => pyslice x 0 (-1) end -> three_points xs ->
  find_largest_peak lstsq x (map (gauss_peak h c s) x) w = Some (Some c, Some h, Some s).
Proof.
  intros H S FM XS T. unfold find_largest_peak. assert (NE : map (gauss_peak h c s) x <> []) by (intros E; rewrite E in FM; destruct FM as (m & EM & _); destruct j; discriminate).
  destruct (argmax_ok _ NE) as (j' & E & FM'). rewrite E. rewrite (first_max_unique _ _ _ FM' FM). cbn [bind]. clear E FM'.
  assert (EY : match w with Some w => pyslice (map (gauss_peak h c s) x) (Z.of_nat j - w) (Z.of_nat j + w + 1) | None => pyslice (map (gauss_peak h c s) x) 0 (-1) end = map (gauss_peak h c s) xs).
  { subst xs. destruct w; apply pyslice_map. }
  rewrite EY, <- XS. rewrite (proj2 (all_pos_true _)) by (intros y I; apply in_map_iff in I as (v & <- & _); now apply gauss_pos).
  assert (S0 : s <> 0) by lra. rewrite map_map, (map_ext _ _ (fun v => log_gauss h c s v H S0)).
  assert (P : 0 < / (2 * s * s)) by (apply Rinv_0_lt_compat; nra). rewrite fit_exact by (try lra; assumption). cbn [bind option_map]. rewrite exp_ln by exact H.
  destruct (Rlt_dec (- / (2 * s * s)) 0) as [_|N]; [|lra]. do 3 f_equal. replace (-2 * - / (2 * s * s)) with (/ (s * s)) by (field; lra).
  rewrite <- (Rmult_1_l (/ (s * s))). change (1 * / (s * s)) with (1 / (s * s)). rewrite sqrt_div_alt by nra. rewrite sqrt_1. rewrite sqrt_square by lra. field. lra.
Qed.
Theorem largest_peak_window x h c s j w xs : 0 < h -> 0 < s -> first_max (map (gauss_peak h c s) x) j -> (0 <= w <= Z.of_nat j)%Z -> around x (Z.of_nat j) w xs -> three_points xs ->
  find_largest_peak lstsq x (map (gauss_peak h c s) x) (Some w) = Some (Some c, Some h, Some s).
Proof.
  intros H S FM W AR T. apply (peak_on x h c s j (Some w) xs); auto. destruct FM as (m & E & _). assert (J : (j < length x)%nat) by (rewrite <- (map_length (gauss_peak h c s)); apply nth_error_Some; congruence).
  eapply around_unique; [exact AR|]. apply slice_around; lia.
Qed.
Theorem largest_peak_all x h c s xs last : 0 < h -> 0 < s -> x = xs ++ [last] -> three_points xs -> find_largest_peak lstsq x (map (gauss_peak h c s) x) None = Some (Some c, Some h, Some s).
Proof.
  intros H S E T. destruct (argmax_ok (map (gauss_peak h c s) x)) as (j & _ & FM); [subst x; rewrite map_app; destruct (map _ xs); discriminate|].
  apply (peak_on x h c s j None xs); auto. subst x. unfold pyslice, pybound. rewrite app_length. cbn [length]. change (0 <? 0)%Z with false. change (-1 <? 0)%Z with true. cbv iota.
  replace (Z.to_nat (Z.min (Z.of_nat (length xs + 1)) 0)) with 0%nat by lia. replace (Z.to_nat (Z.max 0 (Z.of_nat (length xs + 1) + -1))) with (length xs) by lia.
  cbn [skipn]. rewrite Nat.sub_0_r, firstn_app, firstn_all, Nat.sub_diag. cbn. symmetry. apply app_nil_r.
Qed.
(** too near to the left border: nothing is left to fit *)
Theorem largest_peak_left x y j w : length x = length y -> first_max y j -> (Z.of_nat j < w)%Z -> (2 * w < Z.of_nat (length y))%Z -> find_largest_peak lstsq x y (Some w) = None.
Proof.
  intros L FM JW WN. unfold find_largest_peak. assert (NE : y <> []) by (intros ->; destruct FM as (m & E & _); destruct j; discriminate).
  destruct (argmax_ok y NE) as (j' & E & FM'). rewrite E, (first_max_unique _ _ _ FM' FM). cbn [bind].
  assert (EM : forall A (l : list A), length l = length y -> pyslice l (Z.of_nat j - w) (Z.of_nat j + w + 1) = []).
  { intros A l LL. apply length_zero_iff_nil. rewrite pyslice_len, LL. unfold pybound. destruct (Z.ltb_spec (Z.of_nat j + w + 1) 0); [lia|]. destruct (Z.ltb_spec (Z.of_nat j - w) 0); lia. }
  rewrite (EM _ y eq_refl), (EM _ x L). reflexivity.
Qed.
End Fit.
(** ** align_and_scale *)
Definition peak_data : Type := (list R * (R * R * R))%type.
Definition spectrum (d : peak_data) : list R * list R := let '(e, (h, c, s)) := d in (e, map (gauss_peak h c s) e).
Theorem aligned find ds : (forall d e h c s, In d ds -> d = (e, (h, c, s)) -> 0 < h /\ 0 < s /\ find e (map (gauss_peak h c s) e) = Some (c, h, s)) ->
  exists out, align_and_scale find (map spectrum ds) = Some out /\ length out = length ds /\
  forall d0 e0 h0 c0 s0 i e h c s, nth_error ds 0 = Some d0 -> d0 = (e0, (h0, c0, s0)) -> nth_error ds i = Some (e, (h, c, s)) ->
    exists es, nth_error out i = Some (es, map (gauss_peak h c s) e) /\ map (gauss_peak h 0 s0) es = map (gauss_peak h c s) e /\ length es = length e.
Proof.
  intros F.
  assert (G : forall ds base, (forall b, base = Some b -> 0 < b) -> (forall d e h c s, In d ds -> d = (e, (h, c, s)) -> 0 < h /\ 0 < s /\ find e (map (gauss_peak h c s) e) = Some (c, h, s)) ->
    exists out, align_from find base (map spectrum ds) = Some out /\ length out = length ds /\
    forall b, (match base with Some b' => b = b' | None => exists e h c, nth_error ds 0 = Some (e, (h, c, b)) end) -> forall i e h c s, nth_error ds i = Some (e, (h, c, s)) ->
      exists es, nth_error out i = Some (es, map (gauss_peak h c s) e) /\ map (gauss_peak h 0 b) es = map (gauss_peak h c s) e /\ length es = length e).
  { clear ds F. induction ds as [|[e [[h c] s]] ds IH]; intros base PB F.
    - exists []. repeat split. intros b _ [|i]; discriminate.
    - destruct (F _ e h c s (or_introl eq_refl) eq_refl) as (H & S & E). cbn [map spectrum align_from]. rewrite E. cbn [bind].
      set (b := match base with None => s | Some b => b end). assert (B : 0 < b) by (unfold b; destruct base; auto).
      destruct (IH (Some b)) as (out & O & L & P). { intros b' [= <-]. exact B. } { intros d e' h' c' s' I. apply F. now right. }
      rewrite O. cbn [bind]. eexists. split; [reflexivity|]. split; [cbn; now rewrite L|]. intros b0 HB.
      assert (EB : b0 = b). { unfold b. destruct base as [b'|]; [exact HB|]. destruct HB as (e' & h' & c' & X). cbn in X. congruence. } subst b0.
      intros [|i] e' h' c' s' X; cbn [nth_error] in *.
      + injection X as <- <- <- <-. eexists. split; [reflexivity|]. split; [|apply map_length]. rewrite map_map. apply map_ext. intros v. unfold gauss_peak. do 2 f_equal. field. split; lra.
      + apply (P b eq_refl i e' h' c' s' X). }
  destruct (G ds None) as (out & O & L & P); [discriminate|exact F|]. exists out. split; [exact O|]. split; [exact L|].
  intros d0 e0 h0 c0 s0 i e h c s E0 -> Ei. apply (P s0); [eauto|exact Ei].
Qed.
