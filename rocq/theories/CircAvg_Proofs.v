From Coq Require Import Sorted.
From Verif Require Import Common QcArith Utils_Model Utils_Spec Utils_Proofs Edges_Proofs CircAvg_Model CircAvg_Spec.

Lemma take_mask_cons {A} b m (x : A) l : take_mask (b :: m) (x :: l) = if b then x :: take_mask m l else take_mask m l.
Proof. destruct b; reflexivity. Qed.
Lemma picks_select {A} m : forall (l : list A), length m = length l -> picks m l (select (Some m) l).
Proof.
  unfold select. induction m as [|z m IH]; intros [|x l] L; try discriminate; [constructor|]. injection L as L. cbn [map]. rewrite take_mask_cons.
  destruct (Z.eqb_spec z 1) as [->|N]; constructor; auto.
Qed.
Lemma picks_fun {A} m (l k1 k2 : list A) : picks m l k1 -> picks m l k2 -> k1 = k2.
Proof. intros H. revert k2. induction H; intros k2 H2; inversion H2; subst; auto; try contradiction. f_equal. auto. Qed.
(** the indices a boolean array keeps *)
Fixpoint kept (s : nat) (m : list bool) : list nat := match m with [] => [] | b :: m => if b then s :: kept (S s) m else kept (S s) m end.
Lemma kept_ge s m : Forall (fun k => s <= k) (kept s m).
Proof.
  revert s. induction m as [|b m IH]; intros s; cbn [kept]; [constructor|]. specialize (IH (S s)).
  assert (F : Forall (fun k => s <= k) (kept (S s) m)) by (eapply Forall_impl; [|exact IH]; cbn; lia).
  destruct b; [constructor; [lia|exact F]|exact F].
Qed.
Lemma kept_sorted s m : StronglySorted lt (kept s m).
Proof. revert s. induction m as [|b m IH]; intros s; cbn [kept]; [constructor|]. destruct b; [|apply IH]. constructor; [apply IH|]. eapply Forall_impl; [|apply kept_ge]. cbn. lia. Qed.
Lemma kept_in s m k : In k (kept s m) <-> exists i, k = s + i /\ nth_error m i = Some true.
Proof.
  revert s. induction m as [|b m IH]; intros s; cbn [kept].
  - split; [contradiction|]. intros (i & _ & H). destruct i; discriminate.
  - destruct b.
    + split.
      * intros [<-|H]; [exists 0; split; [lia|reflexivity]|]. apply IH in H as (i & -> & H). exists (S i). split; [lia|exact H].
      * intros ([|i] & -> & H); [left; lia|]. right. apply IH. exists i. split; [lia|exact H].
    + split.
      * intros H. apply IH in H as (i & -> & H). exists (S i). split; [lia|exact H].
      * intros ([|i] & -> & H); [discriminate|]. apply IH. exists i. split; [lia|exact H].
Qed.
Lemma take_kept {A} m : forall (l : list A) s, length m = length l -> Forall2 (fun k x => s <= k /\ nth_error l (k - s) = Some x) (kept s m) (take_mask m l).
Proof.
  induction m as [|b m IH]; intros [|x l] s L; try discriminate; [constructor|]. injection L as L. rewrite take_mask_cons. cbn [kept].
  assert (F : Forall2 (fun k y => s <= k /\ nth_error (x :: l) (k - s) = Some y) (kept (S s) m) (take_mask m l)).
  { specialize (IH l (S s) L). clear -IH. induction IH as [|k y ks ys [H1 H2] _ IH]; constructor; auto. split; [lia|]. replace (k - s) with (S (k - S s)) by lia. exact H2. }
  destruct b; [|exact F]. constructor; [|exact F]. split; [lia|]. now rewrite Nat.sub_diag.
Qed.
Lemma take_kept0 {A} m (l : list A) : length m = length l -> Forall2 (fun k x => nth_error l k = Some x) (kept 0 m) (take_mask m l).
Proof. intros L. pose proof (take_kept m l 0 L) as H. induction H as [|k x ks xs [_ H] _ IH]; constructor; auto. now rewrite Nat.sub_0_r in H. Qed.
Lemma F2_map_combine {A B C D} (P : A -> B -> Prop) (Q : A -> C -> Prop) (R : A -> D -> Prop) (f : B * C -> D) :
  (forall a b c, P a b -> Q a c -> R a (f (b, c))) -> forall l bs cs, Forall2 P l bs -> Forall2 Q l cs -> Forall2 R l (map f (combine bs cs)).
Proof.
  intros H l bs cs H1. revert cs. induction H1 as [|a b l bs H1 _ IH]; intros cs H2; inversion H2; subst; cbn; constructor; auto.
Qed.
Lemma F2_impl_in {A B} (P Q : A -> B -> Prop) l ys : (forall a b, In a l -> P a b -> Q a b) -> Forall2 P l ys -> Forall2 Q l ys.
Proof. intros H F. induction F as [|a b l ys H1 _ IH]; constructor; [apply H; [now left|exact H1]|]. apply IH. intros; apply H; [now right|assumption]. Qed.

Lemma map_combine_fst {A} (x : list Qc) (y : list A) : length x = length y -> map (fun p : Qc * A => (fst p, 1%Qc)) (combine x y) = map (fun s => (s, 1%Qc)) x.
Proof. revert y. induction x as [|a x IH]; intros [|b y] L; try discriminate; [reflexivity|]. cbn. f_equal. apply IH. now injection L. Qed.

Lemma weight_fun P l a b : weight P l a -> weight P l b -> a = b.
Proof. intros H. revert b. induction H; intros b H2; inversion H2; subst; auto; try contradiction. f_equal. auto. Qed.
Lemma picks_length {A B} m : forall (l : list A) (l' : list B) k k', picks m l k -> picks m l' k' -> length k = length k'.
Proof. intros l l' k k' H. revert l' k'. induction H; intros l' k' H2; inversion H2; subst; cbn; eauto; try contradiction. Qed.
Theorem circular_average_ok radial image threshold n lo hi mask rs vs :
  length radial = length image -> used mask radial image rs vs -> (0 < n)%Z -> (lo <= hi)%Qc ->
  let N := Z.to_nat n in let px := combine rs vs in
  exists centers averages ks, circular_average radial image threshold n (Some lo) (Some hi) mask = Some (centers, averages) /\
    StronglySorted lt ks /\
    (forall k, In k ks <-> k < N /\ exists c t, ring lo hi N k px c t /\ (threshold < c)%Qc) /\
    Forall2 (fun k c => (c - bin_edge lo hi N k = bin_edge lo hi N (S k) - c)%Qc) ks centers /\
    Forall2 (fun k a => forall c t, ring lo hi N k px c t -> a = if Qc_eqb c 0%Qc then None else Some (t / c)%Qc) ks averages.
Proof.
  intros L U Hn Hle N px.
  assert (E : select mask radial = rs /\ select mask image = vs /\ length rs = length vs).
  { destruct mask as [m|]; cbn [used] in U.
    - destruct U as [U1 U2]. assert (Lm : length m = length radial) by (clear -U1; induction U1; cbn; congruence).
      split; [|split].
      + exact (picks_fun m radial _ _ (picks_select m radial Lm) U1).
      + rewrite L in Lm. exact (picks_fun m image _ _ (picks_select m image Lm) U2).
      + exact (picks_length m radial image rs vs U1 U2).
    - destruct U as [-> ->]. auto. }
  destruct E as (E1 & E2 & L').
  destruct (bin_1D_ok rs vs n lo hi L' Hn Hle) as (bins & val & cnt & B & L1 & L2 & L3 & Be & Bv & _).
  fold N in L1, L2, L3, Be, Bv.
  unfold circular_average. rewrite E1, E2, B. cbn [bind].
  set (m := map (fun c => Qc_ltb threshold c) cnt).
  assert (Lmm : length m = N) by (unfold m; rewrite map_length; exact L3).
  do 2 eexists. exists (kept 0 m). split; [reflexivity|]. split; [apply kept_sorted|].
  assert (KI : forall k, In k (kept 0 m) <-> k < N /\ exists c t, ring lo hi N k px c t /\ (threshold < c)%Qc).
  { intros k. rewrite kept_in. split.
    - intros (i & Ei & H). cbn in Ei. subst i. unfold m in H. rewrite nth_error_map in H. destruct (nth_error cnt k) as [c|] eqn:Ec; [|discriminate].
      assert (Hk : k < N) by (rewrite <- L3; apply nth_error_Some; congruence). split; [exact Hk|]. destruct (Bv k Hk) as (v & c' & V1 & V2 & V3 & V4).
      rewrite Ec in V2. apply some_inj in V2. subst c'. exists c, v. split.
      + split; [exact V3|]. unfold px. rewrite map_combine_fst by exact L'. exact V4.
      + cbn in H. injection H as H. now destruct (Qc_ltb_spec threshold c).
    - intros (Hk & c & t & [R1 R2] & Ht). exists k. split; [reflexivity|]. destruct (Bv k Hk) as (v & c' & V1 & V2 & V3 & V4). unfold m. rewrite nth_error_map, V2. cbn.
      unfold px in R2. rewrite map_combine_fst in R2 by exact L'. rewrite (weight_fun _ _ _ _ V4 R2). now destruct (Qc_ltb_spec threshold c). }
  split; [exact KI|]. split.
  - eapply F2_impl_in; [|apply take_kept0; rewrite Lmm, centers_length, L1; lia]. intros k c Ik Hc. cbn beta in Hc.
    apply KI in Ik as (Hk & _). destruct (centers_nth bins k _ _ (Be k ltac:(lia)) (Be (S k) ltac:(lia))) as (c' & C1 & C2). rewrite C1 in Hc. apply some_inj in Hc. subst c'. exact C2.
  - apply (F2_impl_in (fun k a => exists t c, nth_error val k = Some t /\ nth_error cnt k = Some c /\ a = np_div t c)).
    + intros k a Ik (t & c & H1 & H2 & ->) c' t' [R1 R2]. apply KI in Ik as (Hk & _). destruct (Bv k Hk) as (v & c2 & V1 & V2 & V3 & V4).
      rewrite H1 in V1. apply some_inj in V1. subst v. rewrite H2 in V2. apply some_inj in V2. subst c2.
      unfold px in R1, R2. rewrite map_combine_fst in R2 by exact L'. rewrite (weight_fun _ _ _ _ V3 R1), (weight_fun _ _ _ _ V4 R2). reflexivity.
    + apply (F2_map_combine (fun k t => nth_error val k = Some t) (fun k c => nth_error cnt k = Some c)).
      * intros k t c H1 H2. exists t, c. auto.
      * apply take_kept0. rewrite Lmm. now rewrite L2.
      * apply take_kept0. rewrite Lmm. now rewrite L3.
Qed.
(** with the default limits the rings run from the smallest to the largest radius used *)
Theorem circular_defaults radial image threshold n mask rs vs :
  length radial = length image -> used mask radial image rs vs -> rs <> [] ->
  exists lo hi, In lo rs /\ In hi rs /\ (forall s, In s rs -> (lo <= s)%Qc /\ (s <= hi)%Qc) /\
    circular_average radial image threshold n None None mask = circular_average radial image threshold n (Some lo) (Some hi) mask.
Proof.
  intros L U Hne.
  assert (E1 : select mask radial = rs).
  { destruct mask as [m|]; cbn [used] in U.
    - destruct U as [U1 _]. apply (picks_fun m radial _ _ (picks_select m radial ltac:(clear -U1; induction U1; cbn; congruence)) U1).
    - now destruct U as [-> _]. }
  destruct (bin_1D_defaults rs (select mask image) (Some n) Hne) as (lo & hi & H1 & H2 & H3 & H4). exists lo, hi. split; [exact H1|]. split; [exact H2|]. split; [exact H3|].
  unfold circular_average. rewrite E1, H4. reflexivity.
Qed.
Lemma circular_empty radial image threshold n mask : length radial = length image -> used mask radial image [] [] -> circular_average radial image threshold n None None mask = None.
Proof.
  intros L U. assert (E1 : select mask radial = []).
  { destruct mask as [m|]; cbn [used] in U.
    - destruct U as [U1 _]. apply (picks_fun m radial _ _ (picks_select m radial ltac:(clear -U1; induction U1; cbn; congruence)) U1).
    - now destruct U as [<- _]. }
  unfold circular_average, bin_1D. rewrite E1. reflexivity.
Qed.
(** ring facts *)
Lemma weight_nonneg P l s : Forall (fun p => (0 <= snd p)%Qc) l -> weight P l s -> (0 <= s)%Qc.
Proof. intros F H. revert F. induction H; intros F; [apply Qcle_refl| |]; inversion F; subst; auto. cbn in *. specialize (IHweight ltac:(assumption)). qclra. Qed.
Lemma ring_count_nonneg lo hi N k px c t : ring lo hi N k px c t -> (0 <= c)%Qc.
Proof. intros [_ R]. eapply weight_nonneg; [|exact R]. apply Forall_forall. intros [a b] I. apply in_map_iff in I as (p & [= <- <-] & _). cbn. discriminate. Qed.
Lemma ring_between lo hi N k px c t a b : ring lo hi N k px c t -> Forall (fun p => (a <= snd p)%Qc /\ (snd p <= b)%Qc) px -> (a * c <= t)%Qc /\ (t <= b * c)%Qc.
Proof.
  intros [R1 R2]. revert c R2. induction R1 as [|x w l s Hx R1 IH|x w l s Hx R1 IH]; intros c R2 F; cbn in R2; inversion R2; subst; try contradiction.
  - split; qclra.
  - inversion F as [|? ? [F1 F2] F3]; subst. cbn [snd] in F1, F2. edestruct IH as [I1 I2]; [eassumption|exact F3|].
    rewrite !Qcmult_plus_distr_r, !Qcmult_1_r. split; apply Qcplus_le_compat; assumption.
  - inversion F; subst. eapply IH; eauto.
Qed.
Theorem average_between lo hi N k px c t a b avg : ring lo hi N k px c t -> (0 < c)%Qc -> Forall (fun p => (a <= snd p)%Qc /\ (snd p <= b)%Qc) px ->
  avg = (t / c)%Qc -> (a <= avg)%Qc /\ (avg <= b)%Qc.
Proof.
  intros R C F ->. destruct (ring_between _ _ _ _ _ _ _ a b R F) as [H1 H2].
  assert (Hc : c <> 0%Qc) by (intros ->; exact (Qclt_not_eq _ _ C eq_refl)).
  assert (E : (t = t / c * c)%Qc) by (field; exact Hc). set (x := (t / c)%Qc) in *. clearbody x. subst t. split; qcnra.
Qed.
Theorem rings radial image threshold n lo hi mask rs vs :
  length radial = length image -> used mask radial image rs vs -> (0 < n)%Z -> (lo <= hi)%Qc -> (0 <= threshold)%Qc ->
  let N := Z.to_nat n in let px := combine rs vs in
  exists centers averages ks, circular_average radial image threshold n (Some lo) (Some hi) mask = Some (centers, map Some averages) /\
    StronglySorted lt ks /\
    (forall k, In k ks <-> k < N /\ exists c t, ring lo hi N k px c t /\ (threshold < c)%Qc) /\
    Forall2 (fun k c => (c - bin_edge lo hi N k = bin_edge lo hi N (S k) - c)%Qc) ks centers /\
    Forall2 (fun k a => exists c t, ring lo hi N k px c t /\ (0 < c)%Qc /\ (a * c = t)%Qc) ks averages.
Proof.
  intros L U Hn Hle Ht N px. destruct (circular_average_ok radial image threshold n lo hi mask rs vs L U Hn Hle) as (cs & avs & ks & E & S & K & C & A).
  fold N px in K, C, A.
  assert (X : exists avs', avs = map Some avs' /\ Forall2 (fun k a => exists c t, ring lo hi N k px c t /\ (0 < c)%Qc /\ (a * c = t)%Qc) ks avs').
  { assert (KI : forall k, In k ks -> exists c t, ring lo hi N k px c t /\ (threshold < c)%Qc) by (intros k I; apply K in I as [_ I]; exact I).
    clear -A KI Ht. induction A as [|k a ks avs H _ IH]; [exists []; split; [reflexivity|constructor]|].
    destruct IH as (avs' & -> & F); [intros; apply KI; now right|]. destruct (KI k (or_introl eq_refl)) as (c & t & R & C). specialize (H c t R).
    assert (C0 : (0 < c)%Qc) by qclra. assert (Hc : c <> 0%Qc) by (intros ->; exact (Qclt_not_eq _ _ C0 eq_refl)).
    destruct (Qc_eqb_spec c 0%Qc); [contradiction|]. exists ((t / c)%Qc :: avs'). split; [cbn; congruence|]. constructor; [|exact F]. exists c, t. split; [exact R|]. split; [exact C0|]. field. exact Hc. }
  destruct X as (avs' & -> & F). exists cs, avs', ks. auto.
Qed.
