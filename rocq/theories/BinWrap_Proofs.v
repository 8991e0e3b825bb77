(* Proofs for the binned-statistic classes. *)
From Coq Require Import Qround.
From Verif Require Import Common QcArith Utils_Model Roi_Model Roi_Spec Roi_Proofs Roi_Stats BinStat_Model BinStat_Spec BinStat_Proofs BinStat_Main BinStat_More Utils_Proofs BinWrap_Model BinWrap_Spec.
Local Open Scope list_scope.

Lemma combine_true {A} (l : list A) : combine l (map (fun _ => true) l) = map (fun x => (x, true)) l.
Proof. induction l as [|a l IH]; cbn; [reflexivity|rewrite IH; reflexivity]. Qed.

(** ** Floating-point samples *)
Lemma counts_float edges pt : length pt = length edges ->
  counts edges (map (fun e => store Float (masked_value e)) edges) true = counts edges pt false.
Proof.
  unfold counts, store. revert pt. induction edges as [|e es IH]; intros [|x xs] H; cbn in *; try discriminate; [reflexivity|].
  injection H as H. rewrite (IH xs H). reflexivity.
Qed.
Lemma masked_len d edges points mask : Forall (fun pt => length pt = length edges) points ->
  Forall (fun pt => length pt = length edges) (masked_sample d edges points mask).
Proof.
  intros H. destruct mask as [m|]; [|exact H]. cbn. apply Forall_forall. intros pt Hp. apply in_map_iff in Hp.
  destruct Hp as [[q k] [E Hi]]. cbn in E. destruct k; subst; [|apply map_length].
  rewrite Forall_forall in H. apply H. eapply in_combine_l; eauto.
Qed.
Lemma statistic_float edges points mask order st values :
  Forall (fun pt => length pt = length edges) points -> (forall m, mask = Some m -> length m = length points) ->
  statistic_dd Float edges points mask order st values = binned_statistic edges points mask order st values.
Proof.
  intros HL HM. unfold statistic_dd. destruct mask as [m|]; [|reflexivity].
  specialize (HM m eq_refl). rewrite HM, Nat.eqb_refl.
  pose proof (masked_len Float edges points (Some m) HL) as HL'.
  assert (HN : length (masked_sample Float edges points (Some m)) = length points).
  { cbn. rewrite map_length, combine_length. lia. }
  unfold binned_statistic. rewrite map_length, HN, HM, !Nat.eqb_refl.
  assert (F : forall l : list (list Qc), Forall (fun pt => length pt = length edges) l -> forallb (fun p => length p =? length edges) l = true).
  { intros l H. apply forallb_forall. intros x Hx. rewrite Forall_forall in H. apply Nat.eqb_eq. auto. }
  rewrite (F _ HL), (F _ HL').
  destruct (negb _); [reflexivity|]. cbv zeta.
  rewrite combine_true, map_map. cbn [fst snd].
  assert (E : map (fun x => flat_xy (map (fun e => S (length e)) edges) (counts edges x true) (argsort (map (fun e => S (length e)) edges)))
                  (masked_sample Float edges points (Some m))
            = map (fun p => flat_xy (map (fun e => S (length e)) edges) (counts edges (fst p) (snd p)) (argsort (map (fun e => S (length e)) edges))) (combine points m)).
  { unfold masked_sample. rewrite map_map. apply map_ext_in. intros [pt k] Hi. cbn [fst snd]. destruct k; [reflexivity|].
    f_equal. apply counts_float. rewrite Forall_forall in HL. apply HL. eapply in_combine_l; eauto. }
  rewrite E. reflexivity.
Qed.

(** ** Integer samples *)
Lemma floor_spec (x : Qc) : (qz (Qfloor (this x)) <= x)%Qc /\ (x < qz (Qfloor (this x) + 1))%Qc.
Proof. split; [unfold Qcle|unfold Qclt]; rewrite qz_this; [apply Qfloor_le|apply Qlt_floor]. Qed.
Lemma floor_unique (x : Qc) (n : Z) : (qz n <= x)%Qc -> (x < qz (n + 1))%Qc -> Qfloor (this x) = n.
Proof.
  intros H1 H2. destruct (floor_spec x) as [A B].
  assert (C : (qz n < qz (Qfloor (this x) + 1))%Qc) by qclra.
  assert (D : (qz (Qfloor (this x)) < qz (n + 1))%Qc) by qclra.
  apply (proj1 (qz_lt _ _)) in C. apply (proj1 (qz_lt _ _)) in D. set (f := Qfloor (this x)) in *. clearbody f. lia.
Qed.
Lemma masked_at e : let c := Q2Qc (1 # 100) in let a := hd 0%Qc e in (qz 100 * c = 1)%Qc /\ (0 < c)%Qc /\ masked_value e = (a - c * (1 + qabs a))%Qc.
Proof. cbv zeta. split; [apply Qc_is_canon; reflexivity|]. split; [reflexivity|]. unfold masked_value. reflexivity. Qed.
Lemma store_first e z : hd 0%Qc e = qz z -> (-99 < z <= 0)%Z -> store Int (masked_value e) = qz z.
Proof.
  intros E Hz. cbn. f_equal. destruct (masked_at e) as [A [B C]]. rewrite C, E. set (c := Q2Qc (1 # 100)) in *. clearbody c. clear C E.
  assert (H0 : (qz z <= 0)%Qc) by (rewrite <- qz_0; apply qz_le; lia).
  assert (H1 : (qz (-98) <= qz z)%Qc) by (apply qz_le; lia).
  assert (K1 : (qz (-98) = - qz 98)%Qc) by reflexivity. assert (K2 : (qz 100 = qz 98 + 1 + 1)%Qc) by reflexivity.
  rewrite K1 in H1. rewrite K2 in A. assert (H98 : (0 < qz 98)%Qc) by reflexivity. set (h := qz 98) in *. clearbody h.
  assert (Q : qabs (qz z) = (- qz z)%Qc).
  { unfold qabs. destruct (Qc_ltb_spec (qz z) 0%Qc) as [?|N]; [reflexivity|].
    assert (z = 0%Z) as ->; [|reflexivity]. assert (qz 0 <= qz z)%Qc by (rewrite qz_0; qclra). apply (proj1 (qz_le _ _)) in H. lia. }
  rewrite Q. unfold to_int. destruct (Qc_ltb_spec (qz z - c * (1 + - qz z))%Qc 0%Qc) as [L|N].
  - rewrite (floor_unique _ (- z)); [lia| |]; rewrite ?qz_add, ?qz_opp, ?qz_1; set (t := qz z) in *; clearbody t; qcnra.
  - exfalso. apply N. set (t := qz z) in *. clearbody t. qcnra.
Qed.
Lemma store_below e : (0 < hd 0 e)%Qc -> (store Int (masked_value e) < hd 0 e)%Qc.
Proof.
  intros H. cbn. destruct (masked_at e) as [A [B C]]. rewrite C. set (c := Q2Qc (1 # 100)) in *. clearbody c.
  set (a := hd 0%Qc e) in *. clearbody a. clear C e.
  assert (Q : qabs a = a) by (unfold qabs; destruct (Qc_ltb_spec a 0%Qc); [exfalso; qclra|reflexivity]). rewrite Q.
  assert (HB : (a - c * (1 + a) < a)%Qc) by qcnra. set (v := (a - c * (1 + a))%Qc) in *. clearbody v. clear Q.
  unfold to_int. destruct (Qc_ltb_spec v 0%Qc) as [L|N].
  - destruct (floor_spec (- v)%Qc) as [_ F2]. set (f := Qfloor (this (- v)%Qc)) in *. clearbody f.
    assert (G : (qz (- f) <= 0)%Qc); [|qclra].
    rewrite <- qz_0. apply (proj2 (qz_le _ _)).
    assert (F3 : (qz 0 < qz (f + 1))%Qc) by (rewrite qz_0; qclra). apply (proj1 (qz_lt _ _)) in F3. lia.
  - destruct (floor_spec v) as [F1 _]. qclra.
Qed.

Lemma incr_first e a k b : strictly_increasing e -> nth_error e 0 = Some a -> nth_error e k = Some b -> (a <= b)%Qc /\ (k <> 0 -> (a < b)%Qc).
Proof.
  intros HS Ha. revert b. induction k as [|k IH]; intros b Hb.
  - rewrite Ha in Hb. injection Hb as <-. split; [qclra|congruence].
  - destruct (nth_error e k) as [c|] eqn:Ec; [|apply nth_error_None in Ec; assert (nth_error e (S k) <> None) by congruence; apply nth_error_Some in H; lia].
    pose proof (HS k c b Ec Hb). destruct (IH c eq_refl) as [H1 _]. split; intros; qclra.
Qed.
Lemma hd_nth e : good e -> nth_error e 0 = Some (hd 0%Qc e).
Proof. intros [_ H]. destruct e; [cbn in H; lia|reflexivity]. Qed.
Lemma first_axis e k : good e -> S k < length e -> (in_axis e k (hd 0%Qc e) <-> k = 0).
Proof.
  intros G Hk. pose proof (hd_nth e G) as H0. destruct G as [HS HL]. split.
  - intros [a [b [Ea [Eb [L _]]]]]. destruct k as [|k]; [reflexivity|exfalso].
    destruct (incr_first e _ _ _ HS H0 Ea) as [_ H]. specialize (H ltac:(discriminate)). qclra.
  - intros ->. destruct (nth_error e 1) as [b|] eqn:Eb; [|apply nth_error_None in Eb; lia].
    exists (hd 0%Qc e), b. split; [exact H0|]. split; [exact Eb|]. split; [qclra|left; exact (HS _ _ _ H0 Eb)].
Qed.
Lemma below_axis e k x : good e -> (x < hd 0 e)%Qc -> ~ in_axis e k x.
Proof.
  intros G Hx [a [b [Ea [_ [L _]]]]]. destruct (incr_first e _ _ _ (proj1 G) (hd_nth e G) Ea) as [H _]. qclra.
Qed.
Lemma low_clear e x : good e -> (x <= hd 0 e)%Qc -> clear_of_edge e x.
Proof.
  intros G Hx. destruct (good_last e G) as [z Hz]. exists z. split; [exact Hz|right].
  pose proof (hd_nth e G) as H0. destruct G as [HS HL].
  destruct (nth_error e 1) as [b|] eqn:Eb; [|apply nth_error_None in Eb; lia].
  exists 0, (hd 0%Qc e), b. split; [exact H0|]. split; [exact Eb|left].
  pose proof (HS _ _ _ H0 Eb) as Hab.
  assert (Hbz : (b <= z)%Qc).
  { clear Hx Hab. assert (M : forall n y, nth_error e (S n) = Some y -> (b <= y)%Qc).
    { induction n as [|n IH]; intros y Hy; [rewrite Eb in Hy; injection Hy as <-; qclra|].
      destruct (nth_error e (S n)) as [c|] eqn:Ec.
      - pose proof (HS _ _ _ Ec Hy). specialize (IH c eq_refl). qclra.
      - apply nth_error_None in Ec. assert (nth_error e (S (S n)) <> None) by congruence. apply nth_error_Some in H. lia. }
    apply (M (length e - 2)). replace (S (length e - 2)) with (length e - 1) by lia. exact Hz. }
  assert (C : (0 < Q2Qc (1 # 100000) /\ Q2Qc (1 # 100000) < 1)%Qc) by (split; reflexivity). destruct C as [C1 C2].
  set (c := Q2Qc (1 # 100000)) in *. clearbody c. set (a := hd 0%Qc e) in *. clearbody a. clear - Hx Hab Hbz C1 C2. qcnra.
Qed.

Lemma nth_masked d edges points m p : length m = length points ->
  nth_error (masked_sample d edges points (Some m)) p =
  match nth_error points p, nth_error m p with
  | Some pt, Some k => Some (if k : bool then pt else map (fun e => store d (masked_value e)) edges)
  | _, _ => None
  end.
Proof.
  unfold masked_sample. intros HL. revert m p HL. induction points as [|pt ps IH]; intros [|k m] p HL; cbn in *; try discriminate.
  - destruct p; reflexivity.
  - destruct p as [|p]; [reflexivity|]. cbn. apply IH. lia.
Qed.
(** common part: masked samples are where [store Int] puts them *)
Lemma statistic_moved edges points m order st values :
  sorts order -> edges <> [] -> Forall strictly_increasing edges -> Forall (fun e => 2 <= length e) edges ->
  length values = length points -> length m = length points ->
  Forall (Forall2 clear_of_edge edges) points ->
  Forall (fun e => (store Int (masked_value e) <= hd 0 e)%Qc) edges ->
  exists f, statistic_dd Int edges points (Some m) order st values = Some f /\
    forall idx, valid_index edges idx -> exists vs,
      picked (fun p => (nth_error m p = Some true /\ exists pt, nth_error points p = Some pt /\ in_cell edges idx pt) \/
                       (nth_error m p = Some false /\ in_cell edges idx (map (fun e => store Int (masked_value e)) edges))) 0 values vs /\
      is_stat st vs (f idx).
Proof.
  intros HO Hne HS H2 HV HM HC HB. unfold statistic_dd. rewrite HM, Nat.eqb_refl.
  assert (HG : Forall good edges). { rewrite Forall_forall in *. intros e He. split; auto. }
  assert (HLs : length (masked_sample Int edges points (Some m)) = length points) by (cbn; rewrite map_length, combine_length; lia).
  destruct (binned_statistic_ok edges (masked_sample Int edges points (Some m)) None order st values HO Hne HS H2) as [f [Ef Hf]].
  - congruence.
  - intros ? E. discriminate.
  - assert (HX : Forall2 clear_of_edge edges (map (fun e => store Int (masked_value e)) edges)).
    { clear - HG HB. induction edges as [|e es IH]; cbn; constructor; inversion HG; inversion HB; subst; [|apply IH; assumption].
      apply low_clear; assumption. }
    apply Forall_forall. intros pt Hp. cbn in Hp. apply in_map_iff in Hp. destruct Hp as [[q k] [E Hi]]. cbn in E.
    destruct k; subst; [|exact HX]. rewrite Forall_forall in HC. apply HC. eapply in_combine_l; eauto.
  - exists f. split; [exact Ef|]. intros idx Hi. destruct (Hf idx Hi) as [vs [Hp Hs]]. exists vs. split; [|exact Hs].
    eapply picked_iff; [|exact Hp]. intros p Hlt. cbv beta. rewrite nth_masked by exact HM.
    destruct (nth_error points p) as [pt|] eqn:Ep.
    2:{ split; [intros [_ [q [E _]]]; discriminate|]. intros [[_ [q [E _]]]|[E _]]; [discriminate|].
        apply nth_error_None in Ep. assert (nth_error m p <> None) by congruence. apply nth_error_Some in H. lia. }
    destruct (nth_error m p) as [k|] eqn:Em.
    2:{ split; [intros [_ [q [E _]]]; discriminate|]. intros [[E _]|[E _]]; discriminate. }
    destruct k; split.
    + intros [_ [q [E Hq]]]. injection E as <-. left. split; [reflexivity|exists pt; auto].
    + intros [[_ [q [E Hq]]]|[E _]]; [|discriminate]. split; [intros ? E'; discriminate|]. exists q. split; [congruence|exact Hq].
    + intros [_ [q [E Hq]]]. injection E as <-. right. split; [reflexivity|exact Hq].
    + intros [[E _]|[_ Hq]]; [discriminate|]. split; [intros ? E'; discriminate|]. eexists. split; [reflexivity|exact Hq].
Qed.
Lemma first_cell edges idx : Forall good edges -> valid_index edges idx -> (in_cell edges idx (map (fun e => hd 0%Qc e) edges) <-> Forall (eq 0) idx).
Proof.
  intros HG HV. induction HV as [|e k es ks Hk HV IH]; cbn.
  - split; constructor.
  - inversion HG; subst. specialize (IH H2). pose proof (first_axis e k H1 Hk) as HA. split.
    + intros H. inversion H; subst. constructor; [symmetry|]; tauto.
    + intros H. inversion H; subst. constructor; tauto.
Qed.
Theorem integer_counted edges points m order st values :
  sorts order -> edges <> [] -> Forall strictly_increasing edges -> Forall (fun e => 2 <= length e) edges ->
  length values = length points -> length m = length points ->
  Forall (Forall2 clear_of_edge edges) points ->
  Forall (fun e => exists z, (-99 < z <= 0)%Z /\ nth_error e 0 = Some (qz z)) edges ->
  exists f, statistic_dd Int edges points (Some m) order st values = Some f /\
    forall idx, valid_index edges idx -> exists vs,
      picked (fun p => (nth_error m p = Some true /\ exists pt, nth_error points p = Some pt /\ in_cell edges idx pt) \/
                       (nth_error m p = Some false /\ Forall (eq 0) idx)) 0 values vs /\
      is_stat st vs (f idx).
Proof.
  intros HO Hne HS H2 HV HM HC HF.
  assert (HG : Forall good edges). { rewrite Forall_forall in *. intros e He. split; auto. }
  assert (HX : map (fun e => store Int (masked_value e)) edges = map (fun e => hd 0%Qc e) edges).
  { apply map_ext_in. intros e He. rewrite Forall_forall in HF, HG. destruct (HF e He) as [z [Hz E]].
    rewrite (hd_nth e (HG e He)) in E. injection E as E. rewrite E. apply store_first; assumption. }
  destruct (statistic_moved edges points m order st values HO Hne HS H2 HV HM HC) as [f [Ef Hf]].
  { rewrite Forall_forall. intros e He. rewrite Forall_forall in HF, HG. destruct (HF e He) as [z [Hz E]].
    rewrite (hd_nth e (HG e He)) in E. injection E as E. rewrite (store_first e z E Hz), E. qclra. }
  exists f. split; [exact Ef|]. intros idx Hi. destruct (Hf idx Hi) as [vs [Hp Hs]]. exists vs. split; [|exact Hs].
  eapply picked_iff; [|exact Hp]. intros p _. cbv beta. rewrite HX, (first_cell edges idx HG Hi). tauto.
Qed.
Theorem integer_positive edges points m order st values :
  sorts order -> edges <> [] -> Forall strictly_increasing edges -> Forall (fun e => 2 <= length e) edges ->
  length values = length points -> length m = length points ->
  Forall (Forall2 clear_of_edge edges) points ->
  Forall (fun e => exists a, nth_error e 0 = Some a /\ (0 < a)%Qc) edges ->
  exists f, statistic_dd Int edges points (Some m) order st values = Some f /\
    forall idx, valid_index edges idx -> exists vs,
      picked (fun p => nth_error m p = Some true /\ exists pt, nth_error points p = Some pt /\ in_cell edges idx pt) 0 values vs /\
      is_stat st vs (f idx).
Proof.
  intros HO Hne HS H2 HV HM HC HF.
  assert (HG : Forall good edges). { rewrite Forall_forall in *. intros e He. split; auto. }
  assert (HB : Forall (fun e => (store Int (masked_value e) < hd 0 e)%Qc) edges).
  { rewrite Forall_forall in *. intros e He. destruct (HF e He) as [a [Ha Hp]]. rewrite (hd_nth e (HG e He)) in Ha. injection Ha as Ha.
    apply store_below. rewrite Ha. exact Hp. }
  destruct (statistic_moved edges points m order st values HO Hne HS H2 HV HM HC) as [f [Ef Hf]].
  { eapply Forall_impl; [|exact HB]. cbv beta. intros e He. apply Qclt_le_weak. exact He. }
  exists f. split; [exact Ef|]. intros idx Hi. destruct (Hf idx Hi) as [vs [Hp Hs]]. exists vs. split; [|exact Hs].
  eapply picked_iff; [|exact Hp]. intros p _. cbv beta. split; [|tauto]. intros [H|[_ H]]; [exact H|exfalso].
  destruct edges as [|e es]; [contradiction|]. cbn in H. inversion H; subst. inversion HG; inversion HB; subst.
  eapply below_axis; eauto.
Qed.
Theorem float_masked edges points mask order st values :
  sorts order -> edges <> [] -> Forall strictly_increasing edges -> Forall (fun e => 2 <= length e) edges ->
  length values = length points -> (forall m, mask = Some m -> length m = length points) ->
  Forall (Forall2 clear_of_edge edges) points ->
  exists f, statistic_dd Float edges points mask order st values = Some f /\
    forall idx, valid_index edges idx -> exists vs,
      picked (fun p => (forall m, mask = Some m -> nth_error m p = Some true) /\
        exists pt, nth_error points p = Some pt /\ in_cell edges idx pt) 0 values vs /\
      is_stat st vs (f idx).
Proof.
  intros HO Hne HS H2 HV HM HC. rewrite statistic_float.
  - apply binned_statistic_ok; assumption.
  - eapply Forall_impl; [|exact HC]. intros pt Hp. symmetry. eapply Forall2_len; exact Hp.
  - exact HM.
Qed.

(** ** One and two dimensions *)
Lemma limits_ok range x lo hi : covers range x lo hi -> limits range x = Some (lo, hi).
Proof.
  destruct range as [r|]; cbn; [congruence|]. intros [Hl [Hh HF]]. rewrite Forall_forall in HF.
  destruct (lmin_q x) as [a|] eqn:Ea; [|destruct x; [contradiction|discriminate]].
  destruct (lmax_q x) as [b|] eqn:Eb; [|destruct x; [contradiction|discriminate]].
  cbn. destruct (lmin_q_spec x a Ea) as [A1 A2]. destruct (lmax_q_spec x b Eb) as [B1 B2].
  pose proof (A2 lo Hl). pose proof (B2 hi Hh). destruct (HF a A1). destruct (HF b B1).
  replace a with lo by (apply Qcle_antisym; assumption). replace b with hi by (apply Qcle_antisym; assumption). reflexivity.
Qed.
Lemma equal_is n lo hi e : equal_bins n lo hi e -> edges_of (BNum n) lo hi = e.
Proof.
  intros [Hn [Hle [HL [a [b [Hab HN]]]]]]. assert (n <> 0) by lia. destruct (edges_of_ok n lo hi H Hle) as [_ [HL' [a' [b' [Hab' HN']]]]].
  assert (a = a' /\ b = b') as [<- <-].
  { destruct Hab as [[? [-> ->]]|[? [-> ->]]]; destruct Hab' as [[? [-> ->]]|[? [-> ->]]]; split; try reflexivity; exfalso; subst; qclra. }
  apply nth_error_ext. intros k. destruct (Nat.le_gt_cases k n) as [L|L].
  - rewrite HN', HN by exact L. reflexivity.
  - rewrite !(proj2 (nth_error_None _ _)) by lia. reflexivity.
Qed.
Lemma equal_good n lo hi e : equal_bins n lo hi e -> good e.
Proof.
  intros H. pose proof (equal_is n lo hi e H) as E. destruct H as [Hn [Hle [HL _]]]. subst e.
  destruct (edges_of_ok n lo hi ltac:(lia) Hle) as [H1 [H2 _]]. split; [exact H1|rewrite H2; lia].
Qed.
Lemma to_int_n n : to_int (qn n) = Z.of_nat n.
Proof.
  unfold to_int. destruct (Qc_ltb_spec (qn n) 0%Qc) as [L|_].
  - exfalso. unfold qn in L. rewrite <- qz_0 in L. apply (proj1 (qz_lt _ _)) in L. lia.
  - apply floor_unique; unfold qn; [qclra|]. apply (proj2 (qz_lt _ _)). lia.
Qed.
Lemma axis_ok lo hi i e : axis_meant lo hi i e -> good e /\ edges_of (axis_bins i) lo hi = e.
Proof.
  intros [n e' H|e' H1 H2].
  - split; [eapply equal_good; eauto|]. cbn [axis_bins]. rewrite to_int_n, Nat2Z.id. apply equal_is. exact H.
  - split; [split; assumption|reflexivity].
Qed.
Lemma numbers_map e : numbers (map Num e) = Some e.
Proof. induction e as [|a e IH]; cbn; [reflexivity|rewrite IH; reflexivity]. Qed.
Lemma bins_1d_ok lo hi b e : meant_1d lo hi b e -> good e /\ exists s, bins_1d b = Some s /\ edges_of s lo hi = e.
Proof.
  intros [n e' H|e' H1 H2|i e' H].
  - split; [eapply equal_good; eauto|]. exists (BNum n). split; [reflexivity|apply equal_is; exact H].
  - split; [split; assumption|]. exists (BEdges e'). split; [|reflexivity]. unfold bins_1d.
    pose proof (numbers_map e') as N. destruct e' as [|a [|c r]]; [cbn in H2; lia|cbn in H2; lia|]. cbn [map] in N |- *. rewrite N. reflexivity.
  - destruct (axis_ok _ _ _ _ H). split; [assumption|]. exists (axis_bins i). split; [reflexivity|assumption].
Qed.
Lemma bins_2d_ok xl xh yl yh b ex ey : meant_2d xl xh yl yh b ex ey ->
  good ex /\ good ey /\ exists s, bins_2d b = Some s /\ edges_of (fst s) xl xh = ex /\ edges_of (snd s) yl yh = ey.
Proof.
  intros [n e1 e2 H1 H2|i j e1 e2 H1 H2|e H1 H2].
  - split; [eapply equal_good; eauto|]. split; [eapply equal_good; eauto|]. exists (BNum n, BNum n).
    split; [reflexivity|]. split; apply equal_is; assumption.
  - destruct (axis_ok _ _ _ _ H1), (axis_ok _ _ _ _ H2). split; [assumption|]. split; [assumption|]. eexists. split; [reflexivity|]. split; assumption.
  - assert (good e) by (split; [assumption|lia]). split; [assumption|]. split; [assumption|]. exists (BEdges e, BEdges e).
    split; [|split; reflexivity]. unfold bins_2d. pose proof (numbers_map e) as N.
    destruct e as [|a [|c [|d r]]]; try (cbn in H2; lia). cbn [map] in N |- *. rewrite N. reflexivity.
Qed.
Theorem stat_1d_ok x bins range mask order st values lo hi e :
  sorts order -> covers range x lo hi -> meant_1d lo hi bins e -> fits mask x -> length values = length x ->
  Forall (clear_of_edge e) x ->
  exists f, statistic_1d Float x bins range mask order st values = Some f /\ stat_1d st e x mask values f.
Proof.
  intros HO HR HB HM HV HC. unfold statistic_1d. destruct (bins_1d_ok _ _ _ _ HB) as [[G1 G2] [s [Es Ee]]].
  rewrite Es, (limits_ok _ _ _ _ HR). cbn [fst snd Common.bind]. rewrite Ee.
  destruct (float_masked [e] (map (fun v => [v]) x) mask order st values HO) as [f [Ef Hf]].
  - discriminate.
  - constructor; [exact G1|constructor].
  - constructor; [exact G2|constructor].
  - rewrite map_length. exact HV.
  - intros m Em. rewrite map_length. apply HM. exact Em.
  - apply Forall_forall. intros pt Hp. apply in_map_iff in Hp. destruct Hp as [v [<- Hv]]. constructor; [|constructor].
    rewrite Forall_forall in HC. auto.
  - exists f. split; [exact Ef|]. intros k Hk. destruct (Hf [k]) as [vs [Hp Hs]]; [constructor; [exact Hk|constructor]|].
    exists vs. split; [|exact Hs]. eapply picked_iff; [|exact Hp]. intros p _. cbv beta. rewrite nth_error_map. unfold kept.
    split; (intros [H1 H2]; split; [exact H1|]).
    + destruct H2 as [pt [E Hc]]. destruct (nth_error x p) as [v|]; [|discriminate]. cbn in E. injection E as <-.
      exists v. split; [reflexivity|]. inversion Hc; assumption.
    + destruct H2 as [v [E Hc]]. rewrite E. exists [v]. split; [reflexivity|]. constructor; [exact Hc|constructor].
Qed.
Lemma nth_combine {A B} (x : list A) (y : list B) p : nth_error (combine x y) p =
  match nth_error x p, nth_error y p with Some u, Some v => Some (u, v) | _, _ => None end.
Proof.
  revert y p. induction x as [|a x IH]; intros [|b y] [|p]; cbn; try reflexivity.
  - destruct (nth_error x p); reflexivity.
  - apply IH.
Qed.
Theorem stat_2d_ok x y bins range mask order st values xl xh yl yh ex ey :
  sorts order -> covers (option_map fst range) x xl xh -> covers (option_map snd range) y yl yh ->
  meant_2d xl xh yl yh bins ex ey -> length x = length y -> fits mask x -> length values = length x ->
  Forall (clear_of_edge ex) x -> Forall (clear_of_edge ey) y ->
  exists f, statistic_2d Float x y bins range mask order st values = Some f /\ stat_2d st ex ey x y mask values f.
Proof.
  intros HO HRx HRy HB HL HM HV HCx HCy. unfold statistic_2d. rewrite HL, Nat.eqb_refl. cbn [negb].
  destruct (bins_2d_ok _ _ _ _ _ _ _ HB) as [[G1 G2] [[G3 G4] [s [Es [Ex Ey]]]]].
  rewrite Es, (limits_ok _ _ _ _ HRx), (limits_ok _ _ _ _ HRy). cbn [fst snd Common.bind]. rewrite Ex, Ey.
  assert (HLc : length (map (fun p => [fst p; snd p]) (combine x y)) = length x) by (rewrite map_length, combine_length; lia).
  destruct (float_masked [ex; ey] (map (fun p => [fst p; snd p]) (combine x y)) mask order st values HO) as [f [Ef Hf]].
  - discriminate.
  - repeat (constructor; [assumption|]). constructor.
  - repeat (constructor; [assumption|]). constructor.
  - congruence.
  - intros m Em. rewrite HLc. apply HM. exact Em.
  - apply Forall_forall. intros pt Hp. apply in_map_iff in Hp. destruct Hp as [[u v] [<- Hi]]. cbn [fst snd].
    rewrite Forall_forall in HCx, HCy. constructor; [apply HCx; eapply in_combine_l; eauto|].
    constructor; [apply HCy; eapply in_combine_r; eauto|constructor].
  - exists f. split; [exact Ef|]. intros i j Hi Hj. destruct (Hf [i; j]) as [vs [Hp Hs]]; [repeat (constructor; [assumption|]); constructor|].
    exists vs. split; [|exact Hs]. eapply picked_iff; [|exact Hp]. intros p _. cbv beta. rewrite nth_error_map, nth_combine. unfold kept.
    split; (intros [H1 H2]; split; [exact H1|]).
    + destruct H2 as [pt [E Hc]]. destruct (nth_error x p) as [u|]; [|discriminate]. destruct (nth_error y p) as [v|]; [|discriminate].
      cbn in E. injection E as <-. exists u, v. inversion Hc as [|? ? ? ? ? ? A B]; subst. inversion B; subst. auto.
    + destruct H2 as [u [v [E1 [E2 [A B]]]]]. rewrite E1, E2. exists [u; v]. split; [reflexivity|].
      constructor; [exact A|]. constructor; [exact B|constructor].
Qed.
Theorem stat_1d_int x n m order st values lo hi e z :
  sorts order -> covers None x lo hi -> lo = qz z -> (-99 < z <= 0)%Z -> (lo < hi)%Qc -> equal_bins n lo hi e ->
  length m = length x -> length values = length x -> Forall (clear_of_edge e) x ->
  exists f, statistic_1d Int x (Count n) None (Some m) order st values = Some f /\
    forall k, k < n -> exists vs,
      picked (fun p => (nth_error m p = Some true /\ exists v, nth_error x p = Some v /\ in_axis e k v) \/ (nth_error m p = Some false /\ k = 0)) 0 values vs /\
      is_stat st vs (f [k]).
Proof.
  intros HO HR Hz Hr Hlt HB HM HV HC. unfold statistic_1d. pose proof (equal_good _ _ _ _ HB) as [G1 G2].
  cbn [bins_1d]. rewrite (limits_ok _ _ _ _ HR). cbn [fst snd Common.bind]. rewrite (equal_is _ _ _ _ HB).
  destruct (integer_counted [e] (map (fun v => [v]) x) m order st values HO) as [f [Ef Hf]].
  - discriminate.
  - constructor; [exact G1|constructor].
  - constructor; [exact G2|constructor].
  - rewrite map_length. exact HV.
  - rewrite map_length. exact HM.
  - apply Forall_forall. intros pt Hp. apply in_map_iff in Hp. destruct Hp as [v [<- Hv]]. constructor; [|constructor].
    rewrite Forall_forall in HC. auto.
  - constructor; [|constructor]. exists z. split; [exact Hr|]. destruct HB as [Hn [_ [_ [a [b [Hab HN]]]]]].
    rewrite (HN 0) by lia. destruct Hab as [[_ [-> _]]|[E _]]; [|exfalso; subst; qclra].
    f_equal. rewrite Hz. change (qn 0) with 0%Qc. ring.
  - exists f. split; [exact Ef|]. intros k Hk. destruct HB as [Hn [_ [HL _]]].
    destruct (Hf [k]) as [vs [Hp Hs]]; [constructor; [lia|constructor]|].
    exists vs. split; [|exact Hs]. eapply picked_iff; [|exact Hp]. intros p _. cbv beta. rewrite nth_error_map.
    split; (intros [[H1 H2]|[H1 H2]]; [left; split; [exact H1|]|right; split; [exact H1|]]).
    + destruct H2 as [pt [E Hc]]. destruct (nth_error x p) as [v|]; [|discriminate]. cbn in E. injection E as <-.
      exists v. split; [reflexivity|]. inversion Hc; assumption.
    + inversion H2; subst. reflexivity.
    + destruct H2 as [v [E Hc]]. rewrite E. exists [v]. split; [reflexivity|]. constructor; [exact Hc|constructor].
    + subst. constructor; [reflexivity|constructor].
Qed.
Theorem changed d edges points m src p : Forall good edges -> length m = length points ->
  match src with
  | Sequence => nth_error (sample_after src d edges points (Some m)) p = nth_error points p
  | NDArray => (nth_error m p = Some true -> nth_error (sample_after src d edges points (Some m)) p = nth_error points p) /\
      (nth_error m p = Some false -> d = Float -> exists pt, nth_error (sample_after src d edges points (Some m)) p = Some pt /\
         Forall2 (fun e v => exists a, nth_error e 0 = Some a /\ (v < a)%Qc) edges pt)
  end.
Proof.
  intros HG HM. destruct src; [|reflexivity]. cbn [sample_after]. rewrite nth_masked by exact HM. split; intros E.
  - rewrite E. destruct (nth_error points p); reflexivity.
  - intros ->. rewrite E. assert (Hp : p < length points) by (rewrite <- HM; apply nth_error_Some; congruence).
    destruct (nth_error points p) as [pt|] eqn:Ep; [|apply nth_error_None in Ep; lia].
    eexists. split; [reflexivity|]. clear - HG. induction HG as [|e es H HG IH]; cbn; constructor; [|exact IH].
    exists (hd 0%Qc e). split; [apply hd_nth; exact H|]. destruct (masked_at e) as [_ [B C]]. cbn [store]. rewrite C.
    set (c := Q2Qc (1 # 100)) in *. clearbody c. set (a := hd 0%Qc e) in *. clearbody a.
    assert (Ha : (0 <= qabs a)%Qc). { unfold qabs. destruct (Qc_ltb_spec a 0%Qc); qclra. }
    set (t := qabs a) in *. clearbody t. clear - B Ha. qcnra.
Qed.
