From Verif Require Import Common QcArith Sums Utils_Model Utils_Proofs Roi_Model Roi_Spec Roi_Proofs Roi_Stats BinStat_Model BinStat_Spec BinStat_Proofs.
From Coq Require Import Permutation Sorted Qround.

(** ** Rounding *)
Lemma round_near x : (qz (qround_even x) - x <= Q2Qc (1 # 2))%Qc /\ (x - qz (qround_even x) <= Q2Qc (1 # 2))%Qc.
Proof.
  unfold qround_even. destruct (Qfloor_qc x) as [H1 H2]. set (f := Qfloor (this x)) in *.
  assert (E1 : qz (f + 1) = (qz f + 1)%Qc) by (rewrite qz_add; reflexivity).
  assert (HH : (Q2Qc (1 # 2) + Q2Qc (1 # 2) = 1)%Qc) by (apply Qc_is_canon; reflexivity).
  destruct (Qc_ltb_spec (x - qz f)%Qc (Q2Qc (1 # 2))) as [A|A]; [|destruct (Qc_ltb_spec (Q2Qc (1 # 2)) (x - qz f)%Qc) as [B|B]; [|destruct (Z.even f)]];
    rewrite ?E1; set (hf := Q2Qc (1 # 2)) in *; clearbody hf; split; qclra.
Qed.
Lemma pow10_pos k : (0 < pow10 k)%Qc.
Proof.
  unfold pow10. destruct (Z.leb_spec 0 k).
  - apply (proj2 (qz_lt 0 _)). apply Z.pow_pos_nonneg; lia.
  - apply Qc_div_pos; [reflexivity|]. apply (proj2 (qz_lt 0 _)). apply Z.pow_pos_nonneg; lia.
Qed.
Lemma around_eq dec x y : around dec x = around dec y -> ((x - y) * pow10 dec <= 1)%Qc /\ ((y - x) * pow10 dec <= 1)%Qc.
Proof.
  unfold around. pose proof (pow10_pos dec) as HP. set (P := pow10 dec) in *. intros E.
  assert (E' : qz (qround_even (x * P)) = qz (qround_even (y * P))).
  { rewrite <- (Qc_mul_div (qz (qround_even (x * P))) P), <- (Qc_mul_div (qz (qround_even (y * P))) P);
      [rewrite E; reflexivity|apply Qc_neq_of_lt; exact HP|apply Qc_neq_of_lt; exact HP]. }
  pose proof (round_near (x * P)) as [A B]. pose proof (round_near (y * P)) as [C D]. rewrite E' in *.
  assert (HH : (Q2Qc (1 # 2) + Q2Qc (1 # 2) = 1)%Qc) by (apply Qc_is_canon; reflexivity).
  set (hf := Q2Qc (1 # 2)) in *. clearbody hf.
  replace ((x - y) * P)%Qc with (x * P - y * P)%Qc by ring. replace ((y - x) * P)%Qc with (y * P - x * P)%Qc by ring.
  set (u := (x * P)%Qc) in *. set (v := (y * P)%Qc) in *. split; qclra.
Qed.
Definition p10 (n : nat) : Qc := qz (10 ^ Z.of_nat n).
Lemma p10_S n : p10 (S n) = (qz 10 * p10 n)%Qc.
Proof. unfold p10. rewrite Nat2Z.inj_succ, Z.pow_succ_r by lia. apply qz_mul. Qed.
Lemma p10_pos n : (0 < p10 n)%Qc.
Proof. unfold p10. apply (proj2 (qz_lt 0 _)). apply Z.pow_pos_nonneg; lia. Qed.
Lemma ilog_ok fuel : forall q, (1 <= q)%Qc -> (q < p10 fuel)%Qc ->
  (p10 (ilog10 fuel q) <= q)%Qc /\ (q < p10 (S (ilog10 fuel q)))%Qc.
Proof.
  assert (H10 : (0 < qz 10)%Qc) by reflexivity.
  induction fuel as [|f IH]; intros q H1 H2.
  - change (p10 0) with 1%Qc in H2. exfalso. qclra.
  - cbn [ilog10]. destruct (Qc_leb_spec (qz 10) q) as [A|A].
    + destruct (IH (q / qz 10)%Qc) as [B C].
      * apply Qc_le_div; [exact H10|]. rewrite Qcmult_1_l. exact A.
      * apply Qc_div_lt; [exact H10|]. rewrite p10_S in H2. rewrite Qcmult_comm. exact H2.
      * apply (proj1 (Qc_le_div _ _ _ H10)) in B. apply (proj1 (Qc_div_lt _ _ _ H10)) in C.
        rewrite Qcmult_comm in B, C. rewrite <- p10_S in B, C. split; assumption.
    + rewrite p10_S. change (p10 0) with 1%Qc. rewrite Qcmult_1_r. split; [exact H1|apply Qcnot_le_lt; exact A].
Qed.
Lemma log_fuel_ok q : (0 < q)%Qc -> (q < p10 (log_fuel q))%Qc.
Proof.
  intros Hq. unfold log_fuel, p10. set (n := Qnum (this q)).
  assert (Hn : (0 < n)%Z). { unfold n. unfold Qclt, Qlt in Hq. cbn in Hq. lia. }
  apply Qcle_lt_trans with (qz n).
  - unfold Qcle. rewrite this_qz. unfold Qle, inject_Z. cbn. fold n. pose proof (Pos2Z.is_pos (Qden (this q))). nia.
  - apply (proj2 (qz_lt _ _)). destruct (Z.log2_spec n Hn) as [_ H].
    replace (Z.of_nat (S (Z.to_nat (Z.log2 n)))) with (Z.succ (Z.log2 n)) by (pose proof (Z.log2_nonneg n); lia).
    eapply Z.lt_le_trans; [exact H|]. apply Z.pow_le_mono_l. pose proof (Z.log2_nonneg n). lia.
Qed.
Lemma p10_plus a b : p10 (a + b) = (p10 a * p10 b)%Qc.
Proof. unfold p10. rewrite Nat2Z.inj_add, Z.pow_add_r by lia. apply qz_mul. Qed.
Lemma pow10_nat n : pow10 (Z.of_nat n) = p10 n.
Proof. unfold pow10. destruct (Z.leb_spec 0 (Z.of_nat n)); [reflexivity|lia]. Qed.
Lemma decimal_ok w : (0 < w)%Qc -> (qz 100000 < w * pow10 (decimal w))%Qc.
Proof.
  intros Hw. unfold decimal. destruct (Qc_leb_spec w 1%Qc) as [A|A].
  - assert (H1 : (1 <= 1 / w)%Qc) by (apply Qc_le_div; [exact Hw|rewrite Qcmult_1_l; exact A]).
    destruct (ilog_ok (log_fuel (1 / w)) (1 / w)%Qc H1 (log_fuel_ok _ (Qc_div_pos 1 w eq_refl Hw))) as [_ C].
    set (k := ilog10 _ _) in *. replace (Z.of_nat k + 6)%Z with (Z.of_nat (S k + 5)) by lia.
    rewrite pow10_nat, p10_plus. apply (proj1 (Qc_div_lt _ _ _ Hw)) in C.
    change (qz 100000) with (p10 5). pose proof (p10_pos 5) as H5. set (u := p10 5) in *. set (v := p10 (S k)) in *.
    replace (w * (v * u))%Qc with (v * w * u)%Qc by ring. set (t := (v * w)%Qc) in *. clearbody t u. qcnra.
  - apply Qcnot_le_lt in A. destruct (ilog_ok (log_fuel w) w (Qclt_le_weak _ _ A) (log_fuel_ok _ Hw)) as [B _].
    set (k := ilog10 _ _) in *. change (qz 100000) with (p10 5).
    assert (H65 : (p10 5 < p10 6)%Qc) by reflexivity.
    apply Qclt_le_trans with (p10 6); [exact H65|].
    destruct (Nat.le_gt_cases k 6) as [Hk|Hk].
    + replace (6 - Z.of_nat k)%Z with (Z.of_nat (6 - k)) by lia. rewrite pow10_nat.
      replace (p10 6) with (p10 k * p10 (6 - k))%Qc by (rewrite <- p10_plus; f_equal; lia).
      pose proof (p10_pos (6 - k)). set (u := p10 (6 - k)) in *. set (v := p10 k) in *. clearbody u v. qcnra.
    + unfold pow10. destruct (Z.leb_spec 0 (6 - Z.of_nat k)) as [?|_]; [lia|].
      replace (- (6 - Z.of_nat k))%Z with (Z.of_nat (k - 6)) by lia. change (qz (10 ^ Z.of_nat (k - 6))) with (p10 (k - 6)).
      replace k with (6 + (k - 6)) in B by lia. rewrite p10_plus in B. pose proof (p10_pos (k - 6)) as Hp.
      replace (w * (1 / p10 (k - 6)))%Qc with (w / p10 (k - 6))%Qc by (field; apply Qc_neq_of_lt; exact Hp).
      apply Qc_le_div; assumption.
Qed.

(** ** Edges *)
Lemma increasing_iff e : increasing_b e = true <-> strictly_increasing e.
Proof.
  unfold strictly_increasing. induction e as [|a [|b r] IH].
  - split; [|reflexivity]. intros _ [|k]; discriminate.
  - split; [|reflexivity]. intros _ [|[|k]]; discriminate.
  - change (increasing_b (a :: b :: r)) with (Qc_ltb a b && increasing_b (b :: r)). rewrite andb_true_iff, IH.
    destruct (Qc_ltb_spec a b) as [H|H].
    + split; [intros [_ H'] [|k] x y E1 E2|intros H'; split; [reflexivity|]].
      * cbn in E1, E2. congruence.
      * exact (H' k x y E1 E2).
      * intros k x y E1 E2. exact (H' (S k) x y E1 E2).
    + split; [intros [? _]; discriminate|]. intros H'. specialize (H' 0 a b eq_refl eq_refl). exfalso. qclra.
Qed.
Lemma increasing_le e i j a b : strictly_increasing e -> i <= j -> nth_error e i = Some a -> nth_error e j = Some b -> (a <= b)%Qc.
Proof.
  intros HS Hij. revert b. induction Hij as [|j Hij IH]; intros b Ea Eb.
  - rewrite Ea in Eb. apply some_inj in Eb. subst. apply Qcle_refl.
  - destruct (nth_error e j) as [c|] eqn:Ec.
    + specialize (IH c Ea eq_refl). specialize (HS j c b Ec Eb). qclra.
    + apply nth_error_None in Ec. assert (S j < length e) by (apply nth_error_Some; congruence). lia.
Qed.
Lemma increasing_ordered e : strictly_increasing e -> ordered Qc_leb e = true.
Proof. intros H. apply ordered_nondecreasing. intros k a b E1 E2. rewrite Nat.add_1_r in E2. apply Qclt_le_weak. eapply H; eauto. Qed.
Lemma Qc_leb_trans a b c : Qc_leb a b = true -> Qc_leb b c = true -> Qc_leb a c = true.
Proof.
  destruct (Qc_leb_spec a b), (Qc_leb_spec b c), (Qc_leb_spec a c); intros; try reflexivity; try discriminate. exfalso. qclra.
Qed.
Lemma digit_iff e x k a : strictly_increasing e -> nth_error e k = Some a -> ((a <= x)%Qc <-> k < digitize Qc_leb e x).
Proof.
  intros HS E. rewrite <- (digitize_iff Qc_leb Qc_leb_trans e x (increasing_ordered e HS) k a E).
  destruct (Qc_leb_spec a x); split; intros; try congruence; try assumption. exfalso. qclra.
Qed.
Lemma digit_le e x : digitize Qc_leb e x <= length e.
Proof. unfold digitize. induction e as [|a l IH]; cbn; [lia|]. destruct (Qc_leb a x); cbn; lia. Qed.
Lemma last_edge_nth e z : nth_error e (length e - 1) = Some z -> last_edge e = z.
Proof.
  unfold last_edge. induction e as [|a [|b r] IH]; [discriminate| |].
  - cbn. congruence.
  - intros E. change (last (a :: b :: r) 0%Qc) with (last (b :: r) 0%Qc). apply IH. rewrite <- E.
    cbn [length Nat.sub]. replace (length r - 0) with (length r) by lia. reflexivity.
Qed.
Lemma diffs_nth e k a b : nth_error e k = Some a -> nth_error e (S k) = Some b -> nth_error (diffs e) k = Some (b - a)%Qc.
Proof.
  intros Ea Eb. unfold diffs, pairwise. rewrite nth_error_map.
  assert (E : nth_error (combine e (tl e)) k = Some (a, b)); [|rewrite E; reflexivity].
  revert k Ea Eb. induction e as [|c [|d r] IH]; intros k Ea Eb.
  - destruct k; discriminate.
  - destruct k as [|[|k]]; discriminate.
  - destruct k as [|k]; cbn in *; [congruence|]. apply IH; assumption.
Qed.
Lemma diffs_In e s : In s (diffs e) -> exists k a b, nth_error e k = Some a /\ nth_error e (S k) = Some b /\ s = (b - a)%Qc.
Proof.
  unfold diffs, pairwise. intros H. apply in_map_iff in H. destruct H as [[a b] [<- H]]. cbn [fst snd].
  apply In_nth_error in H. destruct H as [k E]. exists k, a, b.
  assert (G : nth_error e k = Some a /\ nth_error e (S k) = Some b); [|tauto].
  revert k E. induction e as [|c [|d r] IH]; intros k E.
  - destruct k; discriminate.
  - destruct k; discriminate.
  - destruct k as [|k]; cbn in *; [split; congruence|]. apply IH; assumption.
Qed.
Lemma min_step_ok e : strictly_increasing e -> 2 <= length e -> (0 < min_step e)%Qc /\
  (forall k a b, nth_error e k = Some a -> nth_error e (S k) = Some b -> (min_step e <= b - a)%Qc).
Proof.
  intros HS HL. unfold min_step. destruct (lmin_q (diffs e)) as [w|] eqn:E.
  - apply lmin_q_spec in E. destruct E as [Hin Hle]. split.
    + apply diffs_In in Hin. destruct Hin as [k [a [b [Ea [Eb ->]]]]]. specialize (HS k a b Ea Eb). qclra.
    + intros k a b Ea Eb. apply Hle. eapply nth_error_In. apply diffs_nth; eassumption.
  - exfalso. destruct e as [|a [|b r]]; cbn in *; try lia. discriminate.
Qed.
Section Axis.
Variables (e : list Qc) (z : Qc).
Hypotheses (HS : strictly_increasing e) (HL : 2 <= length e) (HZ : nth_error e (length e - 1) = Some z).
Lemma on_edge_near x : on_edge e x = true -> forall k a b, nth_error e k = Some a -> nth_error e (S k) = Some b ->
  (z < x + Q2Qc (1 # 100000) * (b - a))%Qc /\ (x < z + Q2Qc (1 # 100000) * (b - a))%Qc.
Proof.
  intros H k a b Ea Eb. unfold on_edge in H. rewrite (last_edge_nth e z HZ) in H.
  apply (reflect_iff _ _ (Qc_eqb_spec _ _)) in H.
  destruct (min_step_ok e HS HL) as [Hw Hm]. specialize (Hm k a b Ea Eb). set (w := min_step e) in *.
  pose proof (decimal_ok w Hw) as HD. pose proof (pow10_pos (decimal w)) as HP.
  apply around_eq in H. set (P := pow10 (decimal w)) in *. destruct H as [H1 H2]. clearbody P w.
  assert (HC : (qz 100000 * Q2Qc (1 # 100000) = 1)%Qc) by (apply Qc_is_canon; reflexivity).
  assert (Hc : (0 < Q2Qc (1 # 100000))%Qc) by reflexivity.
  set (c := Q2Qc (1 # 100000)) in *. set (B := qz 100000) in *. clearbody c B.
  assert (HQ : (1 < c * (b - a) * P)%Qc).
  { assert (1 < c * w * P)%Qc. { replace (c * w * P)%Qc with (c * (w * P))%Qc by ring. set (t := (w * P)%Qc) in *. clearbody t. qcnra. }
    assert (c * w * P <= c * (b - a) * P)%Qc.
    { assert (0 <= (c * P) * ((b - a) - w))%Qc; [|qclra]. assert (0 < c * P)%Qc by qcnra. set (u := (c * P)%Qc) in *.
      assert (0 <= b - a - w)%Qc by qclra. set (v := (b - a - w)%Qc) in *. clearbody u v. qcnra. }
    qclra. }
  set (s := (c * (b - a))%Qc) in *. clearbody s. split.
  - destruct (Qclt_le_dec z (x + s)) as [?|N]; [assumption|exfalso].
    assert (s * P <= (z - x) * P)%Qc by (assert (0 <= (z - x - s) * P)%Qc; [|qclra]; assert (0 <= z - x - s)%Qc by qclra; set (v := (z - x - s)%Qc) in *; clearbody v; qcnra).
    qclra.
  - destruct (Qclt_le_dec x (z + s)) as [?|N]; [assumption|exfalso].
    assert (s * P <= (x - z) * P)%Qc by (assert (0 <= (x - z - s) * P)%Qc; [|qclra]; assert (0 <= x - z - s)%Qc by qclra; set (v := (x - z - s)%Qc) in *; clearbody v; qcnra).
    qclra.
Qed.
(** The subtraction in [count1] never goes below zero. *)
Lemma on_edge_pos x : on_edge e x = true -> 1 <= digitize Qc_leb e x.
Proof.
  intros H. destruct (nth_error e (length e - 2)) as [a|] eqn:Ea; [|apply nth_error_None in Ea; lia].
  assert (Ez : nth_error e (S (length e - 2)) = Some z) by (replace (S (length e - 2)) with (length e - 1) by lia; exact HZ).
  destruct (on_edge_near x H _ _ _ Ea Ez) as [H1 _]. pose proof (HS _ _ _ Ea Ez) as HS'.
  assert (HC : (Q2Qc (1 # 100000) < 1)%Qc) by reflexivity. set (c := Q2Qc (1 # 100000)) in *. clearbody c.
  assert (H0 : (a <= x)%Qc) by qcnra. apply (digit_iff e x (length e - 2) a HS Ea) in H0. lia.
Qed.
Lemma on_edge_clear x : clear_of_edge e x -> (on_edge e x = true <-> x = z).
Proof.
  intros [z' [Ez' H]]. rewrite HZ in Ez'. apply some_inj in Ez'. subst z'. split.
  - intros HE. destruct H as [H|[k [a [b [Ea [Eb H]]]]]]; [exact H|exfalso].
    destruct (on_edge_near x HE k a b Ea Eb) as [H1 H2]. set (c := (Q2Qc (1 # 100000) * (b - a))%Qc) in *. clearbody c.
    destruct H; qclra.
  - intros ->. unfold on_edge. rewrite (last_edge_nth e z HZ). apply (reflect_iff _ _ (Qc_eqb_spec _ _)). reflexivity.
Qed.
Lemma count1_iff x k : clear_of_edge e x -> S k < length e -> (count1 e x = S k <-> in_axis e k x).
Proof.
  intros HC Hk. pose proof (on_edge_clear x HC) as HE. unfold count1, in_axis.
  destruct (nth_error e k) as [a|] eqn:Ea; [|apply nth_error_None in Ea; lia].
  destruct (nth_error e (S k)) as [b|] eqn:Eb; [|apply nth_error_None in Eb; lia].
  pose proof (digit_iff e x k a HS Ea) as Da. pose proof (digit_iff e x (S k) b HS Eb) as Db.
  pose proof (digit_iff e x _ z HS HZ) as Dz. pose proof (digit_le e x) as Dl. set (d := digitize Qc_leb e x) in *.
  assert (Hbz : (b <= z)%Qc) by (apply (increasing_le e (S k) (length e - 1)); [exact HS|lia|exact Eb|exact HZ]).
  destruct (on_edge e x) eqn:EE.
  - assert (Hx : x = z) by tauto.
    assert (HD : d = length e). { assert (length e - 1 < d) by (apply Dz; rewrite Hx; apply Qcle_refl). lia. }
    split.
    + intros E. exists a, b. split; [reflexivity|]. split; [reflexivity|]. split; [apply Da; lia|]. right. split; [|lia].
      assert (E' : S k = length e - 1) by lia. rewrite E' in Eb. rewrite HZ in Eb. apply some_inj in Eb. congruence.
    + intros [a' [b' [E1 [E2 [H1 H2]]]]]. apply some_inj in E1, E2. subst a' b'. destruct H2 as [H2|[_ H2]]; [exfalso; qclra|]. lia.
  - assert (Hx : x <> z) by (intros Hx; apply HE in Hx; congruence). split.
    + intros E. exists a, b. split; [reflexivity|]. split; [reflexivity|]. split; [apply Da; lia|]. left.
      apply Qcnot_le_lt. intros N. apply Db in N. lia.
    + intros [a' [b' [E1 [E2 [H1 H2]]]]]. apply some_inj in E1, E2. subst a' b'. apply Da in H1.
      destruct H2 as [H2|[H2 H3]].
      * assert (~ S k < d) by (intros N; apply Db in N; qclra). lia.
      * exfalso. apply Hx. replace (S k) with (length e - 1) in Eb by lia. rewrite HZ in Eb. apply some_inj in Eb. congruence.
Qed.
Lemma masked_outlier : count1 e (masked_value e) = 0.
Proof.
  unfold count1, masked_value. destruct e as [|a r] eqn:Ee; [cbn in HL; lia|]. cbn [hd].
  assert (HD : digitize Qc_leb (a :: r) (a - Q2Qc (1 # 100) * (1 + qabs a))%Qc = 0); [|rewrite HD; reflexivity].
  destruct (digitize Qc_leb (a :: r) _) eqn:E; [reflexivity|exfalso].
  assert (H : (a <= a - Q2Qc (1 # 100) * (1 + qabs a))%Qc).
  { apply (digit_iff (a :: r) _ 0 a HS eq_refl). rewrite E. lia. }
  assert (HC : (0 < Q2Qc (1 # 100))%Qc) by reflexivity. set (c := Q2Qc (1 # 100)) in *. clearbody c.
  assert (Ha : (0 <= qabs a)%Qc). { unfold qabs. destruct (Qc_ltb_spec a 0%Qc); qclra. }
  set (t := qabs a) in *. clearbody t. qcnra.
Qed.
End Axis.
Lemma count1_bound e x : count1 e x < S (length e).
Proof. unfold count1. pose proof (digit_le e x). lia. Qed.

(** ** Cells *)
Definition good (e : list Qc) : Prop := strictly_increasing e /\ 2 <= length e.
Lemma fine_good e : edges_fine e = true <-> good e.
Proof. unfold edges_fine, good. rewrite andb_true_iff, increasing_iff, Nat.leb_le. tauto. Qed.
Lemma good_last e : good e -> exists z, nth_error e (length e - 1) = Some z.
Proof. intros [_ H]. destruct (nth_error e (length e - 1)) eqn:E; [eauto|]. apply nth_error_None in E. lia. Qed.
Lemma counts_len edges pt keep : length pt = length edges -> length (counts edges pt keep) = length edges.
Proof. intros H. unfold counts. rewrite map_length, combine_length. lia. Qed.
Lemma counts_bound edges pt keep : length pt = length edges -> Forall2 lt (counts edges pt keep) (map (fun e => S (length e)) edges).
Proof.
  revert pt. induction edges as [|e es IH]; intros [|x xs] H; cbn in *; try discriminate; constructor; [apply count1_bound|].
  apply IH. lia.
Qed.
Lemma counts_cell edges idx pt : Forall good edges -> valid_index edges idx -> Forall2 clear_of_edge edges pt ->
  (counts edges pt true = map S idx <-> in_cell edges idx pt).
Proof.
  intros HG HV. revert pt HG. induction HV as [|e k es ks Hk HV IH]; intros pt HG HC; inversion HC as [|e' x es' xs Hx Hxs]; subst; clear HC.
  - split; [constructor|reflexivity].
  - inversion HG as [|? ? [G1 G2] HG']; subst. specialize (IH xs HG' Hxs).
    change (counts (e :: es) (x :: xs) true) with (count1 e x :: counts es xs true). cbn [map].
    destruct (good_last e (conj G1 G2)) as [z Hz].
    pose proof (count1_iff e z G1 G2 Hz x k Hx Hk) as HC. split.
    + intros E. injection E as E1 E2. constructor; [tauto|tauto].
    + intros H. inversion H; subst. f_equal; tauto.
Qed.
Lemma counts_masked edges idx pt : Forall good edges -> edges <> [] -> length pt = length edges -> counts edges pt false <> map S idx.
Proof.
  intros HG Hne HL. destruct edges as [|e es]; [contradiction|]. destruct pt as [|x xs]; [discriminate|].
  change (counts (e :: es) (x :: xs) false) with (count1 e (masked_value e) :: counts es xs false).
  inversion HG as [|? ? [G1 G2] _]; subst. destruct (good_last e (conj G1 G2)) as [z Hz].
  rewrite (masked_outlier e z G1 G2) by exact Hz || rewrite (masked_outlier e G1 G2).
  destruct idx; cbn; congruence.
Qed.

(** ** Statistics *)
Lemma group_picked {A} (xy : list nat) (values : list A) j : length xy = length values -> forall s,
  picked (fun p => nth_error xy (p - s) = Some j) s values (map snd (filter (fun p => fst p =? j) (combine xy values))).
Proof.
  revert values. induction xy as [|c xy IH]; intros [|v values] HL s; cbn in HL; try discriminate; [constructor|].
  specialize (IH values ltac:(lia) (S s)).
  assert (IH' : picked (fun p => nth_error (c :: xy) (p - s) = Some j) (S s) values (map snd (filter (fun p => fst p =? j) (combine xy values)))).
  { eapply picked_iff; [|exact IH]. intros p Hp. cbv beta. replace (p - s) with (S (p - S s)) by lia. reflexivity. }
  cbn [combine filter fst]. destruct (Nat.eqb_spec c j) as [->|Hne]; cbn [map snd].
  - apply picked_yes; [|exact IH']. rewrite Nat.sub_diag. reflexivity.
  - apply picked_no; [|exact IH']. rewrite Nat.sub_diag. cbn. congruence.
Qed.
Lemma flatcount_group {A} xy (values : list A) j : length xy = length values ->
  flatcount xy j = length (map snd (filter (fun p => fst p =? j) (combine xy values))).
Proof.
  unfold flatcount. revert values. induction xy as [|c xy IH]; intros [|v values] HL; cbn in HL; try discriminate; [reflexivity|].
  cbn [filter combine fst]. rewrite (Nat.eqb_sym j c). destruct (c =? j); cbn [length map]; rewrite (IH values) by lia; reflexivity.
Qed.
Lemma group_map {A B} (g : A -> B) xy (values : list A) j :
  map snd (filter (fun p => fst p =? j) (combine xy (map g values))) = map g (map snd (filter (fun p => fst p =? j) (combine xy values))).
Proof.
  revert values. induction xy as [|c xy IH]; intros [|v values]; try reflexivity.
  cbn [map combine filter fst]. destruct (c =? j); cbn [map snd]; rewrite IH; reflexivity.
Qed.
Lemma std_eq vs : vs <> [] -> let n := qn (length vs) in let m := (qsum vs / n)%Qc in
  (qsum (map (fun v => v * v) vs) / n - m * m = qsum (map (fun v => (v - m) * (v - m)) vs) / n)%Qc.
Proof.
  intros Hne n m. assert (Hn : n <> 0%Qc).
  { apply Qc_neq_of_lt. apply qn_pos. destruct vs; [contradiction|discriminate]. }
  assert (E : forall l, (qsum (map (fun v => (v - m) * (v - m)) l) = qsum (map (fun v => v * v) l) - (m + m) * qsum l + qn (length l) * (m * m))%Qc).
  { induction l as [|a l IH]; [cbn; change (qn 0) with 0%Qc; ring|]. cbn [map length]. change (qn (S (length l))) with (qz (Z.of_nat (S (length l)))).
    rewrite Nat2Z.inj_succ, <- Z.add_1_r, qz_add. change (qz (Z.of_nat (length l))) with (qn (length l)). change (qz 1) with 1%Qc.
    cbn [qsum fold_right]. change (fold_right Qcplus 0%Qc) with qsum. rewrite IH. ring. }
  rewrite E. fold n. assert (Em : qsum vs = (m * n)%Qc) by (unfold m; field; exact Hn). rewrite Em. field. exact Hn.
Qed.

(** Chunks of the sorted values *)
Lemma sorted_split (L : list (nat * Qc)) j : StronglySorted le (map fst L) ->
  L = filter (fun p => fst p <? j) L ++ filter (fun p => fst p =? j) L ++ filter (fun p => j <? fst p) L.
Proof.
  induction L as [|[k v] L IH]; intros HS; [reflexivity|]. cbn [map fst] in HS. apply StronglySorted_inv in HS. destruct HS as [HS HF].
  specialize (IH HS). cbn [filter fst].
  assert (HF' : forall p, In p L -> k <= fst p) by (intros p Hp; rewrite Forall_forall in HF; apply HF; apply in_map; exact Hp).
  assert (Hnil : forall f, (forall p, In p L -> f p = false) -> filter f L = []).
  { intros f Hf. clear -Hf. induction L as [|p L IH]; [reflexivity|]. cbn. rewrite (Hf p) by (left; reflexivity).
    apply IH. intros q Hq. apply Hf. right. exact Hq. }
  destruct (Nat.lt_trichotomy k j) as [H|[H|H]].
  - rewrite (proj2 (Nat.ltb_lt k j)) by exact H. rewrite (proj2 (Nat.eqb_neq k j)) by lia. rewrite (proj2 (Nat.ltb_ge j k)) by lia.
    cbn [app]. rewrite <- IH. reflexivity.
  - subst. rewrite Nat.ltb_irrefl, Nat.eqb_refl.
    assert (N1 : filter (fun p => fst p <? j) L = []) by (apply Hnil; intros p Hp; apply Nat.ltb_ge; apply HF'; exact Hp).
    rewrite N1 in IH |- *. cbn [app] in *. rewrite <- IH. reflexivity.
  - rewrite (proj2 (Nat.ltb_ge k j)) by lia. rewrite (proj2 (Nat.eqb_neq k j)) by lia. rewrite (proj2 (Nat.ltb_lt j k)) by exact H.
    assert (N1 : filter (fun p => fst p <? j) L = []) by (apply Hnil; intros p Hp; apply Nat.ltb_ge; specialize (HF' p Hp); lia).
    assert (N2 : filter (fun p => fst p =? j) L = []) by (apply Hnil; intros p Hp; apply Nat.eqb_neq; specialize (HF' p Hp); lia).
    rewrite N1, N2 in IH |- *. cbn [app] in *. rewrite <- IH. reflexivity.
Qed.
Lemma filter_perm {A} (f : A -> bool) l l' : Permutation l l' -> Permutation (filter f l) (filter f l').
Proof.
  induction 1; cbn; try constructor.
  - destruct (f x); [constructor|]; assumption.
  - destruct (f x), (f y); try constructor; reflexivity.
  - etransitivity; eassumption.
Qed.
Lemma below_sum (L : list nat) j : length (filter (fun k => k <? j) L) = list_sum (map (flatcount L) (seq 0 j)).
Proof.
  induction j as [|j IH].
  - cbn. induction L; cbn; auto.
  - rewrite seq_S, map_app, list_sum_app, <- IH. cbn [map list_sum fold_right Nat.add]. rewrite Nat.add_0_r. unfold flatcount.
    clear IH. induction L as [|k L IH]; [reflexivity|]. cbn [filter].
    destruct (Nat.ltb_spec k (S j)), (Nat.ltb_spec k j), (Nat.eqb_spec j k); try lia; cbn [length]; lia.
Qed.
Lemma filter_fst {B} (f : nat -> bool) (L : list (nat * B)) : length (filter (fun p => f (fst p)) L) = length (filter f (map fst L)).
Proof. induction L as [|[k v] L IH]; [reflexivity|]. cbn. destruct (f k); cbn; lia. Qed.
Lemma combine_seq (xy : list nat) (values : list Qc) : length xy = length values ->
  combine xy values = map (fun p => (nth p xy 0, nth p values 0%Qc)) (seq 0 (length xy)).
Proof.
  revert values. induction xy as [|c xy IH]; intros [|v values] HL; cbn in HL; try discriminate; [reflexivity|].
  cbn [combine length seq map nth]. f_equal. rewrite IH by lia. rewrite <- seq_shift, map_map. reflexivity.
Qed.
Lemma chunk_perm order xy values j : sorts order -> length xy = length values ->
  Permutation (map snd (filter (fun p => fst p =? j) (combine xy values)))
    (firstn (flatcount xy j) (skipn (list_sum (map (flatcount xy) (seq 0 j))) (map (fun p => nth p values 0%Qc) (order xy)))).
Proof.
  intros HS HL. destruct (HS xy) as [HP HO].
  set (L := map (fun p => (nth p xy 0, nth p values 0%Qc)) (order xy)).
  assert (PL : Permutation (combine xy values) L).
  { rewrite (combine_seq xy values HL). unfold L. apply Permutation_map. symmetry. exact HP. }
  assert (Ev : map (fun p => nth p values 0%Qc) (order xy) = map snd L) by (unfold L; rewrite map_map; reflexivity).
  assert (Ek : map fst L = map (fun p => nth p xy 0) (order xy)) by (unfold L; rewrite map_map; reflexivity).
  assert (Pk : Permutation xy (map fst L)).
  { rewrite <- (Permutation_map fst PL). clear -HL. revert values HL. induction xy as [|c xy IH]; intros [|v values] HL; cbn in HL; try discriminate; [reflexivity|].
    cbn. constructor. apply IH. lia. }
  assert (Hc : forall i, flatcount xy i = flatcount (map fst L) i).
  { intros i. unfold flatcount. apply Permutation_length, filter_perm. exact Pk. }
  assert (Hs : list_sum (map (flatcount xy) (seq 0 j)) = length (filter (fun p => fst p <? j) L)).
  { rewrite (filter_fst (fun k => k <? j)), below_sum. f_equal. apply map_ext. exact Hc. }
  assert (Hn : flatcount xy j = length (filter (fun p => fst p =? j) L)).
  { rewrite (filter_fst (fun k => k =? j)), Hc. unfold flatcount. f_equal. apply filter_ext. intros k. apply Nat.eqb_sym. }
  rewrite Ev, Hs, Hn. rewrite <- Ek in HO. rewrite (sorted_split L j HO) at 3.
  rewrite !map_app. rewrite skipn_app, skipn_all2 by (rewrite map_length; lia). rewrite map_length, Nat.sub_diag. cbn [skipn app].
  rewrite firstn_app, firstn_all2 by (rewrite map_length; lia). rewrite map_length, Nat.sub_diag. cbn [firstn]. rewrite app_nil_r.
  apply Permutation_map, filter_perm. exact PL.
Qed.
Lemma flat_stat_ok st xy values order j : sorts order -> length xy = length values ->
  is_stat st (map snd (filter (fun p => fst p =? j) (combine xy values))) (flat_stat st xy values (order xy) j).
Proof.
  intros HS HL. pose proof (chunk_perm order xy values j HS HL) as HC.
  unfold flat_stat, bincount. rewrite (group_map (fun v => v * v)%Qc). rewrite (flatcount_group xy values j HL) in *.
  set (vs := map snd _) in *. clearbody vs.
  destruct st; cbn [is_stat]; try reflexivity; (destruct vs as [|v vs]; [left; split; reflexivity|right; split; [discriminate|]]);
    cbn [length Nat.eqb]; try reflexivity.
  - f_equal. apply (std_eq (v :: vs)). discriminate.
  - eexists. split; [exact HC|reflexivity].
Qed.
Lemma map_combine_nth {A B C} (f : A * B -> C) l l' p c : length l = length l' ->
  (nth_error (map f (combine l l')) p = Some c <-> exists a b, nth_error l p = Some a /\ nth_error l' p = Some b /\ f (a, b) = c).
Proof.
  revert l' p. induction l as [|a l IH]; intros [|b l'] p HL; cbn in HL; try discriminate.
  - destruct p; cbn; split; [discriminate|intros [? [? [? _]]]; discriminate|discriminate|intros [? [? [? _]]]; discriminate].
  - destruct p as [|p]; cbn.
    + split; [intros E; exists a, b; split; [reflexivity|split; [reflexivity|congruence]]|intros [a' [b' [E1 [E2 E3]]]]; congruence].
    + apply IH. lia.
Qed.

Lemma Forall2_len {A B} (R : A -> B -> Prop) l l' : Forall2 R l l' -> length l = length l'.
Proof. induction 1; cbn; congruence. Qed.
Theorem binned_statistic_ok edges points mask order st values :
  sorts order -> edges <> [] -> Forall strictly_increasing edges -> Forall (fun e => 2 <= length e) edges ->
  length values = length points -> (forall m, mask = Some m -> length m = length points) ->
  Forall (Forall2 clear_of_edge edges) points ->
  exists f, binned_statistic edges points mask order st values = Some f /\
    forall idx, valid_index edges idx -> exists vs,
      picked (fun p => (forall m, mask = Some m -> nth_error m p = Some true) /\
    exists pt, nth_error points p = Some pt /\ in_cell edges idx pt) 0 values vs /\
    is_stat st vs (f idx).
Proof.
  intros HO Hne HS H2 HLv HLm HC. unfold binned_statistic.
  set (keep := match mask with Some m => m | None => map (fun _ => true) points end).
  assert (HLk : length keep = length points) by (unfold keep; destruct mask; [apply HLm; reflexivity|apply map_length]).
  assert (HG : Forall good edges).
  { rewrite Forall_forall in *. intros e He. split; [apply HS|apply H2]; exact He. }
  assert (E1 : forallb edges_fine edges = true).
  { apply forallb_forall. intros e He. apply fine_good. rewrite Forall_forall in HG. auto. }
  assert (HLp : forall pt, In pt points -> length pt = length edges).
  { intros pt Hp. rewrite Forall_forall in HC. specialize (HC pt Hp). symmetry. eapply Forall2_len; eauto. }
  assert (E2 : forallb (fun p => length p =? length edges) points = true).
  { apply forallb_forall. intros pt Hp. apply Nat.eqb_eq. apply HLp. exact Hp. }
  rewrite E1, E2, HLk, HLv, !Nat.eqb_refl. replace (length edges =? 0) with false by (destruct edges; [contradiction|reflexivity]).
  cbn [negb andb]. eexists. split; [reflexivity|]. intros idx HV. cbv beta zeta.
  set (nb := map (fun e => S (length e)) edges). set (xy := map _ (combine points keep)).
  assert (HLi : length idx = length edges) by (symmetry; eapply Forall2_len; exact HV).
  rewrite unsort_eq by (unfold nb; rewrite !map_length; exact HLi).
  set (J := ravel _ _). exists (map snd (filter (fun p => fst p =? J) (combine xy values))).
  assert (HLx : length xy = length values) by (unfold xy; rewrite map_length, combine_length; lia).
  split; [|apply flat_stat_ok; assumption].
  eapply picked_iff; [|apply (group_picked xy values J HLx 0)]. intros p _. cbv beta. rewrite Nat.sub_0_r.
  unfold xy. rewrite map_combine_nth by (symmetry; exact HLk). cbn [fst snd].
  assert (HB : forall pt k, In pt points -> (flat_xy nb (counts edges pt k) (argsort nb) = J <-> k = true /\ in_cell edges idx pt)).
  { intros pt k Hp. unfold J. rewrite sorted_pick.
    - destruct k.
      + rewrite counts_cell; [tauto|exact HG|exact HV|]. rewrite Forall_forall in HC. apply HC. exact Hp.
      + split; [|intros [? _]; discriminate]. intros E. exfalso. revert E. apply counts_masked; auto.
    - unfold nb. rewrite counts_len, map_length; auto.
    - unfold nb. rewrite !map_length. exact HLi.
    - unfold nb. destruct edges; [contradiction|discriminate].
    - apply counts_bound. auto.
    - unfold nb. clear -HV. induction HV as [|e k es ks H _ IH]; cbn; constructor; [lia|exact IH]. }
  split.
  - intros [pt [k [Ep [Ek E]]]]. apply HB in E; [|eapply nth_error_In; eassumption]. destruct E as [-> Hc]. split; [|eauto].
    intros m Em. unfold keep in Ek. rewrite Em in Ek. exact Ek.
  - intros [Hm [pt [Ep Hc]]]. exists pt, true. split; [exact Ep|]. split; [|apply HB; [eapply nth_error_In; exact Ep|tauto]].
    unfold keep. destruct mask as [m|]; [apply Hm; reflexivity|]. rewrite nth_error_map, Ep. reflexivity.
Qed.
