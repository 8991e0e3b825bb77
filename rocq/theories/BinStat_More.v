From Verif Require Import Common QcArith Sums Utils_Model Utils_Spec Utils_Proofs Roi_Model Roi_Spec Roi_Proofs Roi_Stats BinStat_Model BinStat_Spec BinStat_Proofs BinStat_Main.
From Coq Require Import Permutation Sorted Qround.

(** ** A sorting order exists *)
Lemma insert_sorted key i l : StronglySorted le (map key l) -> StronglySorted le (map key (insert_key key i l)).
Proof.
  induction l as [|j r IH]; intros HS; cbn; [repeat constructor|]. destruct (Nat.leb_spec (key i) (key j)) as [H|H].
  - cbn. constructor; [exact HS|]. constructor; [exact H|]. apply StronglySorted_inv in HS. destruct HS as [_ HF].
    eapply Forall_impl; [|exact HF]. intros a Ha. cbn in Ha. lia.
  - cbn in HS |- *. apply StronglySorted_inv in HS. destruct HS as [HS HF]. constructor; [apply IH; exact HS|].
    rewrite (Forall_forall) in *. intros k Hk. apply in_map_iff in Hk. destruct Hk as [a [<- Ha]].
    apply (Permutation_in a (insert_perm key i r)) in Ha. destruct Ha as [<-|Ha]; [lia|]. apply HF. apply in_map. exact Ha.
Qed.
Lemma argsort_sorts : sorts argsort.
Proof.
  intros l. split; [apply argsort_perm|]. unfold argsort. induction (seq 0 (length l)) as [|i s IH]; [constructor|].
  cbn [fold_right]. apply (insert_sorted (fun p => nth p l 0)). exact IH.
Qed.

(** ** Bin edges from a number of bins *)
Lemma linspace_increasing a b n : n <> 0 -> (a < b)%Qc -> strictly_increasing (linspace a b n).
Proof.
  intros Hn Hab k x y E1 E2. assert (Hk : S k < S n) by (rewrite <- (linspace_len a b n); apply nth_error_Some; congruence).
  rewrite linspace_nth in E1, E2 by lia. apply some_inj in E1, E2. subst. unfold bin_edge.
  assert (H0 : (0 < (b - a) / qn n)%Qc) by (apply Qc_div_pos; [qclra|apply qn_pos; exact Hn]).
  assert (H1 : (qn k < qn (S k))%Qc) by (apply qn_lt; lia). set (s := ((b - a) / qn n)%Qc) in *. clearbody s.
  set (u := qn k) in *. set (v := qn (S k)) in *. clearbody u v. qcnra.
Qed.
Theorem edges_of_ok n lo hi : n <> 0 -> (lo <= hi)%Qc ->
  let e := edges_of (BNum n) lo hi in
  strictly_increasing e /\ length e = S n /\
  exists a b, ((lo < hi)%Qc /\ a = lo /\ b = hi \/ lo = hi /\ a = (lo - Q2Qc (1 # 2))%Qc /\ b = (hi + Q2Qc (1 # 2))%Qc) /\
    forall k, k <= n -> nth_error e k = Some (a + qn k * ((b - a) / qn n))%Qc.
Proof.
  intros Hn Hle e. unfold e, edges_of. destruct (Qc_eqb_spec lo hi) as [->|Hne].
  - split; [apply linspace_increasing; [exact Hn|]|split; [apply linspace_len|]].
    + assert (H : (0 < Q2Qc (1 # 2))%Qc) by reflexivity. set (h := Q2Qc (1 # 2)) in *. clearbody h. qclra.
    + do 2 eexists. split; [right; split; [reflexivity|split; reflexivity]|]. intros k Hk. apply linspace_nth; assumption.
  - assert (Hlt : (lo < hi)%Qc) by (destruct (Qclt_le_dec lo hi); [assumption|exfalso; apply Hne; apply Qcle_antisym; assumption]).
    split; [apply linspace_increasing; assumption|split; [apply linspace_len|]].
    do 2 eexists. split; [left; split; [exact Hlt|split; reflexivity]|]. intros k Hk. apply linspace_nth; assumption.
Qed.

(** ** Right edge *)
Definition grid (n : nat) : list Qc := map qn (seq 0 (S n)).
Lemma grid_nth n k : k <= n -> nth_error (grid n) k = Some (qn k).
Proof. intros H. unfold grid. apply nth_error_map_seq. lia. Qed.
Lemma grid_len n : length (grid n) = S n. Proof. unfold grid. now rewrite map_length, seq_length. Qed.
Lemma grid_increasing n : strictly_increasing (grid n).
Proof.
  intros k a b E1 E2. assert (S k < S n) by (rewrite <- (grid_len n); apply nth_error_Some; congruence).
  rewrite grid_nth in E1, E2 by lia. apply some_inj in E1, E2. subst. apply qn_lt. lia.
Qed.
Lemma qn_S_1 k : (qn (S k) - qn k = 1)%Qc.
Proof. unfold qn. rewrite Nat2Z.inj_succ, <- Z.add_1_r, qz_add. change (qz 1) with 1%Qc. ring. Qed.
Lemma grid_step n : 1 <= n -> min_step (grid n) = 1%Qc.
Proof.
  intros Hn. unfold min_step. destruct (lmin_q (diffs (grid n))) as [w|] eqn:E; [|reflexivity].
  apply lmin_q_spec in E. destruct E as [E _]. apply diffs_In in E. destruct E as [k [a [b [E1 [E2 ->]]]]].
  assert (S k < S n) by (rewrite <- (grid_len n); apply nth_error_Some; congruence).
  rewrite grid_nth in E1, E2 by lia. apply some_inj in E1, E2. subst. apply qn_S_1.
Qed.
Lemma decimal_1 : decimal 1%Qc = 6%Z. Proof. vm_compute. reflexivity. Qed.
Lemma round_int x z : (qz z - Q2Qc (1 # 2) < x)%Qc -> (x < qz z + Q2Qc (1 # 2))%Qc -> qround_even x = z.
Proof.
  intros H1 H2. assert (HH : (Q2Qc (1 # 2) + Q2Qc (1 # 2) = 1)%Qc) by (apply Qc_is_canon; reflexivity).
  assert (Hp : (0 < Q2Qc (1 # 2))%Qc) by reflexivity.
  unfold qround_even. destruct (Qfloor_qc x) as [F1 F2].
  destruct (Qclt_le_dec x (qz z)) as [L|L].
  - assert (EF : Qfloor (this x) = (z - 1)%Z).
    { apply Qfloor_unique; rewrite qz_sub; change (qz 1) with 1%Qc; set (h := Q2Qc (1 # 2)) in *; clearbody h; qclra. }
    rewrite EF. rewrite qz_sub. change (qz 1) with 1%Qc.
    destruct (Qc_ltb_spec (x - (qz z - 1))%Qc (Q2Qc (1 # 2))) as [A|A].
    + exfalso. set (h := Q2Qc (1 # 2)) in *; clearbody h. qclra.
    + destruct (Qc_ltb_spec (Q2Qc (1 # 2)) (x - (qz z - 1))%Qc) as [B|B]; [lia|].
      exfalso. set (h := Q2Qc (1 # 2)) in *; clearbody h. qclra.
  - assert (EF : Qfloor (this x) = z).
    { apply Qfloor_unique; [exact L|]. set (h := Q2Qc (1 # 2)) in *; clearbody h; qclra. }
    rewrite EF. destruct (Qc_ltb_spec (x - qz z)%Qc (Q2Qc (1 # 2))) as [A|A]; [reflexivity|].
    exfalso. set (h := Q2Qc (1 # 2)) in *; clearbody h. qclra.
Qed.
Lemma grid_on_edge n x : 1 <= n -> (qn n - Q2Qc (1 # 2000000) < x)%Qc -> (x < qn n + Q2Qc (1 # 2000000))%Qc -> on_edge (grid n) x = true.
Proof.
  intros Hn H1 H2. unfold on_edge. rewrite grid_step, decimal_1 by exact Hn.
  rewrite (last_edge_nth (grid n) (qn n)) by (rewrite grid_len; replace (S n - 1) with n by lia; apply grid_nth; lia).
  apply (reflect_iff _ _ (Qc_eqb_spec _ _)). unfold around. f_equal. f_equal.
  change (pow10 6) with (qz 1000000).
  assert (E : (qn n * qz 1000000)%Qc = qz (Z.of_nat n * 1000000)) by (unfold qn; rewrite qz_mul; reflexivity).
  assert (HC : (Q2Qc (1 # 2000000) * qz 1000000 = Q2Qc (1 # 2))%Qc) by (apply Qc_is_canon; reflexivity).
  assert (HM : (0 < qz 1000000)%Qc) by reflexivity.
  transitivity (Z.of_nat n * 1000000)%Z; [|symmetry]; apply round_int; rewrite <- ?E.
  1,2: set (M := qz 1000000) in *; set (c := Q2Qc (1 # 2000000)) in *; set (h := Q2Qc (1 # 2)) in *; clearbody M c h; rewrite <- HC; qcnra.
  1,2: assert (Hh : (0 < Q2Qc (1 # 2))%Qc) by reflexivity; set (h := Q2Qc (1 # 2)) in *; set (u := (qn n * qz 1000000)%Qc) in *; clearbody h u; qclra.
Qed.
Lemma single_cell e x order : sorts order -> good e -> forall k, S k < length e ->
  exists f, binned_statistic [e] [[x]] None order SCount [0%Qc] = Some f /\
    f [k] = Some (if count1 e x =? S k then 1 else 0)%Qc.
Proof.
  intros HO HG k Hk. pose proof HG as [HS HL]. unfold binned_statistic. apply fine_good in HG. cbn [forallb]. rewrite HG.
  cbn [length Nat.eqb andb negb map forallb]. eexists. split; [reflexivity|]. cbv beta.
  rewrite unsort_eq by reflexivity. unfold flat_stat, flatcount. cbn [combine map fst snd].
  rewrite flat_ravel by discriminate. change (argsort [S (length e)]) with [0]. cbn [map nth counts combine fst snd ravel npsort fold_right insert_key prod_n].
  rewrite !Nat.mul_1_r, !Nat.add_0_r. cbn [filter]. rewrite Nat.eqb_sym. destruct (count1 e x =? S k); reflexivity.
Qed.
Theorem right_edge_ok e z order : sorts order -> strictly_increasing e -> 2 <= length e -> nth_error e (length e - 1) = Some z ->
  exists f, binned_statistic [e] [[z]] None order SCount [0%Qc] = Some f /\ f [length e - 2] = Some 1%Qc.
Proof.
  intros HO HS HL HZ. destruct (single_cell e z order HO (conj HS HL) (length e - 2) ltac:(lia)) as [f [E1 E2]].
  exists f. split; [exact E1|]. rewrite E2. rewrite (proj2 (Nat.eqb_eq _ _)); [reflexivity|].
  apply (count1_iff e z HS HL HZ); [exists z; tauto|lia|].
  destruct (nth_error e (length e - 2)) as [a|] eqn:Ea; [|apply nth_error_None in Ea; lia].
  exists a, z. replace (S (length e - 2)) with (length e - 1) by lia. split; [exact Ea|]. split; [exact HZ|]. split; [|right; split; [reflexivity|lia]].
  apply (increasing_le e (length e - 2) (length e - 1)); [exact HS|lia|exact Ea|exact HZ].
Qed.
Theorem near_edge_moved n x order : sorts order -> 2 <= n ->
  (qn n - Q2Qc (1 # 2000000) < x)%Qc -> (x < qn n)%Qc ->
  in_axis (map qn (seq 0 (S n))) (n - 1) x /\
  exists f, binned_statistic [map qn (seq 0 (S n))] [[x]] None order SCount [0%Qc] = Some f /\
    f [n - 1] = Some 0%Qc /\ f [n - 2] = Some 1%Qc.
Proof.
  intros HO Hn H1 H2. fold (grid n). assert (HE : on_edge (grid n) x = true).
  { apply grid_on_edge; [lia|exact H1|]. assert (0 < Q2Qc (1 # 2000000))%Qc by reflexivity. set (c := Q2Qc (1 # 2000000)) in *; clearbody c. qclra. }
  assert (Ha : (qn (n - 1) <= x)%Qc).
  { pose proof (qn_S_1 (n - 1)) as E. replace (S (n - 1)) with n in E by lia. assert (Q2Qc (1 # 2000000) < 1)%Qc by reflexivity. set (c := Q2Qc (1 # 2000000)) in *; clearbody c. qclra. }
  assert (Ec : count1 (grid n) x = n - 1).
  { unfold count1. rewrite HE. pose proof (digit_le (grid n) x) as D. rewrite grid_len in D.
    apply (digit_iff (grid n) x (n - 1) _ (grid_increasing n) (grid_nth n (n - 1) ltac:(lia))) in Ha.
    assert (~ n < digitize Qc_leb (grid n) x). { intros N. apply (digit_iff (grid n) x n _ (grid_increasing n) (grid_nth n n ltac:(lia))) in N. qclra. }
    lia. }
  split.
  - exists (qn (n - 1)), (qn n). split; [apply grid_nth; lia|]. split; [replace (S (n - 1)) with n by lia; apply grid_nth; lia|]. split; [exact Ha|left; exact H2].
  - assert (HG : good (grid n)) by (split; [apply grid_increasing|rewrite grid_len; lia]).
    destruct (single_cell (grid n) x order HO HG (n - 1) ltac:(rewrite grid_len; lia)) as [f [E1 E2]].
    destruct (single_cell (grid n) x order HO HG (n - 2) ltac:(rewrite grid_len; lia)) as [f' [E1' E2']].
    rewrite E1 in E1'. injection E1' as <-. exists f. split; [exact E1|]. rewrite E2, E2', Ec.
    rewrite (proj2 (Nat.eqb_neq _ _)), (proj2 (Nat.eqb_eq _ _)) by lia. split; reflexivity.
Qed.
Theorem beyond_edge_counted n x order : sorts order -> 1 <= n ->
  (qn n < x)%Qc -> (x < qn n + Q2Qc (1 # 2000000))%Qc ->
  exists f, binned_statistic [map qn (seq 0 (S n))] [[x]] None order SCount [0%Qc] = Some f /\ f [n - 1] = Some 1%Qc.
Proof.
  intros HO Hn H1 H2. fold (grid n). assert (HE : on_edge (grid n) x = true).
  { apply grid_on_edge; [lia| |exact H2]. assert (0 < Q2Qc (1 # 2000000))%Qc by reflexivity. set (c := Q2Qc (1 # 2000000)) in *; clearbody c. qclra. }
  assert (HG : good (grid n)) by (split; [apply grid_increasing|rewrite grid_len; lia]).
  destruct (single_cell (grid n) x order HO HG (n - 1) ltac:(rewrite grid_len; lia)) as [f [E1 E2]].
  exists f. split; [exact E1|]. rewrite E2, (proj2 (Nat.eqb_eq _ _)); [reflexivity|].
  unfold count1. rewrite HE. pose proof (digit_le (grid n) x) as D. rewrite grid_len in D.
  assert (n < digitize Qc_leb (grid n) x) by (apply (digit_iff (grid n) x n _ (grid_increasing n) (grid_nth n n ltac:(lia))); qclra).
  lia.
Qed.

(** ** binmap *)
Lemma count1_number e x : good e -> clear_of_edge e x -> bin_number e x (count1 e x).
Proof.
  intros HG HC. destruct (good_last e HG) as [z HZ]. pose proof HG as [HS HL].
  pose proof (on_edge_clear e z HS HL HZ x HC) as HE.
  destruct (nth_error e 0) as [a|] eqn:Ea; [|apply nth_error_None in Ea; lia].
  destruct (Qclt_le_dec x a) as [H|H].
  - left. split; [|eauto]. unfold count1. assert (E : digitize Qc_leb e x = 0); [|rewrite E; reflexivity].
    destruct (digitize Qc_leb e x) eqn:E; [reflexivity|exfalso].
    assert (a <= x)%Qc by (apply (digit_iff e x 0 a HS Ea); lia). qclra.
  - destruct (Qclt_le_dec z x) as [G|G].
    + right. right. split; [|eauto]. unfold count1. destruct (on_edge e x) eqn:EE.
      * assert (x = z) by tauto. subst. exfalso. qclra.
      * pose proof (digit_le e x). assert (length e - 1 < digitize Qc_leb e x) by (apply (digit_iff e x _ z HS HZ); qclra). lia.
    + right. left. assert (H0 : 0 < digitize Qc_leb e x) by (apply (digit_iff e x 0 a HS Ea); exact H).
      assert (Hb : S (count1 e x - 1) < length e /\ count1 e x <> 0).
      { unfold count1. pose proof (digit_le e x). destruct (on_edge e x) eqn:EE.
        - assert (x = z) by tauto. assert (length e - 1 < digitize Qc_leb e x) by (apply (digit_iff e x _ z HS HZ); qclra). lia.
        - assert (~ length e - 1 < digitize Qc_leb e x); [|lia]. intros N. apply (digit_iff e x _ z HS HZ) in N.
          assert (H2 : x = z) by (apply Qcle_antisym; assumption). apply HE in H2. congruence. }
      exists (count1 e x - 1). split; [lia|]. apply (count1_iff e z HS HL HZ x _ HC); [lia|lia].
Qed.
Lemma counts_numbers edges pt : Forall good edges -> Forall2 clear_of_edge edges pt -> bin_numbers edges pt (counts edges pt true).
Proof.
  intros HG HC. revert HG. induction HC as [|e x es xs Hx HC IH]; intros HG; [constructor|]. inversion HG; subst.
  change (counts (e :: es) (x :: xs) true) with (count1 e x :: counts es xs true). constructor; [apply count1_number; assumption|auto].
Qed.
Lemma argsort_equal m D : argsort (repeat m D) = seq 0 D.
Proof.
  unfold argsort. rewrite repeat_length.
  assert (G : forall l, (forall i, In i l -> i < D) -> fold_right (insert_key (fun i => nth i (repeat m D) 0)) [] l = l); [|apply G; intros i Hi; apply in_seq in Hi; lia].
  assert (K : forall i, i < D -> nth i (repeat m D) 0 = m).
  { clear. induction D; intros [|i] H; cbn; try lia. apply IHD. lia. }
  induction l as [|i l IH]; intros H; [reflexivity|]. cbn [fold_right]. rewrite IH by (intros j Hj; apply H; right; exact Hj).
  destruct l as [|j l]; [reflexivity|]. cbn [insert_key]. rewrite (K i), (K j) by (apply H; cbn; auto). rewrite Nat.leb_refl. reflexivity.
Qed.
Lemma prod_repeat m n : prod_n (repeat m n) = m ^ n.
Proof. induction n; cbn; [reflexivity|]. unfold prod_n in IHn. rewrite IHn. reflexivity. Qed.
Lemma ravel_snoc m l x : ravel (repeat m (S (length l))) (l ++ [x]) = ravel (repeat m (length l)) l * m + x.
Proof.
  induction l as [|a l IH]; [cbn; lia|]. change ((a :: l) ++ [x]) with (a :: (l ++ [x])).
  change (repeat m (S (length (a :: l)))) with (m :: repeat m (S (length l))).
  change (repeat m (length (a :: l))) with (m :: repeat m (length l)). cbn [ravel]. rewrite IH, !prod_repeat. cbn [Nat.pow]. lia.
Qed.
Lemma ravel_div m D c t : length c = D -> Forall (fun x => x < m) c -> t <= D ->
  ravel (repeat m D) c / m ^ t = ravel (repeat m (D - t)) (firstn (D - t) c).
Proof.
  intros HL HF. induction t as [|t IH]; intros Ht.
  - cbn [Nat.pow]. rewrite Nat.div_1_r, Nat.sub_0_r, <- HL, firstn_all. reflexivity.
  - assert (Hm : m <> 0). { intros ->. destruct c as [|x c]; [cbn in HL; lia|]. inversion HF; lia. }
    cbn [Nat.pow]. rewrite Nat.mul_comm, <- Nat.div_div by (try exact Hm; apply Nat.pow_nonzero; exact Hm).
    rewrite IH by lia. destruct (nth_error c (D - S t)) as [x|] eqn:Ex; [|apply nth_error_None in Ex; lia].
    assert (E : firstn (D - t) c = firstn (D - S t) c ++ [x]).
    { replace (D - t) with (S (D - S t)) by lia. clear -Ex. revert c Ex. induction (D - S t) as [|k IHk]; intros [|y c] Ex; cbn in *; try discriminate.
      - congruence. - f_equal. rewrite <- IHk by exact Ex. reflexivity. }
    assert (EL : length (firstn (D - S t) c) = D - S t) by (rewrite firstn_length; lia).
    rewrite E. replace (repeat m (D - t)) with (repeat m (S (length (firstn (D - S t) c)))) by (f_equal; lia).
    rewrite ravel_snoc, EL. rewrite Nat.div_add_l by exact Hm. rewrite Nat.div_small, Nat.add_0_r; [reflexivity|].
    rewrite Forall_forall in HF. apply HF. eapply nth_error_In. exact Ex.
Qed.
Lemma nth_repeat_lt m D i : i < D -> nth i (repeat m D) 0 = m.
Proof. revert i. induction D; intros [|i] H; cbn; try lia. apply IHD. lia. Qed.
Lemma binmap_equal m D c : length c = D -> Forall (fun x => x < m) c -> D <> 0 ->
  binmap1 (repeat m D) (argsort (repeat m D)) (flat_xy (repeat m D) c (argsort (repeat m D))) = c.
Proof.
  intros HL HF HD. rewrite argsort_equal. rewrite flat_ravel by (destruct D; [contradiction|discriminate]).
  assert (E1 : map (fun a => nth a (repeat m D) 0) (seq 0 D) = repeat m D).
  { pose proof (map_nth_seq (repeat m D)) as H. rewrite repeat_length in H. exact H. }
  assert (E2 : map (fun a => nth a c 0) (seq 0 D) = c) by (rewrite <- HL; apply map_nth_seq).
  rewrite E1, E2. set (xy := ravel _ _). unfold binmap1. rewrite repeat_length.
  match goal with |- snd (fold_left ?f _ _) = _ => set (F := f) end.
  assert (G : forall t, t <= D -> fold_left F (seq 0 t) (1, []) = (m ^ t, skipn (D - t) c)).
  { induction t as [|t IH]; intros Ht.
    - cbn [seq fold_left Nat.pow]. rewrite Nat.sub_0_r, <- HL, skipn_all. reflexivity.
    - rewrite seq_S, fold_left_app, IH by lia. cbn [fold_left Nat.add]. unfold F.
      rewrite seq_nth by lia. rewrite nth_repeat_lt by lia.
      assert (Hm : m <> 0). { intros ->. destruct c as [|x c]; [cbn in HL; lia|]. inversion HF; lia. }
      f_equal; [cbn; lia|].
      destruct (nth_error c (D - S t)) as [x|] eqn:Ex; [|apply nth_error_None in Ex; lia].
      assert (Es : skipn (D - S t) c = x :: skipn (D - t) c).
      { replace (D - t) with (S (D - S t)) by lia. clear -Ex. revert c Ex. induction (D - S t) as [|k IHk]; intros [|y c] Ex; cbn in *; try discriminate.
        - congruence. - apply IHk. exact Ex. }
      rewrite Es. f_equal. unfold xy. rewrite (ravel_div m D c t HL HF) by lia.
      assert (Hx : x < m) by (rewrite Forall_forall in HF; apply HF; eapply nth_error_In; exact Ex).
      assert (E : firstn (D - t) c = firstn (D - S t) c ++ [x]).
      { replace (D - t) with (S (D - S t)) by lia. clear -Ex. revert c Ex. induction (D - S t) as [|k IHk]; intros [|y c] Ex; cbn in *; try discriminate.
        - congruence. - f_equal. rewrite <- IHk by exact Ex. reflexivity. }
      assert (EL : length (firstn (D - S t) c) = D - S t) by (rewrite firstn_length; lia).
      rewrite E. replace (repeat m (D - t)) with (repeat m (S (length (firstn (D - S t) c)))) by (f_equal; lia).
      rewrite ravel_snoc, EL. destruct (Nat.ltb_spec t (D - 1)) as [H|H].
      + rewrite seq_nth by lia. rewrite nth_repeat_lt by lia.
        rewrite Nat.add_comm, Nat.mod_add by exact Hm. apply Nat.mod_small. exact Hx.
      + replace (D - S t) with 0 by lia. cbn. lia. }
  rewrite G by lia. cbn [snd]. rewrite Nat.sub_diag. reflexivity.
Qed.
Theorem binmap_ok edges points mask m : edges <> [] -> Forall strictly_increasing edges -> 2 <= m ->
  Forall (fun e => length e = m) edges ->
  (forall k, mask = Some k -> length k = length points) -> Forall (Forall2 clear_of_edge edges) points ->
  length (binmap edges points mask) = length points /\
  forall p pt, nth_error points p = Some pt -> exists ns, nth_error (binmap edges points mask) p = Some ns /\
    ((forall k, mask = Some k -> nth_error k p = Some true) -> bin_numbers edges pt ns) /\
    (forall k, mask = Some k -> nth_error k p = Some false -> ns = repeat 0 (length edges)).
Proof.
  intros Hne HS Hm HL HM HC. unfold binmap.
  set (keep := match mask with Some k => k | None => map (fun _ => true) points end).
  assert (HLk : length keep = length points) by (unfold keep; destruct mask; [apply HM; reflexivity|apply map_length]).
  split; [rewrite map_length, combine_length; lia|].
  assert (HG : Forall good edges).
  { rewrite Forall_forall in *. intros e He. split; [apply HS; exact He|rewrite (HL e He); exact Hm]. }
  intros p pt Ep. assert (Hp : p < length points) by (apply nth_error_Some; congruence).
  destruct (nth_error keep p) as [kp|] eqn:Ek; [|apply nth_error_None in Ek; lia].
  assert (Hpt : Forall2 clear_of_edge edges pt) by (rewrite Forall_forall in HC; apply HC; eapply nth_error_In; exact Ep).
  assert (HLp : length pt = length edges) by (symmetry; eapply Forall2_len; exact Hpt).
  exists (counts edges pt kp). split; [|split].
  - apply map_combine_nth; [symmetry; exact HLk|]. exists pt, kp. split; [exact Ep|]. split; [exact Ek|]. cbn [fst snd].
    assert (En : map (fun e => S (length e)) edges = repeat (S m) (length edges)).
    { clear -HL. induction HL as [|e es H _ IH]; [reflexivity|]. cbn. rewrite H, IH. reflexivity. }
    rewrite En. apply binmap_equal; [apply counts_len; exact HLp| |destruct edges; [contradiction|discriminate]].
    pose proof (counts_bound edges pt kp HLp) as HB. rewrite En in HB. clear -HB. revert HB.
    generalize (counts edges pt kp), (length edges). intros l n. revert n. induction l as [|x l IH]; intros [|n] H; inversion H; subst; constructor; eauto.
  - intros Hk. assert (kp = true). { unfold keep in Ek. destruct mask as [k|]; [specialize (Hk k eq_refl); congruence|]. rewrite nth_error_map, Ep in Ek. cbn in Ek. congruence. }
    subst. apply counts_numbers; assumption.
  - intros k Em Hk. unfold keep in Ek. rewrite Em in Ek. assert (kp = false) by congruence. subst kp.
    clear -HG HLp. revert pt HLp. induction HG as [|e es He HG IH]; intros [|x xs] H; cbn in H; try discriminate; [reflexivity|].
    change (counts (e :: es) (x :: xs) false) with (count1 e (masked_value e) :: counts es xs false).
    destruct (good_last e He) as [z Hz]. rewrite (IH xs) by lia. cbn [length repeat]. f_equal.
    destruct He as [G1 G2]. eapply masked_outlier; eassumption.
Qed.
Theorem binmap_differing_refuted : exists edges pt ns, Forall strictly_increasing edges /\ Forall (fun e => 2 <= length e) edges /\
  Forall2 clear_of_edge edges pt /\ binmap edges [pt] None = [ns] /\ ~ bin_numbers edges pt ns.
Proof.
  exists [map qn [0; 1; 2]; map qn [0; 1; 2; 3; 4]], [Q2Qc (1 # 2); Q2Qc (7 # 2)], [1; 2].
  split; [repeat constructor; apply increasing_iff; reflexivity|]. split; [repeat constructor|]. split.
  { constructor; [|constructor; [|constructor]].
    - exists (qn 2). split; [reflexivity|]. right. exists 0, (qn 0), (qn 1). split; [reflexivity|]. split; [reflexivity|]. left. discriminate.
    - exists (qn 4). split; [reflexivity|]. right. exists 0, (qn 0), (qn 1). split; [reflexivity|]. split; [reflexivity|]. left. discriminate. }
  split; [vm_compute; reflexivity|]. intros H. inversion H as [|? ? ? ? ? ? _ H' ]; subst. inversion H' as [|? ? ? ? ? ? B _]; subst.
  destruct B as [[B _]|[[k [B C]]|[B _]]]; try discriminate. injection B as <-. destruct C as [a [b [E1 [E2 [_ C]]]]].
  cbn in E1, E2. apply some_inj in E1, E2. subst. destruct C as [C|[C _]]; discriminate.
Qed.
Theorem bad_edges_raise edges points mask order st values e : In e edges -> (~ strictly_increasing e \/ length e < 2) ->
  binned_statistic edges points mask order st values = None.
Proof.
  intros He HB. unfold binned_statistic. assert (E : forallb edges_fine edges = false).
  { apply not_true_iff_false. intros H. rewrite forallb_forall in H. specialize (H e He). apply fine_good in H. destruct H as [H1 H2].
    destruct HB; [contradiction|lia]. }
  rewrite E. reflexivity.
Qed.
