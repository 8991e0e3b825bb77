From Verif Require Import Common QcArith Sums Scatter Utils_Model Hist_Spec Hist_Proofs Grid_Model Grid_Spec.
From Coq Require Import Permutation.

Lemma nth_error_ext {A} (l l' : list A) : (forall n, nth_error l n = nth_error l' n) -> l = l'.
Proof.
  revert l'. induction l as [|a l IH]; intros [|b l'] H; [reflexivity|discriminate (H 0)|discriminate (H 0)|].
  pose proof (H 0) as H0. cbn in H0. injection H0 as ->. f_equal. apply IH. intros n. apply (H (S n)).
Qed.

Definition g3 (a : gaxis) : nat * Qc * Qc := (g_n a, g_start a, g_stop a).
Definition good_gaxis (a : gaxis) : Prop := g_n a <> 0 /\ (g_start a < g_stop a)%Qc.

Lemma axis_cell_iff a x k : good_gaxis a ->
  (axis_cell a x = Some k <-> in_bin (g_n a) (g_start a) (g_stop a) k x).
Proof.
  intros [Hn Hlt]. unfold axis_cell, in_bin.
  set (lo := g_start a) in *. set (hi := g_stop a) in *. set (n := g_n a) in *.
  pose proof (bin_iff n lo hi x k Hn Hlt) as HB. cbv zeta in HB.
  assert (Hlen : (0 < hi - lo)%Qc) by qclra.
  destruct (Qc_eqb_spec (hi - lo)%Qc 0%Qc) as [E0|E0]; [exfalso; qclra|].
  assert (Hnp : (0 < qn n)%Qc) by (apply qn_pos; exact Hn).
  set (w := ((hi - lo) / qn n)%Qc) in *.
  assert (Hw : (0 < w)%Qc) by (apply Qc_div_pos; [qclra|exact Hnp]).
  assert (Ewn : (w * qn n = hi - lo)%Qc) by (unfold w; field; apply qn_neq0; exact Hn).
  assert (Epos : ((x - lo) / (hi - lo) * qn n = (x - lo) / w)%Qc).
  { unfold w. field. split; [apply qn_neq0; exact Hn|exact E0]. }
  assert (T1 : (0 <= (x - lo) / (hi - lo))%Qc <-> (lo <= x)%Qc).
  { rewrite Qc_le_div by exact Hlen. split; intros H; qclra. }
  assert (T2 : ((x - lo) / (hi - lo) < 1)%Qc <-> (x < hi)%Qc).
  { rewrite Qc_div_lt by exact Hlen. split; intros H; qclra. }
  destruct (Qc_leb_spec 0%Qc ((x - lo) / (hi - lo))%Qc) as [H1|H1]; cbn [andb].
  - apply T1 in H1. destruct (Qc_ltb_spec ((x - lo) / (hi - lo))%Qc 1%Qc) as [H2|H2]; cbn [andb].
    + apply T2 in H2. rewrite Epos.
      assert (Hq : (0 <= (x - lo) / w)%Qc) by (apply Qc_div_nonneg; [qclra|exact Hw]).
      destruct (nat_floor _ Hq) as [m [M1 M2]]. rewrite (qtrunc_nat _ m M1 M2).
      assert (Hmn : m < n).
      { apply qn_lt_inv. eapply Qcle_lt_trans; [exact M1|]. apply Qc_div_lt; [exact Hw|]. qclra. }
      split.
      * intros E. injection E as <-. split; [exact Hmn|]. apply HB. auto.
      * intros [Hk Hb]. apply HB in Hb. f_equal.
        assert (A1 : (qn m < qn (S k))%Qc) by (eapply Qcle_lt_trans; [exact M1|apply Hb]).
        assert (A2 : (qn k < qn (S m))%Qc) by (eapply Qcle_lt_trans; [apply Hb|exact M2]).
        apply qn_lt_inv in A1. apply qn_lt_inv in A2. lia.
    + split; [discriminate|]. intros [Hk [_ Hb]]. exfalso. apply H2, T2.
      assert (Hle : (qn (S k) <= qn n)%Qc) by (apply qn_le; lia).
      eapply Qclt_le_trans; [exact Hb|]. qcnra.
  - split; [discriminate|]. intros [Hk [Hb _]]. exfalso. apply H1, T1.
    pose proof (qn_nonneg k). eapply Qcle_trans; [|exact Hb]. qcnra.
Qed.

Section Grid.
Variables ax ay az : gaxis.
Hypotheses (Gx : good_gaxis ax) (Gy : good_gaxis ay) (Gz : good_gaxis az).
Notation m := (gsize ax ay az).
Definition pos3 (i j k : nat) : nat := i * (g_n ay * g_n az) + j * g_n az + k.

Lemma pos3_bound i j k : i < g_n ax -> j < g_n ay -> k < g_n az -> pos3 i j k < m.
Proof.
  unfold pos3, gsize. intros. rewrite <- Nat.mul_assoc. set (q := g_n az) in *.
  assert (j * q + k < g_n ay * q) by nia. set (r := g_n ay * q) in *. nia.
Qed.
Lemma pos3_inj i j k i' j' k' : i < g_n ax -> j < g_n ay -> k < g_n az ->
  i' < g_n ax -> j' < g_n ay -> k' < g_n az -> pos3 i j k = pos3 i' j' k' -> i = i' /\ j = j' /\ k = k'.
Proof.
  unfold pos3. intros A B C A' B' C' E. set (q := g_n az) in *. set (r := g_n ay) in *.
  assert (j * q + k < r * q) by nia. assert (j' * q + k' < r * q) by nia.
  assert (i = i') by nia. subst i'. assert (j = j') by nia. subst j'. lia.
Qed.
Lemma cell_iff x y z v c : cell ax ay az (x, y, z, v) = Some c <->
  exists i j k, in_grid_cell (g3 ax) (g3 ay) (g3 az) i j k (x, y, z) /\ c = pos3 i j k.
Proof.
  unfold cell, in_grid_cell. split.
  - intros H. destruct (axis_cell ax x) as [i|] eqn:E1; [|discriminate].
    destruct (axis_cell ay y) as [j|] eqn:E2; [|discriminate].
    destruct (axis_cell az z) as [k|] eqn:E3; [|discriminate]. injection H as <-.
    apply axis_cell_iff in E1; [|exact Gx]. apply axis_cell_iff in E2; [|exact Gy]. apply axis_cell_iff in E3; [|exact Gz].
    exists i, j, k. split; [|reflexivity]. unfold g3. repeat (constructor; [assumption|]). constructor.
  - intros [i [j [k [H ->]]]]. inversion H as [|? ? ? ? ? ? ? ? H1 H']; subst.
    inversion H' as [|? ? ? ? ? ? ? ? H2 H'']; subst. inversion H'' as [|? ? ? ? ? ? ? ? H3 _]; subst.
    apply (axis_cell_iff ax x i Gx) in H1. apply (axis_cell_iff ay y j Gy) in H2. apply (axis_cell_iff az z k Gz) in H3.
    rewrite H1, H2, H3. reflexivity.
Qed.
Lemma in_grid_bound i j k p : in_grid_cell (g3 ax) (g3 ay) (g3 az) i j k p ->
  i < g_n ax /\ j < g_n ay /\ k < g_n az.
Proof.
  destruct p as [[x y] z]. unfold in_grid_cell, g3. intros H.
  inversion H as [|? ? ? ? ? ? ? ? H1 H']; subst.
  inversion H' as [|? ? ? ? ? ? ? ? H2 H'']; subst. inversion H'' as [|? ? ? ? ? ? ? ? H3 _]; subst.
  split; [apply H1|]. split; [apply H2|apply H3].
Qed.
Lemma cell_bound p c : cell ax ay az p = Some c -> c < m.
Proof.
  destruct p as [[[x y] z] v]. intros H. apply cell_iff in H. destruct H as [i [j [k [H ->]]]].
  apply in_grid_bound in H. apply pos3_bound; tauto.
Qed.
Lemma cell_at i j k p v : i < g_n ax -> j < g_n ay -> k < g_n az ->
  (cell ax ay az (p, v) = Some (pos3 i j k) <-> in_grid_cell (g3 ax) (g3 ay) (g3 az) i j k p).
Proof.
  intros Hi Hj Hk. destruct p as [[x y] z]. rewrite cell_iff. split.
  - intros [i' [j' [k' [H E]]]]. pose proof (in_grid_bound _ _ _ _ H) as [B1 [B2 B3]].
    apply pos3_inj in E; try assumption. destruct E as [-> [-> ->]]. exact H.
  - intros H. exists i, j, k. auto.
Qed.

(** Intensities sent to flat cell c. *)
Definition vals (c : nat) (pts : list gpoint) : list Qc :=
  flat_map (fun p => match snd p, cell ax ay az p with
                     | Some v, Some c' => if c' =? c then [v] else [] | _, _ => [] end) pts.
Lemma vals_app c a b : vals c (a ++ b) = vals c a ++ vals c b.
Proof. apply flat_map_app. Qed.
Lemma vals_perm c a b : Permutation a b -> Permutation (vals c a) (vals c b).
Proof.
  intros H. unfold vals. induction H as [|x a b _ IH|x y a|a b d _ IH1 _ IH2]; cbn.
  - constructor.
  - apply Permutation_app_head. exact IH.
  - rewrite !app_assoc. apply Permutation_app_tail, Permutation_app_comm.
  - eapply perm_trans; eauto.
Qed.
Lemma vals_collects i j k pts : i < g_n ax -> j < g_n ay -> k < g_n az ->
  collects (in_grid_cell (g3 ax) (g3 ay) (g3 az) i j k) pts (vals (pos3 i j k) pts).
Proof.
  intros Hi Hj Hk. induction pts as [|[p v] pts IH]; [constructor|]. cbn [vals flat_map snd].
  fold (vals (pos3 i j k) pts). destruct v as [v|]; [|cbn; apply col_nan; exact IH].
  destruct (cell ax ay az (p, Some v)) as [c|] eqn:E.
  - destruct (Nat.eqb_spec c (pos3 i j k)) as [->|Hne]; cbn [app].
    + apply col_in; [|exact IH]. apply (cell_at i j k p (Some v)); assumption.
    + apply col_out; [|exact IH]. intros H. apply (cell_at i j k p (Some v)) in H; try assumption. congruence.
  - cbn. apply col_out; [|exact IH]. intros H. apply (cell_at i j k p (Some v)) in H; try assumption. congruence.
Qed.
Lemma collects_unique P pts vs ws : collects P pts vs -> collects P pts ws -> vs = ws.
Proof.
  intros H. revert ws. induction H; intros ws H'; inversion H'; subst; auto; try contradiction; try (f_equal; auto).
Qed.

Definition sumsq (l : list Qc) : Qc := qsum (map (fun v => (v * v)%Qc) l).
Definition wf (s : acc) := length (a_d s) = m /\ length (a_d2 s) = m /\ length (a_n s) = m.
Definition holds (s s0 : acc) (f : nat -> list Qc) : Prop := wf s /\ forall c,
  nth c (a_d s) 0%Qc = (nth c (a_d s0) 0 + qsum (f c))%Qc /\
  nth c (a_d2 s) 0%Qc = (nth c (a_d2 s0) 0 + sumsq (f c))%Qc /\
  nth c (a_n s) 0%Qc = (nth c (a_n s0) 0 + qn (length (f c)))%Qc.

Lemma deposit_all_ok pts : forall s, wf s -> exists s', deposit_all ax ay az pts s = Some s' /\
  holds s' s (fun c => vals c pts).
Proof.
  induction pts as [|p pts IH]; intros s Hs.
  - exists s. split; [reflexivity|]. split; [exact Hs|]. intros c. unfold vals, sumsq; cbn [flat_map map qsum length concat]. change (qn 0) with 0%Qc.
    repeat split; ring.
  - unfold deposit_all in *. cbn [foldM].
    assert (H1 : exists s1, deposit ax ay az s p = Some s1 /\ holds s1 s (fun c => vals c [p])).
    { unfold deposit, vals. destruct p as [q [v|]]; cbn [snd flat_map app].
      2:{ exists s. split; [reflexivity|]. split; [exact Hs|]. intros c. unfold vals, sumsq; cbn [flat_map map qsum length concat]. change (qn 0) with 0%Qc. repeat split; ring. }
      destruct (cell ax ay az (q, Some v)) as [c0|] eqn:E.
      2:{ exists s. split; [reflexivity|]. split; [exact Hs|]. intros c. unfold sumsq. cbn [flat_map map qsum length app]. change (qn 0) with 0%Qc. repeat split; try ring. }
      apply cell_bound in E. destruct Hs as [L1 [L2 L3]].
      destruct (add_at_ok (a_d s) c0 v) as [d [Ed [Ld Nd]]]; [lia|].
      destruct (add_at_ok (a_d2 s) c0 (v * v)%Qc) as [d2 [Ed2 [Ld2 Nd2]]]; [lia|].
      destruct (add_at_ok (a_n s) c0 1%Qc) as [n [En [Ln Nn]]]; [lia|].
      rewrite Ed, Ed2, En. cbn [bind]. eexists. split; [reflexivity|]. split.
      - repeat split; cbn; congruence.
      - intros c. cbn [a_d a_d2 a_n]. rewrite Nd, Nd2, Nn. rewrite app_nil_r.
        destruct (c0 =? c); unfold sumsq; cbn [qsum map length]; rewrite ?qn_S;
          change (qn 0) with 0%Qc; repeat split; ring. }
    destruct H1 as [s1 [E1 [W1 N1]]]. rewrite E1. cbn [bind].
    destruct (IH s1 W1) as [s2 [E2 [W2 N2]]]. exists s2. split; [exact E2|]. split; [exact W2|].
    intros c. destruct (N1 c) as [A1 [A2 A3]]. destruct (N2 c) as [B1 [B2 B3]].
    change (p :: pts) with ([p] ++ pts). rewrite vals_app.
    rewrite B1, B2, B3, A1, A2, A3. unfold sumsq. rewrite map_app, !qsum_app, app_length, qn_add.
    repeat split; ring.
Qed.

Lemma cleared_wf : wf (cleared m).
Proof. repeat split; apply repeat_length. Qed.
Lemma cleared_nth c : nth c (repeat 0%Qc m) 0%Qc = 0%Qc. Proof. apply nth_repeat. Qed.

Lemma zipadd_nth a : forall b, length a = length b ->
  length (zipadd a b) = length a /\ forall c, nth c (zipadd a b) 0%Qc = (nth c a 0 + nth c b 0)%Qc.
Proof.
  induction a as [|x a IH]; intros [|y b] L; cbn in L; try lia.
  - split; [reflexivity|]. intros [|c]; cbn; ring.
  - destruct (IH b ltac:(lia)) as [L' N]. cbn. split; [lia|]. intros [|c]; cbn; auto.
Qed.
Lemma acc_add_ok s t : wf s -> wf t -> wf (acc_add s t) /\ forall c,
  nth c (a_d (acc_add s t)) 0%Qc = (nth c (a_d s) 0 + nth c (a_d t) 0)%Qc /\
  nth c (a_d2 (acc_add s t)) 0%Qc = (nth c (a_d2 s) 0 + nth c (a_d2 t) 0)%Qc /\
  nth c (a_n (acc_add s t)) 0%Qc = (nth c (a_n s) 0 + nth c (a_n t) 0)%Qc.
Proof.
  intros [A1 [A2 A3]] [B1 [B2 B3]].
  destruct (zipadd_nth (a_d s) (a_d t)) as [L1 N1]; [congruence|].
  destruct (zipadd_nth (a_d2 s) (a_d2 t)) as [L2 N2]; [congruence|].
  destruct (zipadd_nth (a_n s) (a_n t)) as [L3 N3]; [congruence|].
  split; [repeat split; cbn; congruence|]. intros c. cbn. rewrite N1, N2, N3. auto.
Qed.

(** The work of all threads, each starting from its own array contents. *)
Definition isum (sel : acc -> list Qc) (c : nat) (work : list (acc * list gpoint)) : Qc :=
  qsum (map (fun w => nth c (sel (fst w)) 0%Qc) work).
Lemma threads_ok work : Forall (fun w => wf (fst w)) work ->
  exists l, run_threads ax ay az work = Some l /\ length l = length work /\ Forall wf l /\
  forall c, qsum (map (fun s => nth c (a_d s) 0%Qc) l) = (isum a_d c work + qsum (vals c (concat (map snd work))))%Qc /\
            qsum (map (fun s => nth c (a_d2 s) 0%Qc) l) = (isum a_d2 c work + sumsq (vals c (concat (map snd work))))%Qc /\
            qsum (map (fun s => nth c (a_n s) 0%Qc) l) = (isum a_n c work + qn (length (vals c (concat (map snd work)))))%Qc.
Proof.
  induction 1 as [|[s pts] work Hw HF IH]; cbn [run_threads].
  - exists []. split; [reflexivity|]. split; [reflexivity|]. split; [constructor|]. intros c. unfold vals, isum, sumsq; cbn [flat_map map qsum length concat]. change (qn 0) with 0%Qc. repeat split; ring.
  - destruct (deposit_all_ok pts s Hw) as [s' [E [W N]]]. rewrite E. cbn [bind].
    destruct IH as [l [E' [L' [W' N']]]]. rewrite E'. cbn [bind]. exists (s' :: l).
    split; [reflexivity|]. split; [cbn; lia|]. split; [constructor; assumption|]. intros c.
    destruct (N c) as [A1 [A2 A3]]. destruct (N' c) as [B1 [B2 B3]].
    unfold isum in *. cbn [map qsum fst snd concat]. rewrite B1, B2, B3, A1, A2, A3, vals_app.
    unfold sumsq. rewrite map_app, !qsum_app, app_length, qn_add. repeat split; ring.
Qed.
Lemma gather_ok l : l <> [] -> Forall wf l -> exists a, gather l = Some a /\ wf a /\ forall c,
  nth c (a_d a) 0%Qc = qsum (map (fun s => nth c (a_d s) 0%Qc) l) /\
  nth c (a_d2 a) 0%Qc = qsum (map (fun s => nth c (a_d2 s) 0%Qc) l) /\
  nth c (a_n a) 0%Qc = qsum (map (fun s => nth c (a_n s) 0%Qc) l).
Proof.
  intros Hne HF. destruct l as [|a l]; [congruence|]. inversion HF as [|? ? Ha Hl]; subst. cbn [gather].
  clear Hne HF. eexists. split; [reflexivity|]. revert a Ha. induction Hl as [|b l Hb Hl IH]; intros a Ha.
  - cbn. split; [exact Ha|]. intros c. repeat split; ring.
  - cbn [fold_left]. destruct (acc_add_ok a b Ha Hb) as [W N]. destruct (IH _ W) as [W' N']. split; [exact W'|].
    intros c. destruct (N c) as [A1 [A2 A3]]. destruct (N' c) as [B1 [B2 B3]].
    cbn [map qsum] in *. rewrite B1, B2, B3, A1, A2, A3. repeat split; ring.
Qed.
Lemma finish_all_nth d : forall d2 n c, length d2 = length d -> length n = length d -> c < length d ->
  nth_error (finish_all d d2 n) c = Some (finish (nth c d 0%Qc) (nth c d2 0%Qc) (nth c n 0%Qc)).
Proof.
  induction d as [|x d IH]; intros [|y d2] [|z n] [|c] L1 L2 Hc; cbn in *; try lia; [reflexivity|].
  apply IH; lia.
Qed.
Lemma finish_all_len d : forall d2 n, length d2 = length d -> length n = length d ->
  length (finish_all d d2 n) = length d.
Proof. induction d as [|x d IH]; intros [|y d2] [|z n] L1 L2; cbn in *; try lia. rewrite IH; lia. Qed.

Lemma variance vs : vs <> [] ->
  ((sumsq vs - qsum vs * qsum vs / qn (length vs)) / qn (length vs) / qn (length vs) = sem2_of vs)%Qc.
Proof.
  intros Hne. unfold sem2_of, mean_of. set (n := qn (length vs)).
  assert (Hn : n <> 0%Qc) by (apply qn_neq0; destruct vs; [congruence|discriminate]).
  assert (E : forall mu, qsum (map (fun v => (v - mu) * (v - mu)) vs)%Qc
    = (sumsq vs - mu * qsum vs - mu * qsum vs + qn (length vs) * (mu * mu))%Qc).
  { intros mu. clear. unfold sumsq. induction vs as [|v vs IH]; cbn [map qsum length].
    - change (qn 0) with 0%Qc. ring.
    - rewrite IH, qn_S. ring. }
  rewrite E. fold n. field. exact Hn.
Qed.

Definition expected (vs : list Qc) : cellout :=
  mkOut (qsum vs) (qn (length vs)) (match vs with [] => None | _ => Some (mean_of vs) end)
        (match vs with [] => 0%Qc | _ => sem2_of vs end).
Lemma finish_expected vs : finish (qsum vs) (sumsq vs) (qn (length vs)) = expected vs.
Proof.
  unfold finish, expected. destruct (Qc_eqb_spec (qn (length vs)) 0%Qc) as [E|E].
  - destruct vs as [|v vs]; [reflexivity|]. exfalso. revert E. apply qn_neq0. discriminate.
  - destruct vs as [|v vs]; [exfalso; apply E; reflexivity|].
    f_equal. apply variance. discriminate.
Qed.
Lemma expected_perm vs ws : Permutation vs ws -> expected vs = expected ws.
Proof.
  intros H. rewrite <- !finish_expected. rewrite (Permutation_length H), (qsum_perm _ _ H).
  f_equal. unfold sumsq. apply qsum_perm, Permutation_map. exact H.
Qed.

Theorem grid_ok chunks pts : chunks <> [] -> Permutation (concat chunks) pts ->
  exists out, grid ax ay az chunks = Some out /\ length out = m /\
    forall i j k, i < g_n ax -> j < g_n ay -> k < g_n az ->
      exists vs, collects (in_grid_cell (g3 ax) (g3 ay) (g3 az) i j k) pts vs /\
        nth_error out (pos3 i j k) = Some (expected vs).
Proof.
  intros Hne HP. unfold grid, c_grid3d. set (work := map (fun c => (cleared m, c)) chunks).
  assert (HW : Forall (fun w => wf (fst w)) work).
  { apply Forall_forall. intros w Hw. apply in_map_iff in Hw. destruct Hw as [c [<- _]]. apply cleared_wf. }
  destruct (threads_ok work HW) as [l [E [L [W N]]]]. rewrite E. cbn [bind].
  destruct (gather_ok l) as [a [Ea [Wa Na]]]; [|exact W|].
  { intros ->. cbn in L. unfold work in L. rewrite map_length in L. destruct chunks; [congruence|discriminate]. }
  rewrite Ea. cbn [bind]. eexists. split; [reflexivity|]. destruct Wa as [L1 [L2 L3]].
  split; [rewrite finish_all_len; congruence|]. intros i j k Hi Hj Hk.
  exists (vals (pos3 i j k) pts). split; [apply vals_collects; assumption|].
  rewrite finish_all_nth by (rewrite ?L1, ?L2, ?L3; auto; apply pos3_bound; assumption).
  destruct (Na (pos3 i j k)) as [A1 [A2 A3]]. destruct (N (pos3 i j k)) as [B1 [B2 B3]].
  assert (Z : forall sel, (sel = a_d \/ sel = a_d2 \/ sel = a_n) -> isum sel (pos3 i j k) work = 0%Qc).
  { intros sel Hsel. unfold isum, work. rewrite map_map. cbn [fst].
    assert (Hs : sel (cleared m) = repeat 0%Qc m) by (destruct Hsel as [->|[->| ->]]; reflexivity).
    rewrite Hs. clear. induction chunks as [|c ch IH]; cbn [map qsum]; [reflexivity|].
    rewrite IH, cleared_nth. ring. }
  rewrite A1, A2, A3, B1, B2, B3, !Z by auto. rewrite !Qcplus_0_l.
  assert (Ec : concat (map snd work) = concat chunks).
  { unfold work. rewrite map_map. cbn [snd]. rewrite map_id. reflexivity. }
  rewrite Ec, finish_expected. f_equal. apply expected_perm, vals_perm. exact HP.
Qed.

Theorem grid_threads chunks chunks' : chunks <> [] -> chunks' <> [] ->
  Permutation (concat chunks) (concat chunks') -> grid ax ay az chunks = grid ax ay az chunks'.
Proof.
  intros H1 H2 HP. destruct (grid_ok chunks (concat chunks') H1 HP) as [o1 [E1 [L1 N1]]].
  destruct (grid_ok chunks' (concat chunks') H2 (Permutation_refl _)) as [o2 [E2 [L2 N2]]].
  rewrite E1, E2. f_equal. apply nth_error_ext. intros c.
  destruct (Nat.lt_ge_cases c m) as [Hc|Hc].
  2:{ rewrite (proj2 (nth_error_None o1 c)), (proj2 (nth_error_None o2 c)); [reflexivity|lia|lia]. }
  set (a := g_n ax) in *. set (b := g_n ay) in *. set (d := g_n az) in *.
  assert (Hd : d <> 0) by apply Gz. assert (Hb : b <> 0) by apply Gy.
  assert (Hbd : b * d <> 0) by nia.
  pose proof (Nat.div_mod c (b * d) Hbd) as D1. pose proof (Nat.mod_upper_bound c (b * d) Hbd) as D2.
  set (r := c mod (b * d)) in *. pose proof (Nat.div_mod r d Hd) as D3. pose proof (Nat.mod_upper_bound r d Hd) as D4.
  assert (Hi : c / (b * d) < a).
  { apply Nat.div_lt_upper_bound; [exact Hbd|]. unfold gsize in Hc. fold a b d in Hc. nia. }
  assert (Hj : r / d < b) by (apply Nat.div_lt_upper_bound; [exact Hd|nia]).
  destruct (N1 _ _ _ Hi Hj D4) as [v1 [C1 X1]]. destruct (N2 _ _ _ Hi Hj D4) as [v2 [C2 X2]].
  rewrite (collects_unique _ _ _ _ C1 C2) in X1.
  assert (Ep : pos3 (c / (b * d)) (r / d) (r mod d) = c) by (unfold pos3; fold b d; nia).
  rewrite Ep in X1, X2. congruence.
Qed.
Theorem grid_cells chunks pts : chunks <> [] -> Permutation (concat chunks) pts ->
  exists out, grid ax ay az chunks = Some out /\ length out = m /\
    forall i j k, i < g_n ax -> j < g_n ay -> k < g_n az ->
      exists vs o, collects (in_grid_cell (g3 ax) (g3 ay) (g3 az) i j k) pts vs /\
        nth_error out (row_major [g_n ax; g_n ay; g_n az] [i; j; k]) = Some o /\
        o_occ o = qn (length vs) /\ o_total o = qsum vs /\
        (vs = [] -> o_mean o = None /\ o_se2 o = 0%Qc) /\
        (vs <> [] -> o_mean o = Some (mean_of vs) /\ o_se2 o = sem2_of vs).
Proof.
  intros H1 H2. destruct (grid_ok chunks pts H1 H2) as [out [E [L N]]]. exists out. split; [exact E|]. split; [exact L|].
  intros i j k Hi Hj Hk. destruct (N i j k Hi Hj Hk) as [vs [C X]]. exists vs, (expected vs). split; [exact C|]. split.
  - replace (row_major [g_n ax; g_n ay; g_n az] [i; j; k]) with (pos3 i j k); [exact X|]. unfold pos3. cbn. lia.
  - split; [reflexivity|]. split; [reflexivity|]. split; intros Hv.
    + rewrite Hv. split; reflexivity.
    + destruct vs; [congruence|]. split; reflexivity.
Qed.

(** Two threads starting from arbitrary array contents. *)
Lemma grid_two g0 g1 p0 p1 : wf g0 -> wf g1 -> exists out,
  c_grid3d ax ay az [(g0, p0); (g1, p1)] = Some out /\
  forall c, c < m -> exists o, nth_error out c = Some o /\
    o_total o = (nth c (a_d g0) 0 + nth c (a_d g1) 0 + qsum (vals c (p0 ++ p1)))%Qc /\
    o_occ o = (nth c (a_n g0) 0 + nth c (a_n g1) 0 + qn (length (vals c (p0 ++ p1))))%Qc.
Proof.
  intros W0 W1. unfold c_grid3d. set (work := [(g0, p0); (g1, p1)]).
  assert (HW : Forall (fun w => wf (fst w)) work) by (repeat (apply Forall_cons; [assumption|]); apply Forall_nil).
  destruct (threads_ok work HW) as [l [E [L [W N]]]]. rewrite E. cbn [bind].
  destruct (gather_ok l) as [a [Ea [Wa Na]]]; [intros ->; discriminate L|exact W|].
  rewrite Ea. cbn [bind]. eexists. split; [reflexivity|]. destruct Wa as [L1 [L2 L3]].
  intros c Hc. eexists. split; [apply finish_all_nth; congruence|].
  destruct (Na c) as [A1 [A2 A3]]. destruct (N c) as [B1 [B2 B3]]. unfold finish. cbn [o_total o_occ].
  rewrite A1, A3, B1, B3. unfold isum, work. cbn [map qsum fst snd concat]. rewrite app_nil_r. split; ring.
Qed.
End Grid.

(** Masks. *)
Lemma insert_col_ok q : forall img, length img = length q ->
  insert_col q img = Some (combine q img).
Proof.
  induction q as [|p q IH]; intros [|v img] L; cbn in *; try lia; [reflexivity|].
  rewrite IH by lia. reflexivity.
Qed.
Lemma insert_col_bad q : forall img, length img <> length q -> insert_col q img = None.
Proof.
  induction q as [|p q IH]; intros [|v img] L; cbn in *; try lia; auto.
  rewrite IH by lia. reflexivity.
Qed.
Lemma compress_ok {A} (l : list A) : forall b, length b = length l ->
  compress l b = Some (map fst (filter snd (combine l b))).
Proof.
  induction l as [|x l IH]; intros [|v b] L; cbn in *; try lia; [reflexivity|].
  rewrite IH by lia. cbn. destruct v; reflexivity.
Qed.
Lemma tile_len {A} n (l : list A) : length (tile n l) = n * length l.
Proof. induction n as [|n IH]; cbn; [reflexivity|]. rewrite app_length, IH. reflexivity. Qed.
Lemma tile_nth {A} n (l : list A) i j : i < n -> j < length l -> nth_error (tile n l) (i * length l + j) = nth_error l j.
Proof.
  revert i. induction n as [|n IH]; intros i Hi Hj; [lia|]. cbn [tile]. destruct i as [|i].
  - cbn. rewrite nth_error_app1 by exact Hj. reflexivity.
  - rewrite nth_error_app2 by (cbn; lia). replace (S i * length l + j - length l) with (i * length l + j) by (cbn; lia).
    apply IH; lia.
Qed.

(** Rows kept by a predicate on the row number. *)
Lemma compress_kept {A} (keep : nat -> bool) (l : list A) : forall (b : list bool) i, length b = length l ->
  (forall j, j < length l -> nth_error b j = Some (keep (i + j))) ->
  exists r, compress l b = Some r /\ kept keep i l r.
Proof.
  induction l as [|x l IH]; intros [|v b] i L H; cbn in L; try lia.
  - exists []. split; [reflexivity|constructor].
  - destruct (IH b (S i) ltac:(lia)) as [r [E K]].
    { intros j Hj. replace (S i + j) with (i + S j) by lia. apply (H (S j)). cbn; lia. }
    cbn [compress]. rewrite E. cbn [bind]. pose proof (H 0 ltac:(cbn; lia)) as H0. cbn in H0.
    rewrite Nat.add_0_r in H0. injection H0 as ->. eexists. split; [reflexivity|].
    destruct (keep i) eqn:K0; [apply kept_yes|apply kept_no]; assumption.
Qed.
Lemma compress_bad {A} (l : list A) : forall b, length b <> length l -> compress l b = None.
Proof.
  induction l as [|x l IH]; intros [|v b] L; cbn in *; try lia; auto. rewrite IH by lia. reflexivity.
Qed.
Lemma mask_stack_ok n_img q img b : length img = length q -> length b = length q ->
  exists r, masked_points n_img q img (MaskStack b) = Some r /\
    kept (fun i => nth i b false) 0 (combine q img) r.
Proof.
  intros L1 L2. unfold masked_points. rewrite insert_col_ok by exact L1. cbn [bind].
  assert (Lc : length (combine q img) = length q) by (rewrite combine_length; lia).
  apply compress_kept; [lia|]. intros j Hj. cbn. apply nth_error_nth'. lia.
Qed.
Lemma mask_image_ok n_img q img b : length img = length q -> length q = n_img * length b ->
  exists r, masked_points n_img q img (MaskImage b) = Some r /\
    kept (fun i => nth (i mod length b) b false) 0 (combine q img) r.
Proof.
  intros L1 L2. unfold masked_points. rewrite insert_col_ok by exact L1. cbn [bind].
  assert (Lc : length (combine q img) = length q) by (rewrite combine_length; lia).
  apply compress_kept; [rewrite tile_len; lia|]. intros j Hj. cbn [Nat.add].
  assert (Hb : length b <> 0) by (intros E; rewrite E in L2; lia).
  pose proof (Nat.div_mod j (length b) Hb) as E. pose proof (Nat.mod_upper_bound j (length b) Hb) as Hm.
  rewrite E at 1. replace (length b * (j / length b)) with (j / length b * length b) by lia.
  rewrite tile_nth; [apply nth_error_nth'; exact Hm| |exact Hm].
  apply Nat.div_lt_upper_bound; lia.
Qed.
Lemma mask_bad n_img q img : masked_points n_img q img MaskOther = None /\
  (forall b, length img = length q -> length b <> length q -> masked_points n_img q img (MaskStack b) = None) /\
  (forall b, length img = length q -> n_img * length b <> length q -> masked_points n_img q img (MaskImage b) = None).
Proof.
  split; [reflexivity|]. split; intros b L1 L2; unfold masked_points; rewrite insert_col_ok by exact L1; cbn [bind];
    apply compress_bad; rewrite ?tile_len, combine_length; lia.
Qed.
