From Verif Require Import Common QcArith Sums Utils_Model Utils_Spec.
From Coq Require Import ZifyBool ZifyNat Qround.

(** ** subtract_reference_images *)
Section Ref.
Context {A : Type} (sub : A -> A -> A).

Lemma sub_loop_len ref imgs refs : length (sub_loop sub ref (combine imgs refs))
  = count_false (firstn (length imgs) refs).
Proof.
  revert ref refs. induction imgs as [|im imgs IH]; intros ref [|b refs]; try reflexivity.
  cbn. unfold count_false in *. destruct b; cbn; rewrite IH; reflexivity.
Qed.
Lemma sub_loop_nth ref imgs refs i im :
  nth_error imgs i = Some im -> nth_error refs i = Some false ->
  (exists r ir, last_ref_before refs i r /\ nth_error imgs r = Some ir /\
     nth_error (sub_loop sub ref (combine imgs refs)) (count_false (firstn i refs)) = Some (sub im ir)) \/
  ((forall j, j < i -> nth_error refs j = Some false) /\
     nth_error (sub_loop sub ref (combine imgs refs)) (count_false (firstn i refs)) = Some (sub im ref)).
Proof.
  revert ref refs i. induction imgs as [|x imgs IH]; intros ref [|b refs] i Hi Hr; try (destruct i; discriminate).
  destruct i as [|i].
  - cbn in Hi, Hr. injection Hi as ->. injection Hr as ->. right. split; [intros; lia|reflexivity].
  - cbn in Hi, Hr. cbn [combine]. unfold count_false. cbn [firstn filter].
    destruct b; cbn [sub_loop negb].
    + left. destruct (IH x refs i Hi Hr) as [(r & ir & (H1 & H2 & H3) & H4 & H5)|[H1 H2]].
      * exists (S r), ir. split; [|split; [exact H4|exact H5]]. split; [lia|]. split; [exact H2|].
        intros [|j] Hj1 Hj2; [lia|]. apply H3; lia.
      * exists 0, x. split; [|split; [reflexivity|exact H2]]. split; [lia|]. split; [reflexivity|].
        intros [|j] Hj1 Hj2; [lia|]. apply H1; lia.
    + cbn [length nth_error]. destruct (IH ref refs i Hi Hr) as [(r & ir & (H1 & H2 & H3) & H4 & H5)|[H1 H2]].
      * left. exists (S r), ir. split; [|split; [exact H4|exact H5]]. split; [lia|]. split; [exact H2|].
        intros [|j] Hj1 Hj2; [lia|]. apply H3; lia.
      * right. split; [|exact H2]. intros [|j] Hj; [reflexivity|]. apply H1; lia.
Qed.

Lemma subref_ok imgs refs :
  (subtract_reference_images sub imgs refs = None <->
     imgs = [] \/ nth_error refs 0 <> Some true) /\
  forall outs, subtract_reference_images sub imgs refs = Some outs ->
    length outs = count_false (firstn (length imgs) refs) /\
    forall i im, nth_error imgs i = Some im -> nth_error refs i = Some false ->
      exists r ir, last_ref_before refs i r /\ nth_error imgs r = Some ir /\
        nth_error outs (count_false (firstn i refs)) = Some (sub im ir).
Proof.
  unfold subtract_reference_images. split.
  - destruct refs as [|[] refs]; cbn.
    + split; [intros _; right; discriminate|reflexivity].
    + destruct imgs as [|i0 rest]; split; try discriminate; auto.
      intros [H|H]; [discriminate|contradiction].
    + split; [intros _; right; discriminate|reflexivity].
  - intros outs. destruct refs as [|[] refs]; try discriminate.
    destruct imgs as [|i0 rest]; [discriminate|]. intros [= <-]. split.
    + rewrite sub_loop_len. reflexivity.
    + intros i im Hi Hr. destruct i as [|i]; [discriminate|]. cbn in Hi, Hr.
      destruct (sub_loop_nth i0 rest refs i im Hi Hr) as [(r & ir & (H1 & H2 & H3) & H4 & H5)|[H1 H2]].
      * exists (S r), ir. split; [|split; [exact H4|exact H5]]. split; [lia|]. split; [exact H2|].
        intros [|j] Hj1 Hj2; [lia|]. apply H3; lia.
      * exists 0, i0. split; [|split; [reflexivity|exact H2]]. split; [lia|]. split; [reflexivity|].
        intros [|j] Hj1 Hj2; [lia|]. apply H1; lia.
Qed.
End Ref.

(** ** img_to_relative_xyi *)
Lemma nth_error_concat_uni {A} (ls : list (list A)) n t : (forall l, In l ls -> length l = n) -> n <> 0 ->
  nth_error (concat ls) t = (l <- nth_error ls (t / n) ;; nth_error l (t mod n)).
Proof.
  intros H Hn. revert t. induction ls as [|l ls IH]; intros t.
  - cbn. destruct t, (_ / n); reflexivity.
  - cbn [concat]. assert (Hl : length l = n) by (apply H; left; reflexivity).
    destruct (Nat.lt_ge_cases t n) as [Ht|Ht].
    + rewrite nth_error_app1 by lia. rewrite Nat.div_small, Nat.mod_small by lia. reflexivity.
    + rewrite nth_error_app2 by lia. rewrite IH by (intros; apply H; right; assumption). rewrite Hl.
      assert (E : t / n = S ((t - n) / n)).
      { replace t with (1 * n + (t - n)) at 1 by lia. rewrite Nat.div_add_l by exact Hn. reflexivity. }
      assert (E2 : t mod n = (t - n) mod n).
      { replace t with ((t - n) + 1 * n) at 1 by lia. rewrite Nat.mod_add by exact Hn. reflexivity. }
      rewrite E, E2. reflexivity.
Qed.
Lemma axis_len n p c : length (axis n p c) = n.
Proof. unfold axis. rewrite map_length, seq_length. reflexivity. Qed.
Lemma axis_nth n p c i : i < n -> nth_error (axis n p c) i = Some (p * (qn i - c))%Qc.
Proof. intros H. unfold axis. rewrite nth_error_map_seq by exact H. reflexivity. Qed.
Lemma mesh_x_nth s0 s1 a cx b cy t : t < s0 * s1 ->
  nth_error (meshgrid_x (axis s0 a cx) (axis s1 b cy)) t = Some (a * (qn (t mod s0) - cx))%Qc.
Proof.
  intros Ht. assert (Hn : s0 <> 0) by nia. unfold meshgrid_x.
  rewrite (nth_error_concat_uni _ s0); [|intros l Hl; apply in_map_iff in Hl as (? & <- & _); apply axis_len|exact Hn].
  rewrite nth_error_map, axis_nth by (apply Nat.div_lt_upper_bound; lia). cbn [option_map bind].
  apply axis_nth. apply Nat.mod_upper_bound. exact Hn.
Qed.
Lemma mesh_y_nth s0 s1 a cx b cy t : t < s0 * s1 ->
  nth_error (meshgrid_y (axis s0 a cx) (axis s1 b cy)) t = Some (b * (qn (t / s0) - cy))%Qc.
Proof.
  intros Ht. assert (Hn : s0 <> 0) by nia. unfold meshgrid_y.
  rewrite (nth_error_concat_uni _ s0);
    [|intros l Hl; apply in_map_iff in Hl as (? & <- & _); rewrite map_length; apply axis_len|exact Hn].
  rewrite nth_error_map, axis_nth by (apply Nat.div_lt_upper_bound; lia). cbn [option_map bind].
  rewrite nth_error_map, axis_nth by (apply Nat.mod_upper_bound; exact Hn). reflexivity.
Qed.

Definition sizes_ok (px py : option Qc) (a b : Qc) : Prop :=
  (px = None /\ py = None /\ a = 1%Qc /\ b = 1%Qc) \/
  (px = Some a /\ py = Some b /\ (0 < a)%Qc /\ (0 < b)%Qc).
Lemma xyi_sizes_ok px py : match xyi_sizes px py with
  | Some (a, b) => sizes_ok px py a b | None => forall a b, ~ sizes_ok px py a b end.
Proof.
  unfold xyi_sizes, sizes_ok. destruct px as [a|], py as [b|].
  - destruct (Qc_leb_spec a 0%Qc) as [Ha|Ha]; cbn [orb].
    + intros x y [(E & _)|(E1 & _ & Hx & _)]; [discriminate|]. injection E1 as <-. qclra.
    + destruct (Qc_leb_spec b 0%Qc) as [Hb|Hb].
      * intros x y [(E & _)|(_ & E1 & _ & Hy)]; [discriminate|]. injection E1 as <-. qclra.
      * right. repeat split; apply Qcnot_le_lt; assumption.
  - intros a' b' [(E & _)|(_ & E & _)]; discriminate.
  - intros a' b' [(_ & E & _)|(E & _)]; discriminate.
  - left. auto.
Qed.
Lemma xyi_square s img cx cy px py a b : sizes_ok px py a b -> length img = s * s ->
  exists xs ys, img_to_relative_xyi s s img cx cy px py = Some (xs, ys, img) /\
    forall row col, row < s -> col < s ->
      nth_error xs (row * s + col) = Some (a * (qn col - cx))%Qc /\
      nth_error ys (row * s + col) = Some (b * (qn row - cy))%Qc.
Proof.
  intros Hs Hl. unfold img_to_relative_xyi. pose proof (xyi_sizes_ok px py) as H.
  destruct (xyi_sizes px py) as [[a' b']|]; [|exfalso; exact (H a b Hs)].
  assert (E : a' = a /\ b' = b).
  { destruct H as [(H1 & H2 & -> & ->)|(H1 & H2 & _)], Hs as [(S1 & S2 & -> & ->)|(S1 & S2 & _)]; split; congruence. }
  destruct E as [-> ->]. do 2 eexists. split; [reflexivity|].
  intros row col Hr Hc.
  assert (Hd : (row * s + col) / s = row) by (rewrite Nat.div_add_l by lia; rewrite Nat.div_small by lia; lia).
  assert (Hm : (row * s + col) mod s = col).
  { rewrite Nat.add_comm, Nat.mod_add by lia. apply Nat.mod_small. exact Hc. }
  split.
  - rewrite mesh_x_nth by nia. rewrite Hm. reflexivity.
  - rewrite mesh_y_nth by nia. rewrite Hd. reflexivity.
Qed.
Lemma xyi_nonsquare s0 s1 img cx cy px py a b : sizes_ok px py a b -> length img = s0 * s1 ->
  1 <= s0 -> 1 <= s1 -> s0 <> s1 ->
  exists xs ys row col, img_to_relative_xyi s0 s1 img cx cy px py = Some (xs, ys, img) /\
    row < s0 /\ col < s1 /\
    nth_error xs (row * s1 + col) <> Some (a * (qn col - cx))%Qc.
Proof.
  intros Hs Hl H0 H1 Hne. unfold img_to_relative_xyi. pose proof (xyi_sizes_ok px py) as H.
  destruct (xyi_sizes px py) as [[a' b']|]; [|exfalso; exact (H a b Hs)].
  assert (E : a' = a /\ b' = b).
  { destruct H as [(E1 & E2 & -> & ->)|(E1 & E2 & _)], Hs as [(S1 & S2 & -> & ->)|(S1 & S2 & _)]; split; congruence. }
  destruct E as [-> ->]. clear H.
  assert (Ha : (0 < a)%Qc) by (destruct Hs as [(_ & _ & -> & _)|(_ & _ & Ha & _)]; [reflexivity|exact Ha]).
  assert (Hinj : forall i j, (a * (qn i - cx))%Qc = (a * (qn j - cx))%Qc -> i = j).
  { intros i j E. apply qn_inj.
    assert (Hz : (a * (qn i - qn j))%Qc = 0%Qc).
    { transitivity ((a * (qn i - cx)) - (a * (qn j - cx)))%Qc; [ring|]. rewrite E. ring. }
    apply Qcmult_integral in Hz as [Hz|Hz]; [subst a; exfalso; apply (Qclt_not_eq 0 0); [exact Ha|reflexivity]|].
    replace (qn i) with ((qn i - qn j) + qn j)%Qc by ring. rewrite Hz. ring. }
  do 2 eexists.
  destruct (Nat.lt_ge_cases s0 s1) as [Hlt|Hge].
  - exists 0, s0. split; [reflexivity|]. split; [lia|]. split; [lia|].
    rewrite mesh_x_nth by nia. intros E. apply some_inj, Hinj in E.
    cbn [Nat.mul Nat.add] in E. rewrite Nat.mod_same in E by lia. lia.
  - exists 1, 0. split; [reflexivity|]. split; [lia|]. split; [lia|].
    rewrite mesh_x_nth by nia. intros E. apply some_inj, Hinj in E.
    rewrite Nat.mod_small in E by lia. lia.
Qed.

(** ** linspace and histogram *)
Lemma linspace_len a b n : length (linspace a b n) = S n.
Proof. unfold linspace. rewrite map_length, seq_length. reflexivity. Qed.
Lemma linspace_nth a b n k : n <> 0 -> k <= n -> nth_error (linspace a b n) k = Some (bin_edge a b n k).
Proof.
  intros Hn Hk. unfold linspace. rewrite nth_error_map_seq by lia.
  destruct (Nat.eqb_spec n 0); [contradiction|]. reflexivity.
Qed.
Lemma bin_edge_0 a b n : bin_edge a b n 0 = a.
Proof. unfold bin_edge. change (qn 0) with 0%Qc. ring. Qed.
Lemma bin_edge_n a b n : n <> 0 -> bin_edge a b n n = b.
Proof. intros Hn. unfold bin_edge. field. apply qn_neq0; exact Hn. Qed.
Lemma bin_edge_mono a b n j k : n <> 0 -> (a <= b)%Qc -> j <= k -> (bin_edge a b n j <= bin_edge a b n k)%Qc.
Proof.
  intros Hn Hab Hjk. unfold bin_edge.
  assert (Hw : (0 <= (b - a) / qn n)%Qc) by (apply Qc_div_nonneg; [qclra|apply qn_pos; exact Hn]).
  pose proof (qn_le j k Hjk) as Hq. set (w := ((b - a) / qn n)%Qc) in *. clearbody w. qcnra.
Qed.
Lemma non_decreasing_iff l : non_decreasing l = true <->
  forall k x y, nth_error l k = Some x -> nth_error l (S k) = Some y -> (x <= y)%Qc.
Proof.
  induction l as [|a l IH]; [split; [intros _ [|k] x y H; discriminate|reflexivity]|].
  destruct l as [|b l].
  - split; [intros _ [|[|k]] x y H1 H2; discriminate|reflexivity].
  - change (non_decreasing (a :: b :: l)) with (Qc_leb a b && non_decreasing (b :: l)).
    rewrite andb_true_iff, IH. destruct (Qc_leb_spec a b) as [Hab|Hab].
    + split.
      * intros [_ H] [|k] x y H1 H2; [cbn in *; congruence|]. exact (H k x y H1 H2).
      * intros H. split; [reflexivity|]. intros k x y H1 H2. exact (H (S k) x y H1 H2).
    + split; [intros [E _]; discriminate|]. intros H. exfalso. apply Hab. exact (H 0 a b eq_refl eq_refl).
Qed.
Lemma linspace_nondecr a b n : non_decreasing (linspace a b n) = true <-> (n = 0 \/ (a <= b)%Qc).
Proof.
  rewrite non_decreasing_iff. destruct (Nat.eq_dec n 0) as [->|Hn].
  - split; [auto|]. intros _ [|k] x y H1 H2; [discriminate|]. destruct k; discriminate.
  - split.
    + intros H. right.
      specialize (H 0 _ _ (linspace_nth a b n 0 Hn ltac:(lia)) (linspace_nth a b n 1 Hn ltac:(lia))).
      rewrite bin_edge_0 in H. unfold bin_edge in H. change (qn 1) with 1%Qc in H.
      pose proof (Qc_mul_div (b - a)%Qc (qn n) (qn_neq0 n Hn)) as E. pose proof (qn_pos n Hn) as Hp.
      set (w := ((b - a) / qn n)%Qc) in *. clearbody w.
      assert (Hw : (0 <= w)%Qc) by qclra.
      assert (Hm : (0 <= qn n * w)%Qc) by qcnra. rewrite E in Hm. qclra.
    + intros [?|Hab]; [contradiction|]. intros k x y H1 H2.
      assert (Hk : S k < S n) by (rewrite <- (linspace_len a b n); apply nth_error_Some; congruence).
      rewrite linspace_nth in H1, H2 by lia. injection H1 as <-. injection H2 as <-.
      apply bin_edge_mono; auto.
Qed.

Lemma weight_fun (p : Qc -> bool) (P : Qc -> Prop) l : (forall x, p x = true <-> P x) ->
  weight P l (qsum (map snd (filter (fun q => p (fst q)) l))).
Proof.
  intros H. induction l as [|[x w] l IH]; cbn; [constructor|].
  destruct (p x) eqn:E; cbn; constructor; auto; [apply H; exact E|].
  intros HP. apply H in HP. congruence.
Qed.
Lemma weight_unique P l s t : weight P l s -> weight P l t -> s = t.
Proof.
  intros H. revert t. induction H as [|x w l s Hx H IH|x w l s Hx H IH]; intros t Ht; inversion Ht; subst;
    try contradiction; try reflexivity; try (f_equal; auto); auto.
Qed.
Lemma weight_ext P P' l s : (forall x, P x <-> P' x) -> weight P l s -> weight P' l s.
Proof. intros He H. induction H; constructor; auto; rewrite <- ?He; auto. Qed.
Lemma weight_diff (P Q : Qc -> Prop) l s t : (forall x, P x -> Q x) -> (forall x, P x \/ ~ P x) ->
  weight P l s -> weight Q l t -> weight (fun x => Q x /\ ~ P x) l (t - s)%Qc.
Proof.
  intros Hi Hd H. revert t. induction H as [|x w l s Hx H IH|x w l s Hx H IH]; intros t Ht; inversion Ht; subst.
  - replace (0 - 0)%Qc with 0%Qc by ring. constructor.
  - replace (w + s0 - (w + s))%Qc with (s0 - s)%Qc by ring. apply w_out; [tauto|auto].
  - exfalso. auto.
  - replace (w + s0 - s)%Qc with (w + (s0 - s))%Qc by ring. apply w_in; auto.
  - apply w_out; [tauto|auto].
Qed.

Section Hist.
Variables (lo hi : Qc) (n : nat).
Hypothesis (Hn : n <> 0) (Hle : (lo <= hi)%Qc).
Notation E k := (bin_edge lo hi n k).

Definition cumP (k : nat) (x : Qc) : Prop := if S k =? S n then (x <= hi)%Qc else (x < E k)%Qc.
Lemma cum_weight l k : k <= n -> weight (cumP k) l (cum_at l (linspace lo hi n) k).
Proof.
  intros Hk. unfold cum_at, below_w. rewrite linspace_len.
  assert (En : nth k (linspace lo hi n) 0%Qc = E k).
  { pose proof (linspace_nth lo hi n k Hn Hk) as H. apply (nth_error_nth _ _ 0%Qc) in H. exact H. }
  rewrite En. unfold cumP. destruct (Nat.eqb_spec (S k) (S n)) as [Ek|Ek].
  - injection Ek as ->. rewrite bin_edge_n by exact Hn.
    apply (weight_fun (fun x => Qc_leb x hi)). intros x. destruct (Qc_leb_spec x hi); intuition discriminate.
  - apply (weight_fun (fun x => Qc_ltb x (E k))). intros x. destruct (Qc_ltb_spec x (E k)); intuition discriminate.
Qed.
Lemma cumP_mono j k x : j <= k -> k <= n -> cumP j x -> cumP k x.
Proof.
  intros Hjk Hk. unfold cumP.
  pose proof (bin_edge_mono lo hi n j k Hn Hle Hjk) as H.
  pose proof (bin_edge_mono lo hi n j n Hn Hle ltac:(lia)) as H2. rewrite bin_edge_n in H2 by exact Hn.
  destruct (Nat.eqb_spec (S j) (S n)), (Nat.eqb_spec (S k) (S n)); intros Hx; try lia; qclra.
Qed.
Lemma cumP_dec k x : cumP k x \/ ~ cumP k x.
Proof.
  unfold cumP. destruct (_ =? _).
  - destruct (Qc_leb_spec x hi); auto.
  - destruct (Qc_ltb_spec x (E k)); auto.
Qed.
Lemma in_bin_cum k x : k < n -> (in_bin lo hi n k x <-> cumP (S k) x /\ ~ cumP k x).
Proof.
  intros Hk. unfold in_bin, cumP.
  destruct (Nat.eqb_spec (S k) (S n)); [lia|].
  destruct (Nat.eqb_spec (S (S k)) (S n)) as [e|e].
  - assert (S k = n) by lia. subst n. rewrite bin_edge_n by exact Hn. split.
    + intros [H1 [H2|[_ ->]]]; split; try qclra; try apply Qcle_refl; intros H'; qclra.
    + intros [H1 H2]. split; [qclra|]. destruct (Qclt_le_dec x hi) as [Hl|Hl]; [auto|right].
      split; [reflexivity|]. qclra.
  - split.
    + intros [H1 [H2|[H2 _]]]; [|lia]. split; [exact H2|]. intros H'; qclra.
    + intros [H1 H2]. split; [qclra|]. left; exact H1.
Qed.
Lemma hist_bin l k : k < n ->
  exists v, nth_error (histogram_w l (linspace lo hi n)) k = Some v /\ weight (in_bin lo hi n k) l v.
Proof.
  intros Hk. unfold histogram_w. rewrite linspace_len.
  rewrite nth_error_map_seq by lia. eexists. split; [reflexivity|].
  eapply weight_ext; [intros x; symmetry; apply in_bin_cum; exact Hk|].
  apply weight_diff; [intros x; apply cumP_mono; lia|apply cumP_dec| |]; apply cum_weight; lia.
Qed.
Lemma hist_len l : length (histogram_w l (linspace lo hi n)) = n.
Proof. unfold histogram_w. rewrite map_length, seq_length, linspace_len. lia. Qed.
Lemma hist_total l : weight (fun x => (lo <= x)%Qc /\ (x <= hi)%Qc) l (qsum (histogram_w l (linspace lo hi n))).
Proof.
  assert (Hs : forall m, m <= n -> qsum (map (fun k => (cum_at l (linspace lo hi n) (S k)
        - cum_at l (linspace lo hi n) k)%Qc) (seq 0 m))
      = (cum_at l (linspace lo hi n) m - cum_at l (linspace lo hi n) 0)%Qc).
  { induction m as [|m IH]; intros Hm; [cbn; ring|]. rewrite seq_S, map_app, qsum_app, IH by lia. cbn. ring. }
  unfold histogram_w. rewrite linspace_len. replace (S n - 1) with n by lia. rewrite Hs by lia.
  eapply weight_ext; [|apply weight_diff; [intros x; apply (cumP_mono 0 n x); lia|apply cumP_dec|apply cum_weight; lia|apply cum_weight; lia]].
  intros x. unfold cumP. rewrite Nat.eqb_refl. destruct (Nat.eqb_spec 1 (S n)); [lia|].
  rewrite bin_edge_0. split.
  - intros [H1 H2]. split; [qclra|exact H1].
  - intros [H1 H2]. split; [exact H2|]. intros H3; qclra.
Qed.
(** Every sample in range lies in exactly one bin. *)
Lemma in_bin_exists x : (lo <= x)%Qc -> (x <= hi)%Qc -> exists k, k < n /\ in_bin lo hi n k x.
Proof.
  intros H1 H2.
  assert (Hex : forall m, m <= n -> cumP m x -> exists k, k < m /\ in_bin lo hi n k x).
  { induction m as [|m IH]; intros Hm Hc.
    - exfalso. unfold cumP in Hc. destruct (Nat.eqb_spec 1 (S n)); [lia|]. rewrite bin_edge_0 in Hc. qclra.
    - destruct (cumP_dec m x) as [Hp|Hp].
      + destruct (IH ltac:(lia) Hp) as (k & Hk & Hb). exists k. split; [lia|exact Hb].
      + exists m. split; [lia|]. apply in_bin_cum; [lia|]. auto. }
  apply (Hex n ltac:(lia)). unfold cumP. rewrite Nat.eqb_refl. exact H2.
Qed.
Lemma in_bin_unique x j k : j < n -> k < n -> in_bin lo hi n j x -> in_bin lo hi n k x -> j = k.
Proof.
  intros Hj Hk Bj Bk. apply in_bin_cum in Bj; [|exact Hj]. apply in_bin_cum in Bk; [|exact Hk].
  destruct (Nat.lt_trichotomy j k) as [H|[H|H]]; [|exact H|].
  - exfalso. apply (proj2 Bk). apply (cumP_mono (S j) k); [lia|lia|tauto].
  - exfalso. apply (proj2 Bj). apply (cumP_mono (S k) j); [lia|lia|tauto].
Qed.
Lemma in_bin_range x k : k < n -> in_bin lo hi n k x -> (lo <= x)%Qc /\ (x <= hi)%Qc.
Proof.
  intros Hk [H1 H2]. pose proof (bin_edge_mono lo hi n 0 k Hn Hle ltac:(lia)) as H3. rewrite bin_edge_0 in H3.
  split; [qclra|]. destruct H2 as [H2|[_ ->]]; [|apply Qcle_refl].
  pose proof (bin_edge_mono lo hi n (S k) n Hn Hle ltac:(lia)) as H4. rewrite bin_edge_n in H4 by exact Hn. qclra.
Qed.
End Hist.

Lemma bin_1D_ok x y n lo hi : length x = length y -> (0 < n)%Z -> (lo <= hi)%Qc ->
  let N := Z.to_nat n in
  exists bins val count, bin_1D x y (Some n) (Some lo) (Some hi) = Some (bins, val, count) /\
    length bins = S N /\ length val = N /\ length count = N /\
    (forall k, k <= N -> nth_error bins k = Some (bin_edge lo hi N k)) /\
    (forall k, k < N -> exists v c, nth_error val k = Some v /\ nth_error count k = Some c /\
       weight (in_bin lo hi N k) (combine x y) v /\
       weight (in_bin lo hi N k) (map (fun s => (s, 1%Qc)) x) c) /\
    weight (fun s => (lo <= s)%Qc /\ (s <= hi)%Qc) (combine x y) (qsum val) /\
    weight (fun s => (lo <= s)%Qc /\ (s <= hi)%Qc) (map (fun s => (s, 1%Qc)) x) (qsum count) /\
    (forall s, (lo <= s)%Qc -> (s <= hi)%Qc -> exists k, k < N /\ in_bin lo hi N k s /\
       forall j, j < N -> in_bin lo hi N j s -> j = k) /\
    (forall s k, k < N -> in_bin lo hi N k s -> (lo <= s)%Qc /\ (s <= hi)%Qc).
Proof.
  intros Hl Hn Hle N. unfold bin_1D. cbn [bind].
  destruct (Z.ltb_spec n 0); [lia|]. rewrite Hl, Nat.eqb_refl. cbn [negb]. fold N.
  assert (HN : N <> 0) by lia.
  assert (Hnd : non_decreasing (linspace lo hi N) = true) by (apply linspace_nondecr; auto).
  rewrite Hnd. cbn [negb]. do 3 eexists. split; [reflexivity|].
  split; [apply linspace_len|]. split; [apply hist_len; assumption|]. split; [apply hist_len; assumption|].
  split; [intros k Hk; apply linspace_nth; assumption|]. split.
  { intros k Hk. destruct (hist_bin lo hi N HN Hle (combine x y) k Hk) as (v & E1 & W1).
    destruct (hist_bin lo hi N HN Hle (map (fun s => (s, 1%Qc)) x) k Hk) as (c & E2 & W2). eauto 8. }
  split; [apply hist_total; assumption|]. split; [apply hist_total; assumption|]. split.
  - intros s H1 H2. destruct (in_bin_exists lo hi N HN s H1 H2) as (k & Hk & Hb).
    exists k. split; [exact Hk|]. split; [exact Hb|]. intros j Hj Hbj. apply (in_bin_unique lo hi N HN Hle s j k); assumption.
  - intros s k Hk Hb. eapply in_bin_range; eauto.
Qed.
(** Defaults: the data range and one bin per unit. *)
Lemma lmin_q_spec l m : lmin_q l = Some m -> In m l /\ forall x, In x l -> (m <= x)%Qc.
Proof.
  unfold lmin_q. destruct l as [|a l]; [discriminate|]. intros [= <-].
  assert (H : forall l a, In (fold_left qmin l a) (a :: l) /\ forall x, In x (a :: l) -> (fold_left qmin l a <= x)%Qc).
  { clear. induction l as [|b l IH]; intros a; cbn [fold_left].
    - split; [left; reflexivity|]. intros x [<-|[]]. apply Qcle_refl.
    - destruct (IH (qmin a b)) as [H1 H2]. split.
      + destruct H1 as [H1|H1]; [|right; right; exact H1]. rewrite <- H1. unfold qmin.
        destruct (Qc_leb a b); [left|right; left]; reflexivity.
      + intros x Hx. assert (Hm : (fold_left qmin l (qmin a b) <= qmin a b)%Qc) by (apply H2; left; reflexivity).
        assert (Hab : (qmin a b <= a)%Qc /\ (qmin a b <= b)%Qc).
        { unfold qmin. destruct (Qc_leb_spec a b); split; try apply Qcle_refl; try assumption. qclra. }
        destruct Hx as [<-|[<-|Hx]]; [eapply Qcle_trans; [exact Hm|tauto]|eapply Qcle_trans; [exact Hm|tauto]|].
        apply H2. right; exact Hx. }
  apply H.
Qed.
Lemma lmax_q_spec l m : lmax_q l = Some m -> In m l /\ forall x, In x l -> (x <= m)%Qc.
Proof.
  unfold lmax_q. destruct l as [|a l]; [discriminate|]. intros [= <-].
  assert (H : forall l a, In (fold_left qmax l a) (a :: l) /\ forall x, In x (a :: l) -> (x <= fold_left qmax l a)%Qc).
  { clear. induction l as [|b l IH]; intros a; cbn [fold_left].
    - split; [left; reflexivity|]. intros x [<-|[]]. apply Qcle_refl.
    - destruct (IH (qmax a b)) as [H1 H2]. split.
      + destruct H1 as [H1|H1]; [|right; right; exact H1]. rewrite <- H1. unfold qmax.
        destruct (Qc_leb a b); [right; left|left]; reflexivity.
      + intros x Hx. assert (Hm : (qmax a b <= fold_left qmax l (qmax a b))%Qc) by (apply H2; left; reflexivity).
        assert (Hab : (a <= qmax a b)%Qc /\ (b <= qmax a b)%Qc).
        { unfold qmax. destruct (Qc_leb_spec a b); split; try apply Qcle_refl; try assumption. qclra. }
        destruct Hx as [<-|[<-|Hx]]; [eapply Qcle_trans; [|exact Hm]; tauto|eapply Qcle_trans; [|exact Hm]; tauto|].
        apply H2. right; exact Hx. }
  apply H.
Qed.
Lemma bin_1D_defaults x y n : x <> [] ->
  exists lo hi, In lo x /\ In hi x /\ (forall s, In s x -> (lo <= s)%Qc /\ (s <= hi)%Qc) /\
    bin_1D x y n None None = bin_1D x y n (Some lo) (Some hi).
Proof.
  intros Hx. destruct (lmin_q x) as [lo|] eqn:E1; [|destruct x; [contradiction|discriminate]].
  destruct (lmax_q x) as [hi|] eqn:E2; [|destruct x; [contradiction|discriminate]].
  exists lo, hi. pose proof (lmin_q_spec x lo E1) as [H1 H2]. pose proof (lmax_q_spec x hi E2) as [H3 H4].
  split; [exact H1|]. split; [exact H3|]. split; [auto|]. unfold bin_1D. rewrite E1, E2. reflexivity.
Qed.
Lemma bin_1D_inverted x y n lo hi : (0 < n)%Z -> (hi < lo)%Qc -> bin_1D x y (Some n) (Some lo) (Some hi) = None.
Proof.
  intros Hn Hlt. unfold bin_1D. cbn [bind]. destruct (Z.ltb_spec n 0); [reflexivity|].
  destruct (length x =? length y); cbn [negb]; [|reflexivity].
  destruct (non_decreasing (linspace lo hi (Z.to_nat n))) eqn:E; [|reflexivity].
  apply linspace_nondecr in E as [E|E]; [lia|]. qclra.
Qed.

(** ** bin_edges *)
Lemma arange_len a s n : length (arange_from a s n) = n.
Proof. unfold arange_from. rewrite map_length, seq_length. reflexivity. Qed.
Lemma arange_grid a s n : is_grid (arange_from a s n) a s n.
Proof. split; [apply arange_len|]. intros k Hk. unfold arange_from. rewrite nth_error_map_seq by exact Hk. reflexivity. Qed.

Lemma be_min_max_n a b n :
  bin_edges (Some a) (Some b) (Some n) None =
    (if Qc_ltb a b && (0 <? n)%Z then BE_value (linspace a b (Z.to_nat n)) else BE_ValueError).
Proof.
  unfold bin_edges. cbn [opt_n Nat.add Nat.eqb negb].
  destruct (Qc_leb_spec b a), (Qc_ltb_spec a b); try qclra; cbn [andb]; [reflexivity|].
  destruct (Z.leb_spec n 0), (Z.ltb_spec 0 n); try lia; reflexivity.
Qed.
Lemma be_three a b n : (a < b)%Qc -> (0 < n)%Z ->
  exists l, bin_edges (Some a) (Some b) (Some n) None = BE_value l /\
    is_grid l a ((b - a) / qz n)%Qc (S (Z.to_nat n)) /\
    nth_error l (Z.to_nat n) = Some b.
Proof.
  intros Hab Hn. rewrite be_min_max_n.
  destruct (Qc_ltb_spec a b); [|contradiction]. destruct (Z.ltb_spec 0 n); [|lia]. cbn [andb].
  eexists. split; [reflexivity|]. assert (HN : Z.to_nat n <> 0) by lia. split.
  - split; [apply linspace_len|]. intros k Hk. rewrite linspace_nth by lia. unfold bin_edge.
    replace (qn (Z.to_nat n)) with (qz n) by (unfold qn; f_equal; lia). reflexivity.
  - rewrite linspace_nth by lia. rewrite bin_edge_n by exact HN. reflexivity.
Qed.

Lemma be_min_max_step a b s : (a < b)%Qc -> (0 < s)%Qc -> (s <= b - a)%Qc ->
  exists l m, bin_edges (Some a) (Some b) None (Some s) = BE_value l /\
    1 <= m /\ is_grid l a s (S m) /\ (a + qn m * s <= b)%Qc /\ (b - (a + qn m * s) < s)%Qc.
Proof.
  intros Hab Hs Hsb. unfold bin_edges. cbn [opt_n Nat.add Nat.eqb negb].
  destruct (Qc_leb_spec b a); [qclra|]. destruct (Qc_ltb_spec (b - a)%Qc s); [qclra|].
  destruct (Qc_eqb_spec s 0%Qc) as [->|Hs0]; [exfalso; apply (Qclt_not_eq 0 0); [exact Hs|reflexivity]|].
  set (q := ((b - a) / s)%Qc).
  assert (Eq : (q * s = b - a)%Qc) by (unfold q; field; exact Hs0).
  destruct (Qfloor_qc q) as [F1 F2]. set (z := Qfloor (this q)) in *.
  assert (Hz : (1 <= z)%Z).
  { assert (H1 : (1 <= q)%Qc) by (apply Qc_le_div; [exact Hs|qclra]).
    assert (H2 : (qz 0 < qz z)%Qc) by (rewrite qz_0; qclra). apply (proj1 (qz_lt _ _)) in H2. lia. }
  set (m := Z.to_nat z). assert (Hm : qn m = qz z) by (unfold qn, m; f_equal; lia).
  replace (Z.to_nat (z + 1)) with (S m) by (unfold m; lia).
  assert (Hlast : exists r, rev (arange_from a s (S m)) = (a + qn m * s)%Qc :: r).
  { unfold arange_from. rewrite seq_S, map_app, rev_app_distr. cbn. eexists. reflexivity. }
  destruct Hlast as (r & Er). rewrite Er.
  assert (Hmb : (a + qn m * s <= b)%Qc) by (rewrite Hm; qcnra).
  destruct (Qc_ltb_spec b (a + qn m * s)%Qc); [qclra|].
  exists (arange_from a s (S m)), m. split; [reflexivity|]. split; [unfold m; lia|].
  split; [apply arange_grid|]. split; [exact Hmb|]. rewrite Hm. qcnra.
Qed.
Lemma be_min_n_step a n s : (0 < n)%Z ->
  exists l, bin_edges (Some a) None (Some n) (Some s) = BE_value l /\ is_grid l a s (S (Z.to_nat n)).
Proof.
  intros Hn. unfold bin_edges. cbn [opt_n Nat.add Nat.eqb negb]. destruct (Z.leb_spec n 0); [lia|].
  eexists. split; [reflexivity|]. rewrite Nat.add_1_r. apply arange_grid.
Qed.
Lemma be_max_n_step b n s : (0 < n)%Z ->
  exists l, bin_edges None (Some b) (Some n) (Some s) = BE_value l /\
    is_grid l (b - qz n * s)%Qc s (S (Z.to_nat n)) /\ nth_error l (Z.to_nat n) = Some b.
Proof.
  intros Hn. unfold bin_edges. cbn [opt_n Nat.add Nat.eqb negb]. destruct (Z.leb_spec n 0); [lia|].
  eexists. split; [reflexivity|]. set (N := Z.to_nat n). assert (HN : qn N = qz n) by (unfold qn, N; f_equal; lia).
  rewrite Nat.add_1_r.
  assert (Hg : forall k, k < S N -> nth_error (map (fun k => (b - qn k * s)%Qc) (rev (seq 0 (S N)))) k
     = Some (b - qz n * s + qn k * s)%Qc).
  { intros k Hk. rewrite nth_error_map.
    assert (Hr : nth_error (rev (seq 0 (S N))) k = Some (N - k)).
    { rewrite (nth_error_nth_lt _ _ 0) by (rewrite rev_length, seq_length; lia). f_equal.
      rewrite (rev_nth (seq 0 (S N))) by (rewrite seq_length; lia). rewrite seq_nth by (rewrite seq_length; lia).
      rewrite seq_length. lia. }
    rewrite Hr. cbn. f_equal. rewrite qn_sub by lia. rewrite HN. ring. }
  split.
  - split; [rewrite map_length, rev_length, seq_length; reflexivity|exact Hg].
  - rewrite Hg by lia. f_equal. rewrite HN. ring.
Qed.
Lemma be_rejects rmin rmax nb st :
  opt_n rmin + opt_n rmax + opt_n st + opt_n nb <> 3 \/
  (exists a b, rmin = Some a /\ rmax = Some b /\ (b <= a)%Qc) \/
  (exists n, nb = Some n /\ (n <= 0)%Z) \/
  (exists a b s, rmin = Some a /\ rmax = Some b /\ nb = None /\ st = Some s /\ (b - a < s)%Qc) ->
  bin_edges rmin rmax nb st = BE_ValueError.
Proof.
  unfold bin_edges. intros [H|[(a & b & -> & -> & H)|[(n & -> & H)|(a & b & s & -> & -> & -> & -> & H)]]].
  - destruct (Nat.eqb_spec (opt_n rmin + opt_n rmax + opt_n st + opt_n nb) 3); [contradiction|reflexivity].
  - destruct (negb _); [reflexivity|]. destruct (Qc_leb_spec b a); [reflexivity|contradiction].
  - destruct (negb _); [reflexivity|]. destruct (match rmin with Some _ => _ | None => _ end); [reflexivity|].
    destruct (Z.leb_spec n 0); [reflexivity|lia].
  - cbn [opt_n Nat.add Nat.eqb negb]. destruct (Qc_leb b a); [reflexivity|].
    destruct (Qc_ltb_spec (b - a)%Qc s); [reflexivity|contradiction].
Qed.
(** A non-positive step with both ends given is an error. *)
Lemma be_bad_step a b s : (s <= 0)%Qc -> (a < b)%Qc -> bin_edges (Some a) (Some b) None (Some s) = BE_OtherError.
Proof.
  intros Hs Hab. unfold bin_edges. cbn [opt_n Nat.add Nat.eqb negb].
  destruct (Qc_leb_spec b a); [qclra|]. destruct (Qc_ltb_spec (b - a)%Qc s); [qclra|].
  destruct (Qc_eqb_spec s 0%Qc) as [->|Hs0]; [reflexivity|].
  set (q := ((b - a) / s)%Qc).
  assert (Eq : (q * s = b - a)%Qc) by (unfold q; field; exact Hs0).
  assert (Hs' : (s < 0)%Qc).
  { destruct (Qclt_le_dec s 0) as [?|Hc]; [assumption|]. exfalso. apply Hs0. apply Qcle_antisym; assumption. }
  assert (Hq : (q < 0)%Qc) by (destruct (Qclt_le_dec q 0) as [?|Hc]; [assumption|exfalso; qcnra]).
  destruct (Qfloor_qc q) as [F1 _]. set (z := Qfloor (this q)) in *.
  assert (Hz : (qz z < qz 0)%Qc) by (rewrite qz_0; eapply Qcle_lt_trans; eauto).
  apply (proj1 (qz_lt _ _)) in Hz. replace (Z.to_nat (z + 1)) with 0 by lia. reflexivity.
Qed.

(** ** geometric_series *)
Lemma qpow_S r k : qpow r (S k) = (qpow r k * r)%Qc. Proof. cbn. ring. Qed.
Lemma geo_loop_spec fuel r n a m : (forall k, 1 <= k <= m -> (a * qpow r k < n)%Qc) ->
  match geo_loop fuel r n (a * qpow r m)%Qc (map (fun k => (a * qpow r k)%Qc) (seq 0 (S m))) with
  | Some l => exists M, l = map (fun k => (a * qpow r k)%Qc) (seq 0 (S M)) /\ m <= M /\
      (forall k, 1 <= k <= M -> (a * qpow r k < n)%Qc) /\ (n <= a * qpow r (S M))%Qc
  | None => forall k, 1 <= k <= m + fuel -> (a * qpow r k < n)%Qc
  end.
Proof.
  revert m. induction fuel as [|f IH]; intros m Hm; cbn [geo_loop].
  - replace (a * qpow r m * r)%Qc with (a * qpow r (S m))%Qc by (rewrite qpow_S; ring).
    destruct (Qc_ltb_spec (a * qpow r (S m))%Qc n) as [H|H].
    + intros k Hk. apply Hm. lia.
    + exists m. split; [reflexivity|]. split; [lia|]. split; [exact Hm|]. apply Qcnot_lt_le. exact H.
  - replace (a * qpow r m * r)%Qc with (a * qpow r (S m))%Qc by (rewrite qpow_S; ring).
    destruct (Qc_ltb_spec (a * qpow r (S m))%Qc n) as [H|H].
    + assert (E : map (fun k => (a * qpow r k)%Qc) (seq 0 (S m)) ++ [(a * qpow r (S m))%Qc]
                  = map (fun k => (a * qpow r k)%Qc) (seq 0 (S (S m)))).
      { rewrite (seq_S (S m)), map_app. reflexivity. }
      rewrite E.
      assert (Hm' : forall k, 1 <= k <= S m -> (a * qpow r k < n)%Qc).
      { intros k Hk. destruct (Nat.eq_dec k (S m)) as [->|]; [exact H|apply Hm; lia]. }
      specialize (IH (S m) Hm').
      destruct (geo_loop f r n _ _) as [l|].
      * destruct IH as (M & E1 & E2 & E3). exists M. split; [exact E1|]. split; [lia|exact E3].
      * intros k Hk. apply IH. lia.
    + exists m. split; [reflexivity|]. split; [lia|]. split; [exact Hm|]. apply Qcnot_lt_le. exact H.
Qed.
Lemma geo_spec fuel r n a :
  match geometric_series fuel r n a with
  | Some l => exists M, l = map (fun k => (a * qpow r k)%Qc) (seq 0 (S M)) /\
      (forall k, 1 <= k <= M -> (a * qpow r k < n)%Qc) /\ (n <= a * qpow r (S M))%Qc
  | None => forall k, 1 <= k <= fuel -> (a * qpow r k < n)%Qc
  end.
Proof.
  unfold geometric_series. pose proof (geo_loop_spec fuel r n a 0 ltac:(intros; lia)) as H.
  change (map (fun k => (a * qpow r k)%Qc) (seq 0 1)) with [(a * 1)%Qc] in H.
  change (qpow r 0) with 1%Qc in H. rewrite !Qcmult_1_r in H.
  destruct (geo_loop fuel r n a [a]) as [l|]; [|exact H].
  destruct H as (M & E & _ & H). exists M. split; [exact E|exact H].
Qed.
Lemma bernoulli r k : (1 <= r)%Qc -> (1 + qn k * (r - 1) <= qpow r k)%Qc.
Proof.
  intros Hr. induction k as [|k IH]; [cbn; change (qn 0) with 0%Qc; qclra|].
  cbn [qpow]. rewrite qn_S. pose proof (qn_nonneg k) as Hk.
  set (p := qpow r k) in *. set (q := qn k) in *. clearbody p q.
  assert (H1 : (0 <= q * (r - 1))%Qc) by qcnra. qcnra.
Qed.
Lemma geo_terminates r n a : (1 < r)%Qc -> (0 < a)%Qc ->
  exists fuel l, geometric_series fuel r n a = Some l.
Proof.
  intros Hr Ha. destruct (qc_arch (n / (a * (r - 1)))%Qc) as (N & HN).
  exists (S N). pose proof (geo_spec (S N) r n a) as H.
  destruct (geometric_series (S N) r n a) as [l|]; [eauto|]. exfalso.
  specialize (H (S N) ltac:(lia)).
  assert (Hp : (0 < a * (r - 1))%Qc) by qcnra.
  apply Qc_div_lt in HN; [|exact Hp].
  pose proof (bernoulli r (S N) ltac:(apply Qclt_le_weak; exact Hr)) as B. rewrite qn_S in B.
  set (p := qpow r (S N)) in *. clearbody p. set (q := qn N) in *. clearbody q.
  assert (B2 : (a * (1 + (q + 1) * (r - 1)) <= a * p)%Qc) by qcnra.
  assert (B3 : (q * (a * (r - 1)) < a * (1 + (q + 1) * (r - 1)))%Qc) by qcnra. qclra.
Qed.
Lemma geo_complete r n a fuel l : (1 < r)%Qc -> (0 < a)%Qc -> geometric_series fuel r n a = Some l ->
  (forall x, In x l <-> x = a \/ exists k, x = (a * qpow r k)%Qc /\ (x < n)%Qc /\ 1 <= k) /\
  (forall i x y, nth_error l i = Some x -> nth_error l (S i) = Some y -> y = (x * r)%Qc) /\
  nth_error l 0 = Some a.
Proof.
  intros Hr Ha E. pose proof (geo_spec fuel r n a) as H. rewrite E in H.
  destruct H as (M & -> & H1 & H2).
  assert (Hmono : forall j k, j <= k -> (qpow r j <= qpow r k)%Qc).
  { induction 1 as [|k Hk IH]; [apply Qcle_refl|]. cbn [qpow].
    pose proof (bernoulli r k ltac:(apply Qclt_le_weak; exact Hr)) as B. pose proof (qn_nonneg k).
    set (p := qpow r k) in *. set (q := qn k) in *. clearbody p q.
    assert (Hp : (0 <= q * (r - 1))%Qc) by qcnra. assert (Hp1 : (0 <= p)%Qc) by qclra.
    eapply Qcle_trans; [exact IH|]. qcnra. }
  split; [|split].
  - intros x. rewrite in_map_iff. split.
    + intros (k & <- & Hk). apply in_seq in Hk. destruct k as [|k]; [left; cbn; ring|].
      right. exists (S k). split; [reflexivity|]. split; [apply H1; lia|lia].
    + intros [->|(k & -> & Hx & Hk)].
      * exists 0. split; [cbn; ring|]. apply in_seq. lia.
      * exists k. split; [reflexivity|]. apply in_seq.
        destruct (Nat.le_gt_cases k M) as [Hle|Hgt]; [lia|]. exfalso.
        pose proof (Hmono (S M) k ltac:(lia)) as Hm. set (p := qpow r k) in *. set (q := qpow r (S M)) in *.
        clearbody p q. assert (a * q <= a * p)%Qc by qcnra. qclra.
  - intros i x y Hx Hy.
    assert (Hi : S i < S M).
    { rewrite <- (seq_length (S M) 0), <- (map_length (fun k => (a * qpow r k)%Qc)). apply nth_error_Some. congruence. }
    rewrite nth_error_map_seq in Hx, Hy by lia. injection Hx as <-. injection Hy as <-. cbn. ring.
  - cbn. f_equal. ring.
Qed.
Lemma geo_diverges r n a : (0 <= r)%Qc -> (r <= 1)%Qc -> (0 < a)%Qc -> (a * r < n)%Qc ->
  forall fuel, geometric_series fuel r n a = None.
Proof.
  intros H0 H1 Ha Hn fuel. pose proof (geo_spec fuel r n a) as H.
  destruct (geometric_series fuel r n a) as [l|]; [|reflexivity]. exfalso.
  destruct H as (M & _ & _ & H2).
  assert (Hp : forall k, (0 <= qpow r k)%Qc /\ (qpow r k <= 1)%Qc).
  { induction k as [|k [IH1 IH2]]; cbn [qpow]; [split; [discriminate|apply Qcle_refl]|]. split; qcnra. }
  destruct (Hp M) as [P1 P2]. cbn [qpow] in H2. set (p := qpow r M) in *. clearbody p.
  assert (r * p <= r)%Qc by qcnra. assert (a * (r * p) <= a * r)%Qc by qcnra. qclra.
Qed.
