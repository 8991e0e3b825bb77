From Coq Require Import Sorted Reals.
From Verif Require Import Common Columns_Spec RoiPolar_Model RoiPolar_Spec RoiPolar_Proofs.
From Verif Require Columns_Proofs Xsvs_Proofs.
From Coq Require Import Lra.

Lemma radius_exists c i j : exists r, is_radius c i j r.
Proof.
  exists (radius c (1%R, 1%R) i j). unfold is_radius, radius, grid_x, grid_y. cbn [fst snd]. cbv zeta. split; [apply sqrt_pos|].
  rewrite sqrt_sqrt; [ring|]. apply Rplus_le_le_0_compat; apply Rle_0_sqr.
Qed.
Lemma radius_same c i j r r' : is_radius c i j r -> is_radius c i j r' -> r = r'.
Proof. unfold is_radius. intros [P E] [P' E']. rewrite <- E' in E. nra. Qed.
Section Rings.
Context (edges : list R) (c : R * R) (h w : nat) (out : list nat).
Hypothesis He : Nat.even (length edges) = true.
Hypothesis Hi : increasing edges.
Hypothesis Ho : rings edges c h w = Some out.
Lemma ring_label i j r : i < h -> j < w -> is_radius c i j r ->
  length out = h * w /\ exists k, nth_error out (i * w + j) = Some k /\ (forall m, k = S m <-> in_ring edges m r) /\ (k = 0 <-> forall m, ~ in_ring edges m r).
Proof.
  intros Bi Bj Hr. destruct (rings_ok edges c h w) as [K _]. destruct (K He Hi) as (o & E & L & V). assert (o = out) by congruence. subst o.
  split; [exact L|]. exact (V i j r Bi Bj Hr).
Qed.
Lemma ring_in_image p : p < length out -> exists i j, i < h /\ j < w /\ p = i * w + j.
Proof.
  intros Hp. destruct (rings_ok edges c h w) as [K _]. destruct (K He Hi) as (o & E & L & _). assert (o = out) by congruence. subst o. rewrite L in Hp.
  assert (w <> 0) by (intros ->; lia). exists (p / w), (p mod w). pose proof (Nat.div_mod p w H). pose proof (Nat.mod_upper_bound p w H).
  split; [|split; [lia|]]; [apply Nat.div_lt_upper_bound; lia|lia].
Qed.
Lemma ring_members m i j r : i < h -> j < w -> is_radius c i j r ->
  (In (i * w + j) (where_label (map Z.of_nat out) (Z.of_nat m + 1)) <-> in_ring edges m r).
Proof.
  intros Bi Bj Hr. destruct (ring_label i j r Bi Bj Hr) as (L & k & Ek & Hk & _). unfold where_label. rewrite filter_In, in_seq, map_length, L.
  rewrite (nth_error_nth _ _ 0%Z (map_nth_error Z.of_nat _ _ Ek)). rewrite Z.eqb_eq, <- Hk. split; [intros [_ E]; lia|]. intros ->. split; [nia|lia].
Qed.
Lemma ring_regions us : regions (map Z.of_nat out) us <-> StronglySorted Z.lt us /\ forall z, In z us <-> exists m, z = (Z.of_nat m + 1)%Z /\ ring_seen edges c h w m.
Proof.
  assert (G : forall z, In z (map Z.of_nat out) /\ (0 < z)%Z <-> exists m, z = (Z.of_nat m + 1)%Z /\ ring_seen edges c h w m).
  { intros z. split.
    - intros [I P]. apply in_map_iff in I as (k & <- & I). apply In_nth_error in I as (p & Ep). assert (Lp : p < length out) by (apply nth_error_Some; congruence).
      destruct (ring_in_image p Lp) as (i & j & Bi & Bj & ->). destruct (radius_exists c i j) as [r Hr].
      destruct (ring_label i j r Bi Bj Hr) as (_ & k' & Ek & Hk & _). assert (k' = k) by congruence. subst k'. destruct k as [|m]; [lia|].
      exists m. split; [lia|]. exists i, j, r. repeat split; try assumption; try (apply Hr). apply Hk. reflexivity.
    - intros (m & -> & i & j & r & Bi & Bj & Hr & Hm). destruct (ring_label i j r Bi Bj Hr) as (_ & k & Ek & Hk & _). apply Hk in Hm. subst k. split; [|lia].
      apply in_map_iff. exists (S m). split; [lia|]. apply (nth_error_In _ _ Ek). }
  unfold regions. split; intros [S H]; (split; [exact S|]); intros z; rewrite H; [|symmetry]; apply G.
Qed.
Lemma all_rings_seen : (forall m, 2 * m + 1 < length edges -> ring_seen edges c h w m) ->
  regions (map Z.of_nat out) (map Z.of_nat (seq 1 (length edges / 2))).
Proof.
  intros A. apply ring_regions. split; [apply Columns_Proofs.sorted_map_seq|]. pose proof (Nat.div_mod (length edges) 2 ltac:(lia)) as D.
  apply Nat.even_spec in He. destruct He as [q Eq]. rewrite Eq, Nat.mul_comm, Nat.div_mul by lia. intros z. split.
  - intros I. apply in_map_iff in I as (k & <- & I). apply in_seq in I. exists (k - 1). split; [lia|]. apply A. lia.
  - intros (m & -> & i & j & r & _ & _ & _ & (lo & hi & E1 & E2 & _)). apply in_map_iff. exists (S m). split; [lia|]. apply in_seq.
    assert (2 * m + 1 < length edges) by (apply nth_error_Some; congruence). lia.
Qed.
End Rings.
(** three pixels at distances 0, 1 and 2; the first ring falls between two of them *)
Lemma narrow_ring : let edges := [1 / 4; 1 / 2; 1; 3 / 2]%R in
  Nat.even (length edges) = true /\ increasing edges /\
  exists out, rings edges (0%R, 0%R) 1 3 = Some out /\ map Z.of_nat out = [0; 2; 0]%Z /\
    ~ ring_seen edges (0%R, 0%R) 1 3 0 /\ ring_seen edges (0%R, 0%R) 1 3 1.
Proof.
  cbv zeta. set (edges := [1 / 4; 1 / 2; 1; 3 / 2]%R). assert (Hi : increasing edges).
  { intros [|[|[|[|k]]]] a b; cbn; intros E1 E2; try discriminate; try (destruct k; discriminate); injection E1 as <-; injection E2 as <-; lra. }
  split; [reflexivity|]. split; [exact Hi|]. destruct (rings_ok edges (0%R, 0%R) 1 3) as [K _]. destruct (K eq_refl Hi) as (out & E & L & V).
  assert (Rd : forall j, j < 3 -> is_radius (0%R, 0%R) 0 j (INR j)).
  { intros j Hj. unfold is_radius. cbn [fst snd]. split; [apply pos_INR|]. cbn [INR]. ring. }
  exists out. split; [exact E|].
  assert (I0 : forall m r, in_ring edges m r <-> (m = 0 /\ (1 / 4 <= r < 1 / 2)%R) \/ (m = 1 /\ (1 <= r < 3 / 2)%R)).
  { intros m r. split.
    - intros (lo & hi & E1 & E2 & B). destruct m as [|[|m]]; cbn in E1, E2.
      + injection E1 as <-. injection E2 as <-. left. split; [reflexivity|exact B].
      + injection E1 as <-. injection E2 as <-. right. split; [reflexivity|exact B].
      + exfalso. assert (2 * S (S m) < length edges) by (apply nth_error_Some; cbn; congruence). cbn in H. lia.
    - intros [[-> B]|[-> B]]; [exists (1 / 4)%R, (1 / 2)%R|exists 1%R, (3 / 2)%R]; (split; [reflexivity|]; split; [reflexivity|exact B]). }
  split.
  - destruct (V 0 0 _ ltac:(lia) ltac:(lia) (Rd 0 ltac:(lia))) as (k0 & E0 & _ & Z0). destruct (V 0 1 _ ltac:(lia) ltac:(lia) (Rd 1 ltac:(lia))) as (k1 & E1 & H1 & _).
    destruct (V 0 2 _ ltac:(lia) ltac:(lia) (Rd 2 ltac:(lia))) as (k2 & E2 & _ & Z2). cbn in E0, E1, E2, L.
    assert (k0 = 0) by (apply Z0; intros m; rewrite I0; cbn; lra). assert (k1 = 2) by (apply H1, I0; right; split; [reflexivity|cbn; lra]).
    assert (k2 = 0) by (apply Z2; intros m; rewrite I0; cbn; lra). subst.
    destruct out as [|a [|b [|d [|]]]]; cbn in L; try lia. cbn in E0, E1, E2. injection E0 as ->. injection E1 as ->. injection E2 as ->. reflexivity.
  - split.
    + intros (i & j & r & Bi & Bj & Hr & Hm). apply I0 in Hm. assert (i = 0) by lia. subst i. rewrite (radius_same _ _ _ _ _ Hr (Rd j Bj)) in Hm.
      destruct j as [|[|[|j]]]; [| | |lia]; cbn in Hm; destruct Hm as [[_ B]|[Q _]]; (lra || lia).
    + exists 0, 1, (INR 1). split; [lia|]. split; [lia|]. split; [apply Rd; lia|]. apply I0. right. split; [reflexivity|]. cbn. lra.
Qed.
