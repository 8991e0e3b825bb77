(* Proofs for statistics_1D and bin_grid. *)
From Coq Require Import Reals.
From Verif Require Import Common QcArith Utils_Model Utils_Spec Utils_Proofs Roi_Spec Roi_Proofs Roi_Stats BinStat_More BinGrid_Model BinGrid_Spec.
From Coq Require Import Lra.
Local Open Scope list_scope.
Local Open Scope nat_scope.

(** ** The library routine *)
Lemma picked_filter {T V : Type} (P : T -> bool) (x : list T) (y : list V) i : length x = length y ->
  picked (fun p => exists s, nth_error x (p - i) = Some s /\ P s = true) i y (map snd (filter (fun p => P (fst p)) (combine x y))).
Proof.
  revert y i. induction x as [|a x IH]; intros [|b y] i H; cbn in H; try discriminate; [constructor|].
  injection H as H. cbn [combine filter fst].
  assert (HI : picked (fun p => exists s, nth_error (a :: x) (p - i) = Some s /\ P s = true) (S i) y (map snd (filter (fun p => P (fst p)) (combine x y)))).
  { eapply picked_iff; [|exact (IH y (S i) H)]. intros p Hp. cbv beta. replace (p - i) with (S (p - S i)) by lia. reflexivity. }
  destruct (P a) eqn:E.
  - cbn [map snd]. constructor; [|exact HI]. exists a. rewrite Nat.sub_diag. auto.
  - constructor; [|exact HI]. rewrite Nat.sub_diag. cbn. intros [s [[= <-] F]]. congruence.
Qed.
Section Scipy.
Context {T V W : Type} (le_b lt_b : T -> T -> bool) (LT : T -> T -> Prop).
Hypothesis lt_ok : forall a b, lt_b a b = true <-> LT a b.
Lemma rising_iff e : rising lt_b e = true <-> forall k a b, nth_error e k = Some a -> nth_error e (S k) = Some b -> LT a b.
Proof.
  induction e as [|a [|b r] IH].
  - split; [intros _ [|k] ? ? H; discriminate|reflexivity].
  - split; [intros _ [|k] ? ? H H'; [discriminate|destruct k; discriminate]|reflexivity].
  - change (rising lt_b (a :: b :: r)) with (lt_b a b && rising lt_b (b :: r)). rewrite andb_true_iff, IH, lt_ok. split.
    + intros [H1 H2] [|k] u v Hu Hv; [cbn in Hu, Hv; congruence|]. exact (H2 k u v Hu Hv).
    + intros H. split; [exact (H 0 a b eq_refl eq_refl)|]. intros k u v Hu Hv. exact (H (S k) u v Hu Hv).
Qed.
Lemma scipy_some (stat : list V -> W) e x y : 2 <= length e -> (forall k a b, nth_error e k = Some a -> nth_error e (S k) = Some b -> LT a b) ->
  length x = length y ->
  exists val, scipy_binned le_b lt_b stat e x y = Some val /\ length val = length e - 1 /\
    forall k, S k < length e -> exists vs, picked (fun p => exists s, nth_error x p = Some s /\ within le_b lt_b e k s = true) 0 y vs /\
      nth_error val k = Some (stat vs).
Proof.
  intros H2 HR HL. unfold scipy_binned. apply (proj2 (rising_iff e)) in HR. rewrite HR, HL, Nat.eqb_refl.
  replace (2 <=? length e) with true by (symmetry; apply Nat.leb_le; exact H2). cbn [andb].
  eexists. split; [reflexivity|]. split; [rewrite map_length, seq_length; reflexivity|].
  intros k Hk. eexists. split; [|rewrite nth_error_map_seq by lia; reflexivity].
  eapply picked_iff; [|apply (picked_filter (within le_b lt_b e (0 + k)) x y 0 HL)]. intros p _. cbv beta. rewrite Nat.sub_0_r. reflexivity.
Qed.
End Scipy.
Lemma map_snd_length {A B} (f : A * B -> bool) l : length (map snd (filter f l)) = length (filter f l). Proof. apply map_length. Qed.

(** ** statistics_1D *)
Lemma qc_within n lo hi k s : n <> 0 -> k < n ->
  within Qc_leb Qc_ltb (linspace lo hi n) k s = true <-> in_bin lo hi n k s.
Proof.
  intros Hn Hk. unfold within. rewrite !linspace_nth, linspace_len by lia. rewrite andb_true_iff. unfold in_bin.
  assert (E : forall a b, Qc_leb a b = true <-> (a <= b)%Qc) by (intros a b; destruct (Qc_leb_spec a b); split; auto; discriminate).
  assert (F : forall a b, Qc_ltb a b = true <-> (a < b)%Qc) by (intros a b; destruct (Qc_ltb_spec a b); split; auto; discriminate).
  rewrite E. destruct (Nat.eqb_spec (S (S k)) (S n)) as [L|L].
  - assert (L' : S k = n) by lia. rewrite E, L'. rewrite bin_edge_n by exact Hn. split; intros [H1 H2]; split; try exact H1.
    + destruct (Qc_dec s hi) as [[G|G]|G]; [left; exact G|exfalso; qclra|right; auto].
    + destruct H2 as [H2|[_ H2]]; [qclra|subst; qclra].
  - rewrite F. split; intros [H1 H2]; split; try exact H1; [left; exact H2|destruct H2 as [?|[? _]]; [assumption|lia]].
Qed.
Lemma qc_le_ok a b : Qc_leb a b = true <-> (a <= b)%Qc. Proof. destruct (Qc_leb_spec a b); split; auto; discriminate. Qed.
Lemma qc_lt_ok a b : Qc_ltb a b = true <-> (a < b)%Qc. Proof. destruct (Qc_ltb_spec a b); split; auto; discriminate. Qed.
Lemma linspace_rises lo hi n : n <> 0 -> (lo < hi)%Qc -> forall k a b, nth_error (linspace lo hi n) k = Some a -> nth_error (linspace lo hi n) (S k) = Some b -> (a < b)%Qc.
Proof. intros Hn HL. exact (linspace_increasing lo hi n Hn HL). Qed.
Theorem stats_ok {W} x y (stat : list Qc -> W) n lo hi : length x = length y -> 1 <= n -> (lo < hi)%Qc ->
  exists bins val, statistics_1D x y stat (Some n) (Some lo) (Some hi) = Some (bins, val) /\
    length bins = S n /\ length val = n /\ (forall k, k <= n -> nth_error bins k = Some (bin_edge lo hi n k)) /\
    forall k, k < n -> exists vs, picked (fun p => exists s, nth_error x p = Some s /\ in_bin lo hi n k s) 0 y vs /\ nth_error val k = Some (stat vs).
Proof.
  intros HL Hn HR. assert (Hn0 : n <> 0) by lia. unfold statistics_1D. cbn [bind].
  destruct (scipy_some Qc_leb Qc_ltb Qclt qc_lt_ok stat (linspace lo hi n) x y) as [val [E [HV HS]]].
  - rewrite linspace_len. lia.
  - apply linspace_rises; assumption.
  - exact HL.
  - rewrite linspace_len in HV, HS. rewrite E. exists (linspace lo hi n), val. split; [reflexivity|].
    split; [apply linspace_len|]. split; [lia|]. split; [intros k Hk; apply linspace_nth; assumption|].
    intros k Hk. destruct (HS k ltac:(lia)) as [vs [Hp Hs]]. exists vs. split; [|exact Hs].
    eapply picked_iff; [|exact Hp]. intros p _. cbv beta. split; intros [s [A B]]; exists s; (split; [exact A|]); apply (qc_within n lo hi k s Hn0 Hk); exact B.
Qed.
Theorem stats_default {W} x y (stat : list Qc -> W) nx mn mx lo hi :
  match mn with Some m => m = lo | None => In lo x /\ forall v, In v x -> (lo <= v)%Qc end ->
  match mx with Some m => m = hi | None => In hi x /\ forall v, In v x -> (v <= hi)%Qc end ->
  statistics_1D x y stat nx mn mx = statistics_1D x y stat (Some (match nx with Some n => n | None => 100 end)) (Some lo) (Some hi).
Proof.
  intros H1 H2. unfold statistics_1D.
  assert (E1 : (match mn with Some m => Some m | None => lmin_q x end) = Some lo).
  { destruct mn as [m|]; [congruence|]. destruct H1 as [A B]. destruct (lmin_q x) as [a|] eqn:Ea; [|destruct x; [contradiction|discriminate]].
    destruct (lmin_q_spec x a Ea) as [A1 A2]. f_equal. apply Qcle_antisym; auto. }
  assert (E2 : (match mx with Some m => Some m | None => lmax_q x end) = Some hi).
  { destruct mx as [m|]; [congruence|]. destruct H2 as [A B]. destruct (lmax_q x) as [a|] eqn:Ea; [|destruct x; [contradiction|discriminate]].
    destruct (lmax_q_spec x a Ea) as [A1 A2]. f_equal. apply Qcle_antisym; auto. }
  rewrite E1, E2. reflexivity.
Qed.
Theorem stats_raise {W} x y (stat : list Qc -> W) n lo hi : n = 0 \/ (hi <= lo)%Qc -> statistics_1D x y stat (Some n) (Some lo) (Some hi) = None.
Proof.
  intros H. unfold statistics_1D. cbn [bind]. unfold scipy_binned. rewrite linspace_len.
  destruct (Nat.eq_dec n 0) as [->|Hn]; [reflexivity|]. destruct H as [H|H]; [contradiction|].
  destruct (rising Qc_ltb (linspace lo hi n)) eqn:E; [exfalso|rewrite andb_false_r; reflexivity].
  pose proof (proj1 (rising_iff Qc_ltb Qclt qc_lt_ok _) E 0 _ _ (linspace_nth lo hi n 0 Hn ltac:(lia)) (linspace_nth lo hi n 1 Hn ltac:(lia))) as L.
  unfold bin_edge in L. assert (P : (0 < qn n)%Qc) by (apply qn_pos; lia).
  assert (D : ((hi - lo) / qn n <= 0)%Qc).
  { pose proof (Qc_mul_div (hi - lo)%Qc (qn n) ltac:(intros Z; rewrite Z in P; discriminate)) as M.
    set (t := ((hi - lo) / qn n)%Qc) in *. clearbody t. set (q := qn n) in *. clearbody q.
    destruct (Qclt_le_dec 0 t) as [Ht|Ht]; [exfalso; qcnra|exact Ht]. }
  set (t := ((hi - lo) / qn n)%Qc) in *. clearbody t. change (qn 0) with 0%Qc in L. change (qn 1) with 1%Qc in L. qclra.
Qed.
Lemma weight_fun P l a b : weight P l a -> weight P l b -> a = b.
Proof. intros H. revert b. induction H; intros b' Hb; inversion Hb; subst; try contradiction; try reflexivity; [f_equal|]; auto. Qed.
Lemma picked_weight P x y vs i : length x = length y -> picked (fun p => exists s, nth_error x (p - i) = Some s /\ P s) i y vs ->
  weight P (combine x y) (qsum vs) /\ weight P (map (fun s => (s, 1%Qc)) x) (qn (length vs)).
Proof.
  revert y vs i. induction x as [|a x IH]; intros [|b y] vs i HL Hp; cbn in HL; try discriminate.
  - inversion Hp; subst. split; constructor.
  - injection HL as HL. inversion Hp as [|? ? ? r Hy Hr|? ? ? r Hn Hr]; subst; clear Hp.
    + assert (Hr' : picked (fun p => exists s, nth_error x (p - S i) = Some s /\ P s) (S i) y r).
      { eapply picked_iff; [|exact Hr]. intros p Hp. cbv beta. replace (p - i) with (S (p - S i)) by lia. reflexivity. }
      destruct (IH y r (S i) HL Hr') as [A B]. destruct Hy as [s [E Ps]]. rewrite Nat.sub_diag in E. injection E as <-.
      cbn [combine map length qsum fold_right]. split; [constructor; assumption|]. rewrite qn_S. replace (qn (length r) + 1)%Qc with (1 + qn (length r))%Qc by ring.
      constructor; assumption.
    + assert (Hr' : picked (fun p => exists s, nth_error x (p - S i) = Some s /\ P s) (S i) y vs).
      { eapply picked_iff; [|exact Hr]. intros p Hp. cbv beta. replace (p - i) with (S (p - S i)) by lia. reflexivity. }
      destruct (IH y vs (S i) HL Hr') as [A B]. cbn [combine map].
      assert (~ P a). { intros F. apply Hn. exists a. rewrite Nat.sub_diag. auto. }
      split; apply w_out; assumption.
Qed.
Theorem stats_agree x y n lo hi bins val count : length x = length y -> 1 <= n -> (lo < hi)%Qc ->
  bin_1D x y (Some (Z.of_nat n)) (Some lo) (Some hi) = Some (bins, val, count) ->
  statistics_1D x y qsum (Some n) (Some lo) (Some hi) = Some (bins, val) /\
  statistics_1D x y (fun vs => qn (length vs)) (Some n) (Some lo) (Some hi) = Some (bins, count).
Proof.
  intros HL Hn HR HB. destruct (bin_1D_ok x y (Z.of_nat n) lo hi HL ltac:(lia) ltac:(qclra)) as [b [v [c [E [L1 [L2 [L3 [HE [HW _]]]]]]]]].
  rewrite HB in E. injection E as <- <- <-. rewrite Nat2Z.id in *.
  destruct (stats_ok x y qsum n lo hi HL Hn HR) as [b1 [v1 [E1 [M1 [M2 [M3 M4]]]]]].
  destruct (stats_ok x y (fun vs => qn (length vs)) n lo hi HL Hn HR) as [b2 [v2 [E2 [N1 [N2 [N3 N4]]]]]].
  assert (Eb : forall b', length b' = S n -> (forall k, k <= n -> nth_error b' k = Some (bin_edge lo hi n k)) -> b' = bins).
  { intros b' Lb Hb. apply nth_error_ext. intros k. destruct (Nat.le_gt_cases k n); [rewrite Hb, HE by assumption; reflexivity|].
    rewrite !(proj2 (nth_error_None _ _)) by lia. reflexivity. }
  rewrite E1, E2, (Eb b1 M1 M3), (Eb b2 N1 N3). split; do 2 f_equal; apply nth_error_ext; intros k.
  - destruct (Nat.lt_ge_cases k n) as [Hk|Hk]; [|rewrite !(proj2 (nth_error_None _ _)) by lia; reflexivity].
    destruct (M4 k Hk) as [vs [Hp Hs]]. destruct (HW k Hk) as [v [c [Hv [_ [Hw _]]]]]. rewrite Hs, Hv. f_equal.
    assert (Hp' : picked (fun p => exists s, nth_error x (p - 0) = Some s /\ in_bin lo hi n k s) 0 y vs).
    { eapply picked_iff; [|exact Hp]. intros p _. rewrite Nat.sub_0_r. reflexivity. }
    eapply weight_fun; [exact (proj1 (picked_weight _ x y vs 0 HL Hp'))|exact Hw].
  - destruct (Nat.lt_ge_cases k n) as [Hk|Hk]; [|rewrite !(proj2 (nth_error_None _ _)) by lia; reflexivity].
    destruct (N4 k Hk) as [vs [Hp Hs]]. destruct (HW k Hk) as [v [c [_ [Hc [_ Hw]]]]]. rewrite Hs, Hc. f_equal.
    assert (Hp' : picked (fun p => exists s, nth_error x (p - 0) = Some s /\ in_bin lo hi n k s) 0 y vs).
    { eapply picked_iff; [|exact Hp]. intros p _. rewrite Nat.sub_0_r. reflexivity. }
    eapply weight_fun; [exact (proj2 (picked_weight _ x y vs 0 HL Hp'))|exact Hw].
Qed.

(** ** bin_grid *)
Local Open Scope R_scope.
Lemma rle_ok a b : rle_b a b = true <-> a <= b. Proof. unfold rle_b. destruct (Rle_dec a b); split; auto; discriminate. Qed.
Lemma rlt_ok a b : rlt_b a b = true <-> a < b. Proof. unfold rlt_b. destruct (Rlt_dec a b); split; auto; discriminate. Qed.
Lemma r_within e k s : within rle_b rlt_b e k s = true <-> in_ring e k s.
Proof.
  unfold within, in_ring. destruct (nth_error e k) as [a|]; [|split; [discriminate|intros [? [? [? _]]]; discriminate]].
  destruct (nth_error e (S k)) as [b|]; [|split; [discriminate|intros [? [? [_ [? _]]]]; discriminate]].
  rewrite andb_true_iff, rle_ok. destruct (Nat.eqb_spec (S (S k)) (length e)) as [L|L].
  - rewrite rle_ok. split.
    + intros [H1 H2]. exists a, b. split; [reflexivity|]. split; [reflexivity|]. split; [exact H1|]. destruct H2; auto.
    + intros [a' [b' [[= <-] [[= <-] [H1 H2]]]]]. split; [exact H1|]. destruct H2 as [?|[? _]]; lra.
  - rewrite rlt_ok. split.
    + intros [H1 H2]. exists a, b. auto 6.
    + intros [a' [b' [[= <-] [[= <-] [H1 H2]]]]]. split; [exact H1|]. destruct H2 as [?|[_ ?]]; [lra|contradiction].
Qed.
Lemma keep_len {A B} (m : list bool) (l : list A) (l' : list B) : length l = length m -> length l' = length m -> length (keep m l) = length (keep m l').
Proof.
  unfold keep. rewrite !map_length. revert l l'. induction m as [|b m IH]; intros [|x l] [|y l'] H1 H2; cbn in *; try discriminate; [reflexivity|].
  injection H1 as H1. injection H2 as H2. destruct b; cbn; rewrite (IH l l' H1 H2); reflexivity.
Qed.
Lemma keep_picked (P : R -> bool) (m : list bool) (r y : list R) i : length r = length m -> length y = length m ->
  picked (fun p => nth_error m (p - i) = Some true /\ exists s, nth_error r (p - i) = Some s /\ P s = true) i y
    (map snd (filter (fun p => P (fst p)) (combine (keep m r) (keep m y)))).
Proof.
  unfold keep. revert r y i. induction m as [|b m IH]; intros [|x r] [|v y] i H1 H2; cbn in H1, H2; try discriminate; [constructor|].
  injection H1 as H1. injection H2 as H2.
  assert (HI : picked (fun p => nth_error (b :: m) (p - i) = Some true /\ exists s, nth_error (x :: r) (p - i) = Some s /\ P s = true) (S i) y
      (map snd (filter (fun p => P (fst p)) (combine (map fst (filter (fun p => snd p) (combine r m))) (map fst (filter (fun p => snd p) (combine y m))))))).
  { eapply picked_iff; [|exact (IH r y (S i) H1 H2)]. intros p Hp. cbv beta. replace (p - i)%nat with (S (p - S i)) by lia. reflexivity. }
  cbn [combine filter snd]. destruct b.
  - cbn [map combine filter fst]. destruct (P x) eqn:E.
    + cbn [map snd]. constructor; [|exact HI]. rewrite Nat.sub_diag. cbn. split; [reflexivity|exists x; auto].
    + constructor; [|exact HI]. rewrite Nat.sub_diag. cbn. intros [_ [s [[= <-] F]]]. congruence.
  - constructor; [|exact HI]. rewrite Nat.sub_diag. cbn. intros [F _]. discriminate.
Qed.
Lemma mid_nth e k a b : nth_error e k = Some a -> nth_error e (S k) = Some b -> nth_error (mid_points e) k = Some ((a + b) / 2).
Proof.
  revert k. induction e as [|x [|y r] IH]; intros k Ha Hb; [destruct k; discriminate|destruct k as [|[|]]; discriminate|].
  destruct k as [|k].
  - cbn in Ha, Hb. injection Ha as <-. injection Hb as <-. reflexivity.
  - exact (IH k Ha Hb).
Qed.
Lemma mid_len e : length (mid_points e) = (length e - 1)%nat.
Proof. induction e as [|x [|y r] IH]; [reflexivity|reflexivity|]. change (mid_points (x :: y :: r)) with ((x + y) * / 2 :: mid_points (y :: r)). cbn [length] in *. lia. Qed.
Lemma nth_all_true (l : list R) p : (p < length l)%nat -> nth_error (map (fun _ => true) l) p = Some true.
Proof. revert p. induction l as [|a l IH]; intros [|p] H; cbn in *; try lia; [reflexivity|apply IH; lia]. Qed.
Lemma picked_iff_in {A} (P Q : nat -> Prop) i (l r : list A) : (forall p, (i <= p < i + length l)%nat -> (P p <-> Q p)) -> picked P i l r -> picked Q i l r.
Proof.
  intros H Hp. revert H. induction Hp as [|i x l r Hy Hp IH|i x l r Hn Hp IH]; intros H.
  - constructor.
  - constructor; [apply H; [cbn; lia|exact Hy]|]. apply IH. intros p Hr. apply H. cbn. lia.
  - constructor; [intros F; apply Hn; apply (H i); [cbn; lia|exact F]|]. apply IH. intros p Hr. apply H. cbn. lia.
Qed.
Theorem grid_ok {W} image r_array sizes (stat : list R -> W) mask e :
  length r_array = length image -> (forall m, mask = Some m -> length m = length image) -> (2 <= length e)%nat -> increasing e ->
  exists centers val, bin_grid image r_array sizes stat mask (Some e) = Some (centers, val) /\ rings e image r_array mask stat centers val.
Proof.
  intros HL HM H2 HI. unfold bin_grid. cbn [bind].
  set (m := match mask with Some m => m | None => map (fun _ => true) image end).
  assert (HLm : length m = length image) by (unfold m; destruct mask; [auto|apply map_length]).
  unfold scipy_binned. rewrite (proj2 (rising_iff rlt_b Rlt rlt_ok e) HI).
  rewrite (keep_len m r_array image) by lia. rewrite Nat.eqb_refl.
  replace (2 <=? length e)%nat with true by (symmetry; apply Nat.leb_le; exact H2). cbn [andb bind].
  eexists _, _. split; [reflexivity|]. split; [apply mid_len|]. split; [rewrite map_length, seq_length; reflexivity|].
  intros k a b Ha Hb. split; [apply mid_nth; assumption|].
  assert (Hk : (S k < length e)%nat) by (apply nth_error_Some; congruence).
  eexists. split; [|rewrite nth_error_map_seq by lia; reflexivity].
  eapply picked_iff_in; [|apply (keep_picked (within rle_b rlt_b e (0 + k)) m r_array image 0); lia].
  intros p Hp. cbv beta. rewrite Nat.sub_0_r. cbn [plus]. split.
  - intros [A [s [B C]]]. split; [|exists s; split; [exact B|apply r_within; exact C]]. intros m' E. unfold m in A. rewrite E in A. exact A.
  - intros [A [s [B C]]]. split; [|exists s; split; [exact B|apply r_within; exact C]]. unfold m. destruct mask as [m'|]; [apply A; reflexivity|].
    apply nth_all_true. lia.
Qed.
Lemma fold_min_spec l : forall a, let m := fold_left Rmin l a in (m = a \/ In m l) /\ m <= a /\ forall x, In x l -> m <= x.
Proof.
  induction l as [|b l IH]; intros a; cbn; [split; [left; reflexivity|split; [lra|intros ? []]]|].
  destruct (IH (Rmin a b)) as [H1 [H2 H3]]. pose proof (Rmin_l a b). pose proof (Rmin_r a b). split; [|split].
  - destruct H1 as [H1|H1]; [|right; right; exact H1]. rewrite H1. unfold Rmin. destruct (Rle_dec a b); auto.
  - lra.
  - intros x [<-|Hx]; [lra|auto].
Qed.
Lemma fold_max_spec l : forall a, let m := fold_left Rmax l a in (m = a \/ In m l) /\ a <= m /\ forall x, In x l -> x <= m.
Proof.
  induction l as [|b l IH]; intros a; cbn; [split; [left; reflexivity|split; [lra|intros ? []]]|].
  destruct (IH (Rmax a b)) as [H1 [H2 H3]]. pose proof (Rmax_l a b). pose proof (Rmax_r a b). split; [|split].
  - destruct H1 as [H1|H1]; [|right; right; exact H1]. rewrite H1. unfold Rmax. destruct (Rle_dec a b); auto.
  - lra.
  - intros x [<-|Hx]; [lra|auto].
Qed.
Lemma least_ok l m : least_of l m -> least l = Some m.
Proof.
  intros [Hi Hm]. destruct l as [|a l]; [contradiction|]. cbn. f_equal. destruct (fold_min_spec l a) as [H1 [H2 H3]]. cbv zeta in *.
  assert (In (fold_left Rmin l a) (a :: l)) by (destruct H1 as [->|]; [left; reflexivity|right; assumption]).
  pose proof (Hm _ H). destruct Hi as [<-|Hi]; [lra|]. specialize (H3 m Hi). lra.
Qed.
Lemma greatest_ok l m : greatest_of l m -> greatest l = Some m.
Proof.
  intros [Hi Hm]. destruct l as [|a l]; [contradiction|]. cbn. f_equal. destruct (fold_max_spec l a) as [H1 [H2 H3]]. cbv zeta in *.
  assert (In (fold_left Rmax l a) (a :: l)) by (destruct H1 as [->|]; [left; reflexivity|right; assumption]).
  pose proof (Hm _ H). destruct Hi as [<-|Hi]; [lra|]. specialize (H3 m Hi). lra.
Qed.
Lemma ceil_unique x n : IZR n - 1 < x -> x <= IZR n -> ceil x = n.
Proof.
  intros H1 H2. unfold ceil. destruct (base_Int_part (- x)) as [A B].
  assert (L1 : IZR (Int_part (- x)) < IZR (1 - n)) by (rewrite minus_IZR; lra).
  assert (L2 : IZR (- n - 1) < IZR (Int_part (- x))) by (rewrite minus_IZR, opp_IZR; lra).
  apply lt_IZR in L1, L2. lia.
Qed.
(** the diagonal of a pixel *)
Lemma default_edges {W} image r_array p q (stat : list R -> W) mask lo hi n :
  least_of r_array lo -> greatest_of r_array hi -> let res := sqrt (p * p + q * q) in 0 < res ->
  (INR n - 1) * res < hi - lo -> hi - lo <= INR n * res ->
  exists e, length e = S n /\ (forall k, (k <= n)%nat -> nth_error e k = Some (lo - res / 2 + INR k * res)) /\
    bin_grid image r_array (p, q) stat mask None = bin_grid image r_array (p, q) stat mask (Some e).
Proof.
  intros HL HG res Hr H1 H2. unfold bin_grid. rewrite (least_ok _ _ HL), (greatest_ok _ _ HG). cbn [bind fst snd]. fold res.
  eexists. split; [|split; [|reflexivity]].
  - unfold arange. rewrite map_length, seq_length.
    rewrite (ceil_unique _ (Z.of_nat (S n))); [lia| |]; rewrite <- INR_IZR_INZ, S_INR; first [apply (Rmult_lt_reg_r res)|apply (Rmult_le_reg_r res)]; try assumption;
      unfold Rdiv; rewrite Rmult_assoc, Rinv_l by lra; lra.
  - intros k Hk. unfold arange. rewrite (ceil_unique _ (Z.of_nat (S n))).
    + rewrite nth_error_map_seq by lia. reflexivity.
    + rewrite <- INR_IZR_INZ, S_INR. apply (Rmult_lt_reg_r res); [assumption|]. unfold Rdiv; rewrite Rmult_assoc, Rinv_l by lra; lra.
    + rewrite <- INR_IZR_INZ, S_INR. apply (Rmult_le_reg_r res); [assumption|]. unfold Rdiv; rewrite Rmult_assoc, Rinv_l by lra; lra.
Qed.
(** ** How many pixels are counted *)
Local Open Scope nat_scope.
Lemma list_sum_cons a l : list_sum (a :: l) = a + list_sum l. Proof. reflexivity. Qed.
Lemma sum_swap {A} (P : nat -> A -> bool) ks (l : list A) :
  list_sum (map (fun k => length (filter (P k) l)) ks) = list_sum (map (fun x => length (filter (fun k => P k x) ks)) l).
Proof.
  induction l as [|a l IH].
  - cbn. induction ks as [|k ks IH]; cbn; [reflexivity|exact IH].
  - cbn [map]. rewrite list_sum_cons, <- IH. clear IH.
    induction ks as [|k ks IH]; [reflexivity|]. cbn [map]. rewrite !list_sum_cons, IH. cbn [filter].
    destruct (P k a); cbn [length]; lia.
Qed.
Lemma filter_one (P : nat -> bool) n s k : s <= k < s + n -> P k = true -> (forall j, P j = true -> j = k) -> length (filter P (seq s n)) = 1.
Proof.
  intros Hk HP HU. revert s Hk. induction n as [|n IH]; intros s Hk; [lia|]. cbn [seq filter].
  destruct (P s) eqn:E.
  - assert (s = k) by auto. subst s. cbn [length]. f_equal.
    assert (N : filter P (seq (S k) n) = []); [|rewrite N; reflexivity].
    destruct (filter P (seq (S k) n)) as [|j r] eqn:F; [reflexivity|exfalso].
    assert (Hj : In j (filter P (seq (S k) n))) by (rewrite F; left; reflexivity). apply filter_In in Hj. destruct Hj as [Hj Pj].
    apply in_seq in Hj. apply HU in Pj. lia.
  - apply IH. assert (s <> k) by congruence. lia.
Qed.
Lemma filter_none (P : nat -> bool) l : (forall j, P j = false) -> filter P l = [].
Proof. intros H. induction l as [|a l IH]; cbn; [reflexivity|rewrite H; exact IH]. Qed.
Lemma inj_some {A} (x y : A) : Some x = Some y -> x = y. Proof. congruence. Qed.
Section Steps.
Variables (e : list R) (a s : R) (n : nat).
Hypothesis (Hs : (0 < s)%R) (Hn : length e = S n) (He : forall k, k <= n -> nth_error e k = Some (a + INR k * s)%R).
Lemma step_increasing : increasing e.
Proof.
  intros k u v Hu Hv. assert (S k < length e) by (apply nth_error_Some; congruence).
  rewrite He in Hu, Hv by lia. apply inj_some in Hu, Hv. subst u v. rewrite S_INR. nra.
Qed.
Lemma step_unique k j x : in_ring e k x -> in_ring e j x -> j = k.
Proof.
  assert (W : forall k j, k < j -> in_ring e k x -> in_ring e j x -> False).
  { intros k' j' L [u [v [Hu [Hv [H1 H2]]]]] [u' [v' [Hu' [Hv' [H1' _]]]]].
    assert (S j' < length e) by (apply nth_error_Some; congruence).
    rewrite He in Hu, Hv, Hu', Hv' by lia. apply inj_some in Hu, Hv, Hu', Hv'. subst u v u' v'.
    assert (INR (S k') <= INR j')%R by (apply le_INR; lia).
    destruct H2 as [H2|[_ H2]]; [nra|lia]. }
  intros A B. destruct (Nat.lt_trichotomy k j) as [L|[L|L]]; [exfalso; exact (W _ _ L A B)|congruence|exfalso; exact (W _ _ L B A)].
Qed.
Lemma step_exists x : 1 <= n -> (a <= x)%R -> (x <= a + INR n * s)%R -> exists k, k < n /\ in_ring e k x.
Proof.
  intros H1 HL HR. assert (G : forall j, j <= n -> (x < a + INR j * s)%R -> exists k, k < j /\ in_ring e k x).
  { induction j as [|j IH]; intros Hj Hx; [exfalso; cbn in Hx; lra|].
    destruct (Rlt_dec x (a + INR j * s)) as [L|L].
    - destruct (IH ltac:(lia) L) as [k [Hk HI]]. exists k. split; [lia|exact HI].
    - exists j. split; [lia|]. exists (a + INR j * s)%R, (a + INR (S j) * s)%R. rewrite !He by lia. repeat split; auto; lra. }
  destruct (Rlt_dec x (a + INR n * s)) as [L|L]; [exact (G n (le_n n) L)|].
  exists (n - 1). split; [lia|]. exists (a + INR (n - 1) * s)%R, (a + INR n * s)%R.
  rewrite He by lia. replace (S (n - 1)) with n by lia. rewrite He by lia.
  assert (INR (n - 1) <= INR n)%R by (apply le_INR; lia).
  split; [reflexivity|]. split; [reflexivity|]. split; [nra|]. right. split; [lra|lia].
Qed.
Lemma step_bound k x : in_ring e k x -> (a <= x <= a + INR n * s)%R.
Proof.
  intros [u [v [Hu [Hv [H1 H2]]]]]. assert (S k < length e) by (apply nth_error_Some; congruence).
  rewrite He in Hu, Hv by lia. apply inj_some in Hu, Hv. subst u v.
  assert (0 <= INR k)%R by apply pos_INR. assert (INR (S k) <= INR n)%R by (apply le_INR; lia). destruct H2 as [?|[? _]]; nra.
Qed.
Lemma step_counts l (y : list R) : 1 <= n -> length l = length y ->
  list_sum (map (fun k => length (map snd (filter (fun p => within rle_b rlt_b e k (fst p)) (combine l y)))) (seq 0 (length e - 1)))
  = length (filter (fun x => rle_b a x && rle_b x (a + INR n * s)) l).
Proof.
  intros H1 HL. rewrite Hn. replace (S n - 1) with n by lia.
  transitivity (list_sum (map (fun k => length (filter (fun x => within rle_b rlt_b e k x) l)) (seq 0 n))).
  { f_equal. apply map_ext. intros k. rewrite map_length. revert y HL. induction l as [|x l IH]; intros [|v y] HL; cbn in HL; try discriminate; [reflexivity|].
    injection HL as HL. cbn [combine filter fst]. destruct (within rle_b rlt_b e k x); cbn [length]; rewrite (IH y HL); reflexivity. }
  rewrite sum_swap. clear y HL. induction l as [|x l IH]; [reflexivity|]. cbn [map list_sum fold_right filter].
  fold (list_sum (map (fun x => length (filter (fun k => within rle_b rlt_b e k x) (seq 0 n))) l)). rewrite IH.
  destruct (rle_b a x && rle_b x (a + INR n * s)) eqn:E.
  - apply andb_true_iff in E as [E1 E2]. apply rle_ok in E1, E2. destruct (step_exists x H1 E1 E2) as [k [Hk HI]].
    rewrite (filter_one _ n 0 k); [reflexivity|lia|apply r_within; exact HI|]. intros j Hj. apply r_within in Hj. exact (step_unique k j x HI Hj).
  - rewrite filter_none; [reflexivity|]. intros j. destruct (within rle_b rlt_b e j x) eqn:F; [exfalso|reflexivity].
    apply r_within in F. apply step_bound in F. apply andb_false_iff in E. destruct E as [E|E].
    + assert (rle_b a x = true) by (apply rle_ok; lra). congruence.
    + assert (rle_b x (a + INR n * s) = true) by (apply rle_ok; lra). congruence.
Qed.
End Steps.
Lemma keep_all {A} (l : list A) (l' : list R) : length l = length l' -> keep (map (fun _ => true) l') l = l.
Proof. unfold keep. revert l'. induction l as [|a l IH]; intros [|b l'] H; cbn in *; try discriminate; [reflexivity|]. injection H as H. cbn. rewrite (IH l' H). reflexivity. Qed.
Lemma default_total (image r_array : list R) (p q lo hi : R) (n : nat) :
  least_of r_array lo -> greatest_of r_array hi -> length r_array = length image ->
  let res := sqrt (p * p + q * q) in (0 < res -> (1 <= n)%nat ->
  (INR n - 1) * res < hi - lo -> hi - lo <= INR n * res ->
  exists centers val, bin_grid image r_array (p, q) (@length R) None None = Some (centers, val) /\
    list_sum val = length (filter (fun x => rle_b (lo - res / 2) x && rle_b x (lo - res / 2 + INR n * res)) r_array))%R.
Proof.
  intros HL HG HN res Hr Hn H1 H2.
  destruct (default_edges image r_array p q (@length R) None lo hi n HL HG Hr H1 H2) as [e [L1 [L2 E]]]. fold res in L2.
  rewrite E. pose proof (step_increasing e (lo - res / 2) res n Hr L1 L2) as HI.
  unfold bin_grid. cbn [bind]. unfold scipy_binned. rewrite (proj2 (rising_iff rlt_b Rlt rlt_ok e) HI).
  rewrite !keep_all by congruence. rewrite HN, Nat.eqb_refl. replace (2 <=? length e) with true by (symmetry; apply Nat.leb_le; lia).
  cbn [andb bind]. eexists _, _. split; [reflexivity|]. apply (step_counts e (lo - res / 2) res n Hr L1 L2 r_array image Hn HN).
Qed.
Lemma filter_all {A} (P : A -> bool) l : (forall x, In x l -> P x = true) -> filter P l = l.
Proof. intros H. induction l as [|a l IH]; cbn; [reflexivity|]. rewrite (H a) by (left; reflexivity). f_equal. apply IH. intros x Hx. apply H. right. exact Hx. Qed.
Lemma filter_le {A} (P : A -> bool) l : length (filter P l) <= length l.
Proof. induction l as [|a l IH]; cbn; [lia|]. destruct (P a); cbn; lia. Qed.
Lemma filter_loses {A} (P : A -> bool) l x : In x l -> P x = false -> length (filter P l) < length l.
Proof.
  intros Hi Hp. induction l as [|a l IH]; [contradiction|]. cbn. destruct Hi as [->|Hi].
  - rewrite Hp. pose proof (filter_le P l). lia.
  - specialize (IH Hi). destruct (P a); cbn; lia.
Qed.
Theorem default_complete (image r_array : list R) (p q lo hi : R) (n : nat) :
  least_of r_array lo -> greatest_of r_array hi -> length r_array = length image ->
  let res := sqrt (p * p + q * q) in (0 < res -> (1 <= n)%nat ->
  (INR n - 1) * res < hi - lo -> hi - lo <= INR n * res ->
  exists centers val, bin_grid image r_array (p, q) (@length R) None None = Some (centers, val) /\
    (hi - lo <= (INR n - / 2) * res -> list_sum val = length image) /\
    ((INR n - / 2) * res < hi - lo -> (list_sum val < length image)%nat))%R.
Proof.
  intros HL HG HN res Hr Hn H1 H2. destruct (default_total image r_array p q lo hi n HL HG HN Hr Hn H1 H2) as [c [v [E S]]]. fold res in S.
  exists c, v. split; [exact E|]. rewrite S, <- HN. destruct HL as [L1 L2]. destruct HG as [G1 G2]. split; intros H.
  - rewrite filter_all; [reflexivity|]. intros x Hx. specialize (L2 x Hx). specialize (G2 x Hx).
    apply andb_true_iff. rewrite !rle_ok. split; lra.
  - apply (filter_loses _ r_array hi G1). apply andb_false_iff. right.
    destruct (rle_b hi (lo - res / 2 + INR n * res)) eqn:F; [exfalso|reflexivity]. apply rle_ok in F. lra.
Qed.
Theorem flat_raises {W} image r_array p q (stat : list R -> W) mask lo :
  least_of r_array lo -> greatest_of r_array lo -> (0 < sqrt (p * p + q * q))%R -> bin_grid image r_array (p, q) stat mask None = None.
Proof.
  intros HL HG Hr. destruct (default_edges image r_array p q stat mask lo lo 0 HL HG Hr) as [e [L1 [_ E]]]; [cbn; lra|cbn; lra|].
  rewrite E. unfold bin_grid. cbn [bind]. unfold scipy_binned. rewrite L1. reflexivity.
Qed.
