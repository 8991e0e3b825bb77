(* Running averages in binary64: each update stays between the old average and the new value; accumulated rounding error. *)
From Coq Require Import List ZArith Reals Lia Lra Bool.
From Verif Require Import F64 RunMean_Model.
From Flocq Require Import Core Relative Plus_error Mult_error.
Import ListNotations.
Open Scope R_scope.

Notation u53 := (bpow radix2 (-53)).
Notation eta := (bpow radix2 (-1074)).

(** ** One update on real numbers *)
Definition quot (m x : R) (k : Z) : R := rnd (rnd (x - m) / IZR k).
Definition stepR (m : R) (k : Z) (x : R) : R := rnd (m + quot m x k).

Lemma rnd_opp x : rnd (- x) = - rnd x.
Proof. apply round_NE_opp. Qed.
Lemma rnd_double x : 0 <= x -> rnd x <= 2 * x.
Proof.
  intros H. destruct (round_N_pt radix2 fmt (fun z => negb (Z.even z)) x) as [_ N].
  specialize (N 0 F64_0). rewrite !(Rabs_minus_sym _ x) in N. change (Rabs (x - rnd x) <= Rabs (x - 0)) in N.
  rewrite Rminus_0_r, (Rabs_pos_eq x H) in N. apply Rabs_le_inv in N. lra.
Qed.
Lemma rnd_pos x : 0 <= x -> 0 <= rnd x.
Proof. intros H. apply rnd_ge; [apply F64_0|exact H]. Qed.
Lemma half_F64 d : F64 d -> bpow radix2 (-1021) <= d -> F64 (d / 2).
Proof.
  intros F B. replace (d / 2) with (d * bpow radix2 (-1)) by (cbn; lra).
  apply mult_bpow_exact_FLT; [exact F|].
  assert (-1021 < mag radix2 d)%Z.
  { apply mag_gt_bpow. rewrite Rabs_pos_eq; [exact B|]. pose proof (bpow_gt_0 radix2 (-1021)). lra. }
  lia.
Qed.

Lemma quot_between m x k : F64 m -> F64 x -> m <= x -> (2 <= k)%Z -> 0 <= quot m x k <= x - m.
Proof.
  intros Fm Fx L K. unfold quot. assert (K2 : 2 <= IZR k) by (apply IZR_le in K; exact K).
  assert (D0 : 0 <= rnd (x - m)) by (apply rnd_pos; lra).
  assert (Dk : 0 <= rnd (x - m) / IZR k) by (apply Rmult_le_pos; [exact D0|left; apply Rinv_0_lt_compat; lra]).
  assert (Dk2 : rnd (x - m) / IZR k <= rnd (x - m) / 2).
  { unfold Rdiv. apply Rmult_le_compat_l; [exact D0|]. apply Rinv_le; lra. }
  split; [apply rnd_pos, Dk|].
  destruct (Rle_or_lt (bpow radix2 (-1021)) (rnd (x - m))) as [B|B].
  - apply Rle_trans with (rnd (x - m) / 2).
    + apply rnd_le_g; [apply half_F64; [apply generic_format_round; typeclasses eauto|exact B]|exact Dk2].
    + pose proof (rnd_double (x - m)). lra.
  - assert (S : Rabs (x + - m) <= bpow radix2 (53 + -1074)).
    { rewrite Rabs_pos_eq by lra. change (53 + -1074)%Z with (-1021)%Z. destruct (Rle_or_lt (x + - m) (bpow radix2 (-1021))) as [A|A]; [exact A|].
      exfalso. assert (bpow radix2 (-1021) <= rnd (x - m)); [|lra]. apply rnd_ge; [apply generic_format_bpow; cbv; discriminate|lra]. }
    assert (E : rnd (x - m) = x - m). { apply rnd_id. apply (FLT_format_plus_small radix2 (-1074) 53 x (- m)); [exact Fx|apply generic_format_opp, Fm|exact S]. }
    rewrite E in *. apply rnd_le_g; [|lra]. rewrite <- E. apply generic_format_round; typeclasses eauto.
Qed.
Lemma quot_opp m x k : quot (- m) (- x) k = - quot m x k.
Proof. unfold quot. replace (- x - - m) with (- (x - m)) by ring. rewrite rnd_opp. unfold Rdiv. rewrite Ropp_mult_distr_l_reverse. apply rnd_opp. Qed.
Lemma step_opp m x k : stepR (- m) k (- x) = - stepR m k x.
Proof. unfold stepR. rewrite quot_opp. replace (- m + - quot m x k) with (- (m + quot m x k)) by ring. apply rnd_opp. Qed.
Lemma step_up m x k : F64 m -> F64 x -> m <= x -> (2 <= k)%Z -> m <= stepR m k x <= x.
Proof.
  intros Fm Fx L K. pose proof (quot_between m x k Fm Fx L K) as Q. unfold stepR. split.
  - apply rnd_ge; [exact Fm|lra].
  - apply rnd_le_g; [exact Fx|lra].
Qed.
Lemma step_down m x k : F64 m -> F64 x -> x <= m -> (2 <= k)%Z -> x <= stepR m k x <= m.
Proof.
  intros Fm Fx L K. pose proof (step_up (- m) (- x) k) as H. rewrite step_opp in H.
  specialize (H (generic_format_opp _ _ _ Fm) (generic_format_opp _ _ _ Fx) ltac:(lra) K). lra.
Qed.
Lemma step_range m x k lo hi : F64 m -> F64 x -> lo <= m <= hi -> lo <= x <= hi -> (2 <= k)%Z -> lo <= stepR m k x <= hi.
Proof.
  intros Fm Fx Bm Bx K. destruct (Rle_or_lt m x) as [L|L].
  - pose proof (step_up m x k Fm Fx L K). lra.
  - pose proof (step_down m x k Fm Fx ltac:(lra) K). lra.
Qed.
Lemma step_first x : F64 x -> stepR 0 1 x = x.
Proof.
  intros F. unfold stepR, quot. rewrite Rminus_0_r, (rnd_id x F). replace (x / 1) with x by field. rewrite (rnd_id x F), Rplus_0_l. apply rnd_id, F.
Qed.
(** m + q stays between too *)
Lemma sum_range m x k B : F64 m -> F64 x -> Rabs m <= B -> Rabs x <= B -> (2 <= k)%Z -> Rabs (m + quot m x k) <= B.
Proof.
  intros Fm Fx Bm Bx K. apply Rabs_le_inv in Bm, Bx. apply Rabs_le. destruct (Rle_or_lt m x) as [L|L].
  - pose proof (quot_between m x k Fm Fx L K). lra.
  - pose proof (quot_between (- m) (- x) k (generic_format_opp _ _ _ Fm) (generic_format_opp _ _ _ Fx) ltac:(lra) K) as Q.
    rewrite quot_opp in Q. lra.
Qed.

(** ** The rounding error of one update *)
Lemma plus_err a b : F64 a -> F64 b -> exists e, Rabs e <= u53 /\ rnd (a + b) = (a + b) * (1 + e).
Proof.
  intros Fa Fb. destruct (FLT_plus_error_N_ex radix2 (-1074) 53 (fun z => negb (Z.even z)) a b Fa Fb) as (e & E1 & E2).
  exists e. split; [|exact E2]. refine (Rle_trans _ _ _ E1 _).
  assert (U : u_ro radix2 53 = u53). { unfold u_ro. change (/ 2) with (bpow radix2 (-1)). rewrite <- bpow_plus. reflexivity. }
  rewrite U. assert (0 < u53) by apply bpow_gt_0. apply (Rmult_le_reg_r (1 + u53)); [lra|]. unfold Rdiv. rewrite Rmult_assoc, Rinv_l by lra. nra.
Qed.
Lemma rnd_err y : Rabs (rnd y - y) <= u53 * Rabs y + eta / 2.
Proof.
  destruct (error_N_FLT radix2 (-1074) 53 ltac:(lia) (fun z => negb (Z.even z)) y) as (e & t & E1 & E2 & _ & E).
  change (round radix2 fmt (Znearest (fun z => negb (Z.even z))) y) with (rnd y) in E. rewrite E.
  replace (y * (1 + e) + t - y) with (e * y + t) by ring.
  refine (Rle_trans _ _ _ (Rabs_triang _ _) _). apply Rplus_le_compat.
  - rewrite Rabs_mult. apply Rmult_le_compat_r; [apply Rabs_pos|]. refine (Rle_trans _ _ _ E1 _).
    right. change (/ 2) with (bpow radix2 (-1)). rewrite <- bpow_plus. reflexivity.
  - lra.
Qed.
Lemma step_err m x k B : F64 m -> F64 x -> Rabs m <= B -> Rabs x <= B -> (2 <= k)%Z ->
  Rabs (stepR m k x - (m + (x - m) / IZR k)) <= u53 * B + 5 * u53 * B / IZR k + eta / 2.
Proof.
  intros Fm Fx Bm Bx K. assert (K2 : 2 <= IZR k) by (apply IZR_le in K; exact K).
  assert (U : 0 < u53) by apply bpow_gt_0. assert (U1 : u53 <= / 8). { change (/ 8) with (bpow radix2 (-3)). apply bpow_le. lia. }
  assert (B0 : 0 <= B) by (pose proof (Rabs_pos m); lra).
  assert (Fq : F64 (quot m x k)) by (apply generic_format_round; typeclasses eauto).
  destruct (plus_err m (quot m x k) Fm Fq) as (e3 & H3 & E3).
  destruct (plus_err x (- m) Fx (generic_format_opp _ _ _ Fm)) as (e1 & H1 & E1). change (x + - m) with (x - m) in E1.
  pose proof (sum_range m x k B Fm Fx Bm Bx K) as S.
  assert (D : Rabs (x - m) <= 2 * B). { apply Rabs_le_inv in Bm, Bx. apply Rabs_le. lra. }
  (* the last addition *)
  assert (A3 : Rabs (stepR m k x - (m + quot m x k)) <= u53 * B).
  { unfold stepR. rewrite E3. replace ((m + quot m x k) * (1 + e3) - (m + quot m x k)) with (e3 * (m + quot m x k)) by ring.
    rewrite Rabs_mult. apply Rmult_le_compat; auto using Rabs_pos. }
  (* the quotient *)
  pose proof (rnd_err (rnd (x - m) / IZR k)) as A2. fold (quot m x k) in A2.
  assert (Ik : 0 < / IZR k) by (apply Rinv_0_lt_compat; lra).
  assert (A1 : Rabs (rnd (x - m) / IZR k - (x - m) / IZR k) <= 2 * u53 * B / IZR k).
  { rewrite E1. replace ((x - m) * (1 + e1) / IZR k - (x - m) / IZR k) with (e1 * (x - m) * / IZR k) by (unfold Rdiv; ring).
    rewrite !Rabs_mult, (Rabs_pos_eq (/ IZR k)) by lra. unfold Rdiv. apply Rmult_le_compat_r; [lra|].
    replace (2 * u53 * B) with (u53 * (2 * B)) by ring. apply Rmult_le_compat; auto using Rabs_pos. }
  assert (A0 : Rabs (rnd (x - m) / IZR k) <= 3 * B / IZR k).
  { unfold Rdiv at 1. rewrite E1, !Rabs_mult, (Rabs_pos_eq (/ IZR k)) by lra. unfold Rdiv. apply Rmult_le_compat_r; [lra|].
    assert (Rabs (1 + e1) <= 3 / 2). { apply Rabs_le. apply Rabs_le_inv in H1. lra. }
    replace (3 * B) with (2 * B * (3 / 2)) by lra. apply Rmult_le_compat; auto using Rabs_pos. }
  assert (A2' : u53 * Rabs (rnd (x - m) / IZR k) <= 3 * u53 * B / IZR k).
  { replace (3 * u53 * B / IZR k) with (u53 * (3 * B / IZR k)) by (unfold Rdiv; ring). apply Rmult_le_compat_l; lra. }
  replace (stepR m k x - (m + (x - m) / IZR k)) with
    ((stepR m k x - (m + quot m x k)) + ((quot m x k - rnd (x - m) / IZR k) + (rnd (x - m) / IZR k - (x - m) / IZR k))) by ring.
  refine (Rle_trans _ _ _ (Rabs_triang _ _) _). pose proof (Rabs_triang (quot m x k - rnd (x - m) / IZR k) (rnd (x - m) / IZR k - (x - m) / IZR k)) as T.
  replace (5 * u53 * B / IZR k) with (3 * u53 * B / IZR k + 2 * u53 * B / IZR k) by (unfold Rdiv; ring). lra.
Qed.

(** ** The updates of the model *)
Lemma bound1022 y : Rabs y <= bpow radix2 1023 -> Rabs (rnd y) < bpow radix2 1024.
Proof.
  intros H. apply Rle_lt_trans with (bpow radix2 1023); [|apply bpow_lt; lia].
  assert (F : F64 (bpow radix2 1023)) by (apply generic_format_bpow; cbv; discriminate).
  apply Rabs_le. apply Rabs_le_inv in H. split; [apply rnd_ge; [apply generic_format_opp, F|lra]|apply rnd_le_g; [exact F|lra]].
Qed.
Lemma update_ok m x k : fin m -> fin x -> Rabs (B2R m) <= bpow radix2 1022 -> Rabs (B2R x) <= bpow radix2 1022 -> (1 <= k <= 2 ^ 53)%Z ->
  (k = 1%Z -> B2R m = 0) -> B2R (update m k x) = stepR (B2R m) k (B2R x) /\ fin (update m k x).
Proof.
  intros Fm Fx Bm Bx K K1. unfold update, stepR, quot.
  assert (T : bpow radix2 1023 = 2 * bpow radix2 1022) by (change 1023%Z with (1 + 1022)%Z; rewrite bpow_plus; reflexivity).
  assert (D : Rabs (B2R x - B2R m) <= bpow radix2 1023). { apply Rabs_le_inv in Bm, Bx. apply Rabs_le. lra. }
  destruct (f64_of_Z_ok k ltac:(lia)) as [Ek Fk].
  destruct (fsub_ok x m Fx Fm (bound1022 _ D)) as (Es & Fs & _).
  assert (K1' : 1 <= IZR k) by (apply IZR_le; lia).
  assert (D' : Rabs (rnd (B2R x - B2R m)) <= bpow radix2 1023).
  { assert (F : F64 (bpow radix2 1023)) by (apply generic_format_bpow; cbv; discriminate).
    apply Rabs_le. apply Rabs_le_inv in D. split; [apply rnd_ge; [apply generic_format_opp, F|lra]|apply rnd_le_g; [exact F|lra]]. }
  assert (Q : Rabs (rnd (B2R x - B2R m) / IZR k) <= bpow radix2 1023).
  { unfold Rdiv. rewrite Rabs_mult, (Rabs_pos_eq (/ IZR k)) by (left; apply Rinv_0_lt_compat; lra).
    rewrite <- (Rmult_1_r (bpow radix2 1023)). apply Rmult_le_compat; auto using Rabs_pos; [left; apply Rinv_0_lt_compat; lra|].
    rewrite <- Rinv_1. apply Rinv_le; lra. }
  destruct (fdiv_ok (fsub x m) (f64_of_Z k) Fs) as [Ed Fd].
  { rewrite Ek. lra. }
  { rewrite Es, Ek. apply bound1022, Q. }
  rewrite Es, Ek in Ed.
  destruct (fadd_ok m (fdiv (fsub x m) (f64_of_Z k)) Fm Fd) as [Ea Fa].
  { rewrite Ed. apply bound1022. fold (quot (B2R m) (B2R x) k). destruct (Z.eq_dec k 1) as [->|N].
    - rewrite (K1 eq_refl). unfold quot. rewrite Rminus_0_r, (rnd_id _ (B2R_format x)). replace (B2R x / 1) with (B2R x) by field.
      rewrite (rnd_id _ (B2R_format x)), Rplus_0_l. pose proof (bpow_gt_0 radix2 1022). lra.
    - apply Rle_trans with (bpow radix2 1022); [|pose proof (bpow_gt_0 radix2 1022); lra].
      apply sum_range; auto using B2R_format. lia. }
  rewrite Ed in Ea. split; [exact Ea|exact Fa].
Qed.

Definition rsum (l : list f64) : R := fold_right (fun x s => B2R x + s) 0 l.

(** invariant over the rest of the data, starting at divisor k >= 2 *)
Lemma updates_range : forall data m k lo hi, (2 <= k)%Z -> (k + Z.of_nat (length data) <= 2 ^ 53)%Z ->
  - bpow radix2 1022 <= lo -> hi <= bpow radix2 1022 -> fin m -> lo <= B2R m <= hi ->
  (forall x, In x data -> fin x /\ lo <= B2R x <= hi) -> fin (updates m k data) /\ lo <= B2R (updates m k data) <= hi.
Proof.
  induction data as [|x data IH]; intros m k lo hi K L Lo Hi Fm Bm D; [cbn; auto|].
  destruct (D x (or_introl eq_refl)) as [Fx Bx]. cbn [updates].
  destruct (update_ok m x k Fm Fx) as [E F]; [apply Rabs_le; lra|apply Rabs_le; lra|cbn [length] in L; lia|lia|].
  apply IH; auto; [lia|cbn [length] in L; lia| |intros y I; apply D; right; exact I].
  rewrite E. apply step_range; auto using B2R_format.
Qed.
Lemma updates_error : forall data m k B s, (2 <= k)%Z -> (k + Z.of_nat (length data) <= 2 ^ 53)%Z -> B <= bpow radix2 1022 ->
  fin m -> Rabs (B2R m) <= B -> (forall x, In x data -> fin x /\ Rabs (B2R x) <= B) ->
  let n := IZR (k - 1) in let e k := k * ((k + 11) / 2 * u53 * B + (k + 1) / 4 * eta) in
  Rabs (n * B2R m - s) <= e n ->
  let n' := IZR (k - 1 + Z.of_nat (length data)) in
  Rabs (n' * B2R (updates m k data) - (s + rsum data)) <= e n'.
Proof.
  induction data as [|x data IH]; intros m k B s K L HB Fm Bm D n e H n'.
  - subst n'. cbn [length updates rsum fold_right]. replace (k - 1 + Z.of_nat 0)%Z with (k - 1)%Z by lia. rewrite Rplus_0_r. exact H.
  - destruct (D x (or_introl eq_refl)) as [Fx Bx]. cbn [updates].
    destruct (update_ok m x k Fm Fx) as [E F]; [lra|lra|cbn [length] in L; lia|lia|].
    pose proof (step_err (B2R m) (B2R x) k B (B2R_format m) (B2R_format x) Bm Bx K) as S. rewrite <- E in S.
    assert (K2 : 2 <= IZR k) by (apply IZR_le in K; exact K).
    assert (B0 : 0 <= B) by (pose proof (Rabs_pos (B2R m)); lra).
    specialize (IH (update m k x) (k + 1)%Z B (s + B2R x) ltac:(lia) ltac:(cbn [length] in L; lia) HB F).
    cbn [length rsum fold_right] in *. replace (k + 1 - 1 + Z.of_nat (length data))%Z with (k - 1 + Z.of_nat (Datatypes.S (length data)))%Z in IH by lia.
    replace (k + 1 - 1)%Z with k in IH by lia. fold n' in IH.
    change (fold_right (fun x s => B2R x + s) 0 data) with (rsum data).
    replace (s + (B2R x + rsum data)) with (s + B2R x + rsum data) by ring. apply IH.
    + rewrite E. apply Rabs_le. apply Rabs_le_inv in Bm, Bx. apply step_range; auto using B2R_format.
    + intros y I. apply D. right. exact I.
    + subst n e. cbn beta in *. rewrite minus_IZR in H. set (kk := IZR k) in *. clearbody kk. clear IH E.
      set (v := B2R (update m k x)) in *. clearbody v. set (mm := B2R m) in *. clearbody mm. set (xx := B2R x) in *. clearbody xx.
      replace (kk * v - (s + xx)) with (((kk - 1) * mm - s) + kk * (v - (mm + (xx - mm) / kk))) by (field; lra).
      refine (Rle_trans _ _ _ (Rabs_triang _ _) _). rewrite Rabs_mult, (Rabs_pos_eq kk) by lra.
      assert (S' : kk * Rabs (v - (mm + (xx - mm) / kk)) <= kk * (u53 * B) + 5 * u53 * B + kk * (eta / 2)).
      { apply Rle_trans with (kk * (u53 * B + 5 * u53 * B / kk + eta / 2)); [apply Rmult_le_compat_l; lra|]. right. field. lra. }
      assert (U : 0 < u53) by apply bpow_gt_0. assert (T : 0 < eta) by apply bpow_gt_0.
      set (uB := u53 * B) in *. assert (0 <= uB) by (unfold uB; nra).
      replace (kk * ((kk + 11) / 2 * u53 * B + (kk + 1) / 4 * eta)) with (kk * (kk + 11) / 2 * uB + kk * (kk + 1) / 4 * eta) by (unfold uB; field).
      replace ((kk - 1) * ((kk - 1 + 11) / 2 * u53 * B + (kk - 1 + 1) / 4 * eta)) with ((kk - 1) * (kk + 10) / 2 * uB + (kk - 1) * kk / 4 * eta) in H by (unfold uB; field).
      replace (5 * u53 * B) with (5 * uB) in S' by (unfold uB; ring).
      nra.
Qed.

(** ** The running mean *)
Lemma first_update x : fin x -> Rabs (B2R x) <= bpow radix2 1022 -> B2R (update fzero 1 x) = B2R x /\ fin (update fzero 1 x).
Proof.
  intros F B. destruct (update_ok fzero x 1) as [E F']; [reflexivity|exact F| |exact B|lia|reflexivity|].
  - change (B2R fzero) with 0. rewrite Rabs_R0. apply bpow_ge_0.
  - split; [|exact F']. rewrite E. change (B2R fzero) with 0. apply step_first, B2R_format.
Qed.
Lemma mean_range data lo hi : data <> [] -> (Z.of_nat (length data) < 2 ^ 53)%Z -> - bpow radix2 1022 <= lo -> hi <= bpow radix2 1022 ->
  (forall x, In x data -> fin x /\ lo <= B2R x <= hi) -> fin (running_mean data) /\ lo <= B2R (running_mean data) <= hi.
Proof.
  intros N L Lo Hi D. destruct data as [|x data]; [contradiction|]. unfold running_mean. cbn [updates].
  destruct (D x (or_introl eq_refl)) as [Fx Bx]. destruct (first_update x Fx) as [E F]; [apply Rabs_le; lra|].
  apply updates_range; auto; [lia|cbn [length] in L; lia|rewrite E; exact Bx|intros y I; apply D; right; exact I].
Qed.
Lemma mean_error data B : data <> [] -> (Z.of_nat (length data) < 2 ^ 53)%Z -> B <= bpow radix2 1022 ->
  (forall x, In x data -> fin x /\ Rabs (B2R x) <= B) ->
  let n := INR (length data) in
  Rabs (B2R (running_mean data) - rsum data / n) <= (n + 11) / 2 * u53 * B + (n + 1) / 4 * eta.
Proof.
  intros N L HB D n. destruct data as [|x data]; [contradiction|]. unfold running_mean in *. cbn [updates].
  destruct (D x (or_introl eq_refl)) as [Fx Bx]. destruct (first_update x Fx ltac:(lra)) as [E F].
  assert (B0 : 0 <= B) by (pose proof (Rabs_pos (B2R x)); lra).
  assert (U : 0 < u53) by apply bpow_gt_0. assert (T : 0 < eta) by apply bpow_gt_0.
  pose proof (updates_error data (update fzero 1 x) (1 + 1) B (B2R x) ltac:(lia) ltac:(cbn [length] in L; lia) HB F) as G.
  cbn zeta in G. replace (1 + 1 - 1)%Z with 1%Z in G by lia. replace (1 + Z.of_nat (length data))%Z with (Z.of_nat (S (length data))) in G by lia.
  rewrite <- INR_IZR_INZ in G. change (S (length data)) with (length (x :: data)) in G. fold n in G.
  assert (H : Rabs (n * B2R (updates (update fzero 1 x) (1 + 1) data) - rsum (x :: data)) <= n * ((n + 11) / 2 * u53 * B + (n + 1) / 4 * eta)).
  { apply G; [rewrite E; exact Bx|intros y I; apply D; right; exact I|].
    rewrite E. replace (1 * B2R x - B2R x) with 0 by ring. rewrite Rabs_R0.
    assert (0 <= u53 * B) by (apply Rmult_le_pos; lra). replace ((1 + 11) / 2 * u53 * B) with (6 * (u53 * B)) by field. lra. }
  assert (P : 0 < n) by (unfold n; apply lt_0_INR; cbn [length]; lia).
  apply (Rmult_le_reg_l n); [exact P|]. rewrite <- (Rabs_pos_eq n) at 1 by lra. rewrite <- Rabs_mult.
  replace (n * (B2R (updates (update fzero 1 x) (1 + 1) data) - rsum (x :: data) / n)) with (n * B2R (updates (update fzero 1 x) (1 + 1) data) - rsum (x :: data)) by (field; lra).
  exact H.
Qed.
