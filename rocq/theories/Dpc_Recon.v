From Coq Require Import Reals Lia.
From Verif Require Import Common QcArith Utils_Model Utils_Proofs Dpc_Model Dpc_Spec.
From Coq Require Import Lra.
Local Open Scope R_scope.

Lemma shift_back n k : (k < n)%nat -> (((k + n / 2) mod n + (n - n / 2)) mod n = k)%nat.
Proof.
  intros H. rewrite Nat.add_mod_idemp_l by lia. assert (n / 2 <= n)%nat by (apply Nat.div_le_upper_bound; lia).
  replace (k + n / 2 + (n - n / 2))%nat with (k + 1 * n)%nat by lia. rewrite Nat.mod_add by lia. apply Nat.mod_small. exact H.
Qed.
Lemma axis_wave n step k : (k < n)%nat -> axis n step ((k + n / 2) mod n) = wave n step k.
Proof.
  intros H. unfold axis, wave. cbv zeta. f_equal. f_equal. f_equal. unfold freq.
  destruct (2 * k <? n)%nat eqn:E.
  - rewrite Nat.mod_small by lia. lia.
  - replace ((k + n / 2) mod n)%nat with (k + n / 2 - n)%nat; [lia|]. apply (Nat.mod_unique _ _ 1); lia.
Qed.
Definition lost (n m : nat) (xs ys w : R) (k l : nat) : Prop := wave m xs l ^ 2 * (1 - w) + wave n ys k ^ 2 * w = 0.

Theorem recon_ok F Fi rows cols gx gy xs ys padding w (P : arr) :
  let n := (rows * (2 * padding + 1))%nat in let m := (cols * (2 * padding + 1))%nat in
  (forall a b, (forall k l, (k < n)%nat -> (l < m)%nat -> a k l = b k l) -> forall i j, (i < n)%nat -> (j < m)%nat -> Fi n m a i j = Fi n m b i j) ->
  (forall k l, (k < n)%nat -> (l < m)%nat -> F n m (padded rows cols padding gx) k l = jmul (wave m xs l) (P k l)) ->
  (forall k l, (k < n)%nat -> (l < m)%nat -> F n m (padded rows cols padding gy) k l = jmul (wave n ys k) (P k l)) ->
  forall Q : arr, (forall k l, (k < n)%nat -> (l < m)%nat -> (lost n m xs ys w k l -> Q k l = (0, 0)) /\ (~ lost n m xs ys w k l -> Q k l = P k l)) ->
  forall i j, (i < rows)%nat -> (j < cols)%nat ->
  recon F Fi rows cols gx gy xs ys padding w i j = fst (Fi n m Q (i + padding * rows)%nat (j + padding * cols)%nat).
Proof.
  cbv zeta. set (n := (rows * (2 * padding + 1))%nat). set (m := (cols * (2 * padding + 1))%nat). intros HF Hx Hy Q HQ i j Hi Hj.
  unfold recon. cbv zeta. fold n m. f_equal. apply HF; [|unfold n; nia|unfold m; nia].
  intros k l Hk Hl. unfold ifftshift, fftshift. rewrite !shift_back by assumption. rewrite !axis_wave by assumption.
  destruct (HQ k l Hk Hl) as [Q1 Q2]. unfold lost in Q1, Q2. rewrite Hx, Hy by assumption.
  destruct (Req_EM_T _ 0) as [E|N].
  - symmetry. apply Q1. exact E.
  - rewrite Q2 by exact N. destruct (P k l) as [p q]. unfold cscale, mjmul, cadd, jmul. cbn [fst snd]. f_equal; field; exact N.
Qed.

(** Which components are lost. *)
Lemma wave_zero n step k : (k < n)%nat -> step <> 0 -> wave n step k = 0 <-> k = 0%nat.
Proof.
  intros H Hs. unfold wave. assert (Hn : INR n <> 0) by (apply not_0_INR; lia). split.
  - intros E. assert (E2 : IZR (freq n k) = 0).
    { assert (P : 2 * PI <> 0) by (pose proof PI_RGT_0; lra). apply (Rmult_eq_reg_l (2 * PI / (INR n * step))).
      - rewrite Rmult_0_r. rewrite <- E. field. auto.
      - unfold Rdiv. apply Rmult_integral_contrapositive_currified; [exact P|]. apply Rinv_neq_0_compat. apply Rmult_integral_contrapositive_currified; assumption. }
    apply eq_IZR in E2. unfold freq in E2. destruct (2 * k <? n)%nat eqn:E3; lia.
  - intros ->. unfold freq. replace (2 * 0 <? n)%nat with true by (symmetry; apply Nat.ltb_lt; lia). cbn. unfold Rdiv. ring.
Qed.
Theorem lost_iff n m xs ys w k l : xs <> 0 -> ys <> 0 -> 0 <= w <= 1 -> (k < n)%nat -> (l < m)%nat ->
  lost n m xs ys w k l <-> (l = 0%nat \/ w = 1) /\ (k = 0%nat \/ w = 0).
Proof.
  intros Hx Hy Hw Hk Hl. unfold lost. rewrite <- (wave_zero m xs l) by assumption. rewrite <- (wave_zero n ys k) by assumption.
  set (a := wave m xs l). set (b := wave n ys k). clearbody a b. split.
  - intros E. assert (E1 : a ^ 2 * (1 - w) = 0) by nra. assert (E2 : b ^ 2 * w = 0) by nra. split.
    + apply Rmult_integral in E1. destruct E1 as [E1|E1]; [left; nra|right; lra].
    + apply Rmult_integral in E2. destruct E2 as [E2|E2]; [left; nra|right; lra].
  - intros [[-> | ->] [-> | E]]; subst; try ring; try nra; lra.
Qed.

(** The whole picture: for an inverse transform that is additive, the phase comes back
    up to the component at frequency zero. *)
Theorem recon_phase F Fi rows cols gx gy xs ys padding w (phi : nat -> nat -> R) :
  let n := (rows * (2 * padding + 1))%nat in let m := (cols * (2 * padding + 1))%nat in
  (forall a b, (forall k l, (k < n)%nat -> (l < m)%nat -> a k l = b k l) -> forall i j, (i < n)%nat -> (j < m)%nat -> Fi n m a i j = Fi n m b i j) ->
  (forall a b i j, (i < n)%nat -> (j < m)%nat -> Fi n m (fun k l => cadd (a k l) (b k l)) i j = cadd (Fi n m a i j) (Fi n m b i j)) ->
  (forall z, exists c, forall i j, (i < n)%nat -> (j < m)%nat -> Fi n m (fun k l => if ((k =? 0) && (l =? 0))%nat then z else (0, 0)) i j = c) ->
  (forall i j, (i < n)%nat -> (j < m)%nat -> Fi n m (F n m (fun i j => (phi i j, 0))) i j = (phi i j, 0)) ->
  (forall k l, (k < n)%nat -> (l < m)%nat -> F n m (padded rows cols padding gx) k l = jmul (wave m xs l) (F n m (fun i j => (phi i j, 0)) k l)) ->
  (forall k l, (k < n)%nat -> (l < m)%nat -> F n m (padded rows cols padding gy) k l = jmul (wave n ys k) (F n m (fun i j => (phi i j, 0)) k l)) ->
  xs <> 0 -> ys <> 0 -> 0 < w < 1 ->
  exists c, forall i j, (i < rows)%nat -> (j < cols)%nat ->
  recon F Fi rows cols gx gy xs ys padding w i j = phi (i + padding * rows)%nat (j + padding * cols)%nat - c.
Proof.
  cbv zeta. set (n := (rows * (2 * padding + 1))%nat). set (m := (cols * (2 * padding + 1))%nat). intros HF HA HC HI Hx Hy Nx Ny Hw.
  set (P := F n m (fun i j => (phi i j, 0))) in *.
  set (Q := fun k l => if ((k =? 0) && (l =? 0))%nat then (0, 0) else P k l).
  set (D := fun k l : nat => if ((k =? 0) && (l =? 0))%nat then P 0%nat 0%nat else (0, 0)).
  destruct (HC (P 0%nat 0%nat)) as [c Ec]. fold D in Ec. exists (fst c). intros i j Hi Hj.
  assert (Bi : (i + padding * rows < n)%nat) by (unfold n; nia). assert (Bj : (j + padding * cols < m)%nat) by (unfold m; nia).
  rewrite (recon_ok F Fi rows cols gx gy xs ys padding w P HF Hx Hy Q); [| |exact Hi|exact Hj].
  - fold n m. assert (S : Fi n m P (i + padding * rows)%nat (j + padding * cols)%nat =
      cadd (Fi n m Q (i + padding * rows)%nat (j + padding * cols)%nat) (Fi n m D (i + padding * rows)%nat (j + padding * cols)%nat)).
    { rewrite <- HA by assumption. apply HF; [|exact Bi|exact Bj]. intros k l Hk Hl. unfold Q, D, cadd. destruct (Nat.eqb_spec k 0) as [->|Nk]; cbn [andb].
      - destruct (Nat.eqb_spec l 0) as [->|Nl]; cbn [fst snd].
        + rewrite !Rplus_0_l. destruct (P 0%nat 0%nat); reflexivity.
        + rewrite !Rplus_0_r. destruct (P 0%nat l); reflexivity.
      - cbn [fst snd]. rewrite !Rplus_0_r. destruct (P k l); reflexivity. }
    rewrite (HI _ _ Bi Bj), (Ec _ _ Bi Bj) in S. apply (f_equal fst) in S. unfold cadd in S. cbn [fst] in S. lra.
  - intros k l Hk Hl. fold n m. rewrite lost_iff by (try assumption; lra). unfold Q. split.
    + intros [[->|E] [->|E']]; try lra. reflexivity.
    + intros N. destruct (Nat.eqb_spec k 0) as [->|Nk]; [|reflexivity]. destruct (Nat.eqb_spec l 0) as [->|Nl]; [|reflexivity]. exfalso. apply N. auto.
Qed.

(** ** The four-point transform pair (one row of four), for the example. *)
Definition F4 (n m : nat) (a : arr) : arr := fun k l =>
  let x0 := a 0%nat 0%nat in let x1 := a 0%nat 1%nat in let x2 := a 0%nat 2%nat in let x3 := a 0%nat 3%nat in
  match l with
  | 0%nat => (fst x0 + fst x1 + fst x2 + fst x3, snd x0 + snd x1 + snd x2 + snd x3)
  | 1%nat => (fst x0 + snd x1 - fst x2 - snd x3, snd x0 - fst x1 - snd x2 + fst x3)
  | 2%nat => (fst x0 - fst x1 + fst x2 - fst x3, snd x0 - snd x1 + snd x2 - snd x3)
  | _ => (fst x0 - snd x1 - fst x2 + snd x3, snd x0 + fst x1 - snd x2 - fst x3)
  end.
Definition Fi4 (n m : nat) (a : arr) : arr := fun i j =>
  let x0 := a 0%nat 0%nat in let x1 := a 0%nat 1%nat in let x2 := a 0%nat 2%nat in let x3 := a 0%nat 3%nat in
  match j with
  | 0%nat => ((fst x0 + fst x1 + fst x2 + fst x3) / 4, (snd x0 + snd x1 + snd x2 + snd x3) / 4)
  | 1%nat => ((fst x0 - snd x1 - fst x2 + snd x3) / 4, (snd x0 + fst x1 - snd x2 - fst x3) / 4)
  | 2%nat => ((fst x0 - fst x1 + fst x2 - fst x3) / 4, (snd x0 - snd x1 + snd x2 - snd x3) / 4)
  | _ => ((fst x0 + snd x1 - fst x2 - snd x3) / 4, (snd x0 - fst x1 - snd x2 + fst x3) / 4)
  end.
(** cos(2 pi j / 4) and its derivative for a unit step *)
Definition cos4 (i j : nat) : R := match j with 0%nat => 1 | 2%nat => -1 | _ => 0 end.
Definition dcos4 (i j : nat) : R := match j with 1%nat => - PI / 2 | 3%nat => PI / 2 | _ => 0 end.
Lemma recon_example : exists c, forall i j, (i < 1)%nat -> (j < 4)%nat ->
  recon F4 Fi4 1 4 dcos4 (fun _ _ => 0) 1 1 0 (1 / 2) i j = cos4 i j - c.
Proof.
  assert (HE : forall (f g : arr), (forall k l, (k < 1)%nat -> (l < 4)%nat -> f k l = g k l) -> forall j, (j < 4)%nat -> f 0%nat j = g 0%nat j) by (intros f g H j Hj; apply H; lia).
  destruct (recon_phase F4 Fi4 1 4 dcos4 (fun _ _ => 0) 1 1 0 (1 / 2) cos4) as [c Hc]; try lra.
  - cbn [Nat.mul Nat.add]. intros a b H i j _ _. pose proof (HE a b H) as H'. unfold Fi4. rewrite !H' by lia. reflexivity.
  - cbn [Nat.mul Nat.add]. intros a b i j _ _. unfold Fi4, cadd. destruct j as [|[|[|j]]]; cbn [fst snd]; f_equal; field.
  - intros z. exists (cscale (/ 4) z). cbn [Nat.mul Nat.add]. intros i j _ _. unfold Fi4, cscale. cbn [Nat.eqb andb].
    destruct j as [|[|[|j]]]; cbn [fst snd]; f_equal; field.
  - cbn [Nat.mul Nat.add]. intros i j Hi Hj. unfold Fi4, F4, cos4. destruct j as [|[|[|[|j]]]]; cbn [fst snd]; try lia; f_equal; field.
  - cbn [Nat.mul Nat.add]. intros k l Hk Hl. unfold F4, padded, jmul, wave, freq, cos4, dcos4. destruct l as [|[|[|[|l]]]]; try lia; cbn; f_equal; field.
  - cbn [Nat.mul Nat.add]. intros k l Hk Hl. assert (k = 0)%nat by lia. subst k. unfold F4, padded, jmul, wave, freq, cos4. destruct l as [|[|[|[|l]]]]; try lia; cbn; f_equal; field.
  - exists c. intros i j Hi Hj. rewrite (Hc i j Hi Hj). cbn [Nat.mul]. rewrite !Nat.add_0_r. reflexivity.
Qed.

(** ** The cost function *)
Lemma beta_len n : (0 < n)%nat -> length (beta_grid n) = n.
Proof. intros H. unfold beta_grid. rewrite linspace_len. lia. Qed.
Lemma beta_nth n k : (k < n)%nat -> nth_error (beta_grid n) k = Some (qz (Z.of_nat k - Z.of_nat n / 2)).
Proof.
  intros H. unfold beta_grid, linspace. rewrite nth_error_map_seq by lia. f_equal. destruct (Nat.eqb_spec (n - 1) 0) as [E|N].
  - assert (n = 1)%nat by lia. subst n. assert (k = 0)%nat by lia. subst k. reflexivity.
  - assert (E : ((qz ((Z.of_nat n - 1) / 2) - qz (- (Z.of_nat n - 1) / 2)) / qn (n - 1) = 1)%Qc).
    { rewrite <- qz_sub. unfold qn. replace ((Z.of_nat n - 1) / 2 - - (Z.of_nat n - 1) / 2)%Z with (Z.of_nat (n - 1)) by lia.
      field. apply qz_neq0. lia. }
    rewrite E. unfold qn. rewrite Qcmult_1_r, <- qz_add. f_equal. lia.
Qed.
Lemma Q2R_qz z : Q2R (this (qz z)) = IZR z.
Proof. rewrite qz_this. unfold Q2R. cbn. field. Qed.
Lemma sum_sq_nonneg l : 0 <= sum_sq l.
Proof. induction l as [|a l IH]; cbn; [lra|]. nra. Qed.
Lemma sum_sq_zero l : sum_sq l = 0 <-> Forall (fun a => a = (0, 0)) l.
Proof.
  induction l as [|[a b] l IH]; cbn [sum_sq fst snd]; [split; constructor|]. pose proof (sum_sq_nonneg l) as H. split.
  - intros E. assert (Ea : a = 0) by nra. assert (Eb : b = 0) by nra. assert (El : sum_sq l = 0) by nra. subst. constructor; [reflexivity|]. apply IH. exact El.
  - intros HF. inversion HF as [|? ? E1 E2]; subst. injection E1 as -> ->. apply IH in E2. rewrite E2. ring.
Qed.
Theorem rss_ok n v0 v1 ref diff : (0 < n)%nat -> length ref = n -> length diff = n ->
  0 <= rss n v0 v1 ref diff /\
  (rss n v0 v1 ref diff = 0 <-> forall k r d, nth_error ref k = Some r -> nth_error diff k = Some d -> d = shifted n v0 v1 r k).
Proof.
  intros Hn L1 L2. unfold rss. split; [apply sum_sq_nonneg|]. rewrite sum_sq_zero, Forall_forall.
  assert (NE : forall k r d, nth_error ref k = Some r -> nth_error diff k = Some d ->
     nth_error (map (residue v0 v1) (combine (beta_grid n) (combine ref diff))) k = Some (residue v0 v1 (qz (Z.of_nat k - Z.of_nat n / 2), (r, d)))).
  { intros k r d Hr Hd. assert (Hk : (k < n)%nat) by (rewrite <- L1; apply nth_error_Some; congruence).
    rewrite nth_error_map. replace (nth_error (combine (beta_grid n) (combine ref diff)) k) with (Some (qz (Z.of_nat k - Z.of_nat n / 2), (r, d))); [reflexivity|].
    symmetry. assert (C1 : forall A B (l1 : list A) (l2 : list B) i a b, nth_error l1 i = Some a -> nth_error l2 i = Some b -> nth_error (combine l1 l2) i = Some (a, b)).
    { clear. intros A B. induction l1 as [|x l1 IH]; intros [|y l2] [|i] a b Ha Hb; cbn in *; try discriminate; [congruence|apply IH; assumption]. }
    apply C1; [apply beta_nth; exact Hk|]. apply C1; assumption. }
  assert (RZ : forall k r d, residue v0 v1 (qz (Z.of_nat k - Z.of_nat n / 2), (r, d)) = (0, 0) <-> d = shifted n v0 v1 r k).
  { intros k [r1 r2] [d1 d2]. unfold residue, shifted, cprod, cscale, cis. cbn [fst snd]. rewrite Q2R_qz.
    set (t := v1 * IZR _). split; intros E; injection E as E1 E2; f_equal; lra. }
  split.
  - intros H k r d Hr Hd. apply RZ. apply H. apply (nth_error_In _ k). apply NE; assumption.
  - intros H x Hx. apply In_nth_error in Hx. destruct Hx as [k Hk].
    assert (Bk : (k < n)%nat). { assert (Hs : nth_error (map (residue v0 v1) (combine (beta_grid n) (combine ref diff))) k <> None) by congruence.
      apply nth_error_Some in Hs. rewrite map_length, !combine_length, beta_len in Hs by exact Hn. lia. }
    destruct (nth_error ref k) as [r|] eqn:Er; [|apply nth_error_None in Er; lia].
    destruct (nth_error diff k) as [d|] eqn:Ed; [|apply nth_error_None in Ed; lia].
    rewrite (NE k r d Er Ed) in Hk. injection Hk as <-. apply RZ. apply (H k r d Er Ed).
Qed.

(** The array [recon] transforms, without its definition. *)
Lemma padded_tiled rows cols padding g P : tiled rows cols padding g P -> forall i j,
  (i < rows * (2 * padding + 1))%nat -> (j < cols * (2 * padding + 1))%nat -> padded rows cols padding g i j = P i j.
Proof.
  intros [H1 H2] i j Hi Hj. assert (rows <> 0 /\ cols <> 0)%nat as [R0 C0] by lia.
  pose proof (Nat.div_mod i rows R0) as Di. pose proof (Nat.div_mod j cols C0) as Dj.
  pose proof (Nat.mod_upper_bound i rows R0) as Mi. pose proof (Nat.mod_upper_bound j cols C0) as Mj.
  set (a := (i / rows)%nat) in *. set (b := (j / cols)%nat) in *. set (u := (i mod rows)%nat) in *. set (v := (j mod cols)%nat) in *. clearbody a b u v.
  assert (Ei : i = (a * rows + u)%nat) by lia. assert (Ej : j = (b * cols + v)%nat) by lia. clear Di Dj. subst i j. unfold padded.
  destruct ((padding * rows <=? a * rows + u) && (a * rows + u <? (padding + 1) * rows) && (padding * cols <=? b * cols + v) && (b * cols + v <? (padding + 1) * cols))%nat eqn:E.
  - rewrite !andb_true_iff, !Nat.leb_le, !Nat.ltb_lt in E. destruct E as [[[E1 E2] E3] E4].
    assert (a = padding) by (apply Nat.le_antisymm; [|apply Nat.nlt_ge]; nia). assert (b = padding) by (apply Nat.le_antisymm; [|apply Nat.nlt_ge]; nia).
    subst a b. rewrite H1 by assumption. f_equal. f_equal; lia.
  - symmetry. apply H2; try assumption. destruct (Nat.eq_dec a padding) as [Ea|]; [|left; assumption]. destruct (Nat.eq_dec b padding) as [Eb|]; [|right; assumption].
    exfalso. subst a b. apply not_true_iff_false in E. apply E. rewrite !andb_true_iff, !Nat.leb_le, !Nat.ltb_lt. repeat split; lia.
Qed.
