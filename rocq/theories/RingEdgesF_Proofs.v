From Coq Require Import Reals.
From Flocq Require Import Core BinarySingleNaN.
From Verif Require Import Common F64 RunMean_Model RunMean_Proofs RingEdgesF_Model RingEdgesF_Spec.
From Coq Require Import Lra.
Local Open Scope R_scope.
Local Notation u := (bpow radix2 (-53)).
Lemma u_pos : 0 < u /\ u <= / 2.
Proof. split; [apply bpow_gt_0|]. change (/ 2) with (bpow radix2 (-1)). apply bpow_le. lia. Qed.
(** ** Powers of 1 + u and 1 - u *)
Lemma pow_up k : INR k * u <= / 2 -> 1 <= (1 + u) ^ k <= 1 + 2 * INR k * u.
Proof.
  intros H. destruct u_pos as [U1 U2].
  assert (P : forall m, 1 <= (1 + u) ^ m) by (intros m; apply pow_R1_Rle; lra).
  assert (G : forall m, (1 + u) ^ m * (1 - INR m * u) <= 1).
  { induction m as [|m IH]; [cbn; lra|]. rewrite S_INR. cbn [pow]. specialize (P m). pose proof (pos_INR m).
    replace ((1 + u) * (1 + u) ^ m * (1 - (INR m + 1) * u)) with ((1 + u) ^ m * (1 - INR m * u) - (1 + u) ^ m * ((INR m + 1) * (u * u))) by ring.
    assert (0 <= (1 + u) ^ m * ((INR m + 1) * (u * u))); [|lra]. apply Rmult_le_pos; [lra|]. apply Rmult_le_pos; [lra|]. apply Rmult_le_pos; lra. }
  split; [apply P|]. specialize (G k). specialize (P k). pose proof (pos_INR k). set (x := INR k * u) in *. assert (0 <= x) by (apply Rmult_le_pos; lra). replace (2 * INR k * u) with (2 * x) by (unfold x; ring).
  set (p := (1 + u) ^ k) in *. clearbody p x. nra.
Qed.
Lemma pow_down k : 1 - INR k * u <= (1 - u) ^ k <= 1.
Proof.
  destruct u_pos as [U1 U2]. induction k as [|k IH]; [cbn; lra|]. rewrite S_INR. cbn [pow]. pose proof (pos_INR k).
  assert (0 <= (1 - u) ^ k) by (apply pow_le; lra). assert (0 <= INR k * (u * u)) by (apply Rmult_le_pos; [lra|apply Rmult_le_pos; lra]). nra.
Qed.
(** ** One addition *)
Lemma add_ok a x : usable a -> usable x -> B2R a + B2R x <= bpow radix2 1023 ->
  usable (fadd a x) /\ B2R (fadd a x) = rnd (B2R a + B2R x) /\ B2R a <= B2R (fadd a x) /\
  (B2R a + B2R x) * (1 - u) <= B2R (fadd a x) <= (B2R a + B2R x) * (1 + u).
Proof.
  intros [Fa Pa] [Fx Px] B.
  assert (L : B2R a <= rnd (B2R a + B2R x)) by (apply rnd_ge; [apply B2R_format|lra]).
  assert (Hi : rnd (B2R a + B2R x) <= bpow radix2 1023) by (apply rnd_le_g; [apply generic_format_bpow; unfold FLT_exp; lia|exact B]).
  destruct (fadd_ok a x Fa Fx) as [E F].
  { rewrite Rabs_pos_eq by lra. apply Rle_lt_trans with (1 := Hi). apply bpow_lt. lia. }
  split; [split; [exact F|lra]|]. split; [exact E|]. split; [lra|]. rewrite E.
  destruct (plus_err (B2R a) (B2R x) (B2R_format a) (B2R_format x)) as [e [He ->]]. apply Rabs_le_inv in He. split; apply Rmult_le_compat_l; lra.
Qed.
(** ** The running sum.  [A] is the exact value of [a] after k additions. *)
Lemma cum_ok : forall l a A k, usable a -> Forall usable l -> 0 <= A -> A * (1 - u) ^ k <= B2R a <= A * (1 + u) ^ k ->
  (A + total (map B2R l)) * (1 + u) ^ (k + length l) <= bpow radix2 1022 ->
  forall m e, nth_error (cumF a l) m = Some e ->
    usable e /\ (let T := A + total (firstn (S m) (map B2R l)) in T * (1 - u) ^ (k + S m) <= B2R e <= T * (1 + u) ^ (k + S m)) /\
    (match m with O => B2R a <= B2R e | S m' => forall d, nth_error (cumF a l) m' = Some d -> B2R d <= B2R e end).
Proof.
  destruct u_pos as [U1 U2]. induction l as [|x l IH]; intros a A k Ha Hl PA HA HB m e E; [destruct m; discriminate|].
  inversion Hl as [|? ? Hx Hl']; subst. cbn [map total fold_right length] in HB. fold (total (map B2R l)) in HB. cbn [cumF] in E.
  assert (T0 : 0 <= total (map B2R l)). { clear -Hl'. induction Hl' as [|y l Hy Hl IH]; cbn; [lra|]. destruct Hy. unfold total in IH. lra. }
  assert (Pk : forall m, 1 <= (1 + u) ^ m) by (intros; apply pow_R1_Rle; lra).
  assert (Pd : forall m, 0 <= (1 - u) ^ m <= 1) by (intros i; split; [apply pow_le; lra|apply pow_down]).
  pose proof (Pk k) as K1. pose proof (Pd k) as K2. pose proof (proj2 Hx) as Px.
  assert (B1 : B2R a + B2R x <= (A + B2R x) * (1 + u) ^ k) by nra.
  assert (B2 : (A + B2R x) * (1 + u) ^ k <= bpow radix2 1022).
  { apply Rle_trans with (2 := HB). apply Rmult_le_compat; try lra. apply Rle_pow; [lra|lia]. }
  assert (B3 : bpow radix2 1022 <= bpow radix2 1023) by (apply bpow_le; lia).
  destruct (add_ok a x Ha Hx ltac:(lra)) as [Hs [_ [Hm [L1 L2]]]].
  assert (HA' : (A + B2R x) * (1 - u) ^ (k + 1) <= B2R (fadd a x) <= (A + B2R x) * (1 + u) ^ (k + 1)).
  { rewrite Nat.add_1_r. cbn [pow]. split.
    - apply Rle_trans with (2 := L1). replace ((A + B2R x) * ((1 - u) * (1 - u) ^ k)) with ((A + B2R x) * (1 - u) ^ k * (1 - u)) by ring. apply Rmult_le_compat_r; [lra|]. nra.
    - apply Rle_trans with (1 := L2). replace ((A + B2R x) * ((1 + u) * (1 + u) ^ k)) with ((A + B2R x) * (1 + u) ^ k * (1 + u)) by ring. apply Rmult_le_compat_r; [lra|]. exact B1. }
  destruct m as [|m].
  - injection E as <-. split; [exact Hs|]. split; [|exact Hm]. cbn [map firstn total fold_right]. rewrite Rplus_0_r. exact HA'.
  - cbn [nth_error] in E. destruct (IH (fadd a x) (A + B2R x) (k + 1)%nat Hs Hl' ltac:(lra) HA') with (m := m) (e := e) as [G1 [G2 G3]]; [|exact E|].
    + replace (k + 1 + length l)%nat with (k + S (length l))%nat by lia. replace (A + B2R x + total (map B2R l)) with (A + (B2R x + total (map B2R l))) by ring. exact HB.
    + split; [exact G1|]. split.
      * cbv zeta in G2 |- *. replace (k + S (S m))%nat with (k + 1 + S m)%nat by lia. cbn [map]. change (firstn (S (S m)) (B2R x :: map B2R l)) with (B2R x :: firstn (S m) (map B2R l)). cbn [total fold_right]. fold (total (firstn (S m) (map B2R l))).
        rewrite <- Rplus_assoc. exact G2.
      * destruct m as [|m']; [intros d Ed; injection Ed as <-; exact G3|]. intros d Ed. apply G3. exact Ed.
Qed.
(** all partial sums are doubles: no rounding at all *)
Lemma cum_exact : forall l a, usable a -> Forall usable l -> B2R a + total (map B2R l) <= bpow radix2 1022 ->
  (forall m, (m <= length l)%nat -> F64 (B2R a + total (firstn m (map B2R l)))) ->
  forall m e, nth_error (cumF a l) m = Some e -> B2R e = B2R a + total (firstn (S m) (map B2R l)).
Proof.
  induction l as [|x l IH]; intros a Ha Hl HB HF m e E; [destruct m; discriminate|].
  inversion Hl as [|? ? Hx Hl']; subst. cbn [map total fold_right length] in HB. fold (total (map B2R l)) in HB. cbn [cumF] in E.
  assert (T0 : 0 <= total (map B2R l)). { clear -Hl'. induction Hl' as [|y l Hy Hl IH]; cbn; [lra|]. destruct Hy. unfold total in IH. lra. }
  assert (B3 : bpow radix2 1022 <= bpow radix2 1023) by (apply bpow_le; lia).
  destruct (add_ok a x Ha Hx ltac:(lra)) as [Hs [E1 _]].
  assert (E2 : B2R (fadd a x) = B2R a + B2R x). { rewrite E1. apply rnd_id. specialize (HF 1%nat ltac:(cbn; lia)). cbn in HF. rewrite Rplus_0_r in HF. exact HF. }
  destruct m as [|m].
  - injection E as <-. cbn. rewrite Rplus_0_r. exact E2.
  - cbn [nth_error] in E. rewrite (IH (fadd a x) Hs Hl') with (m := m) (e := e); [|rewrite E2; lra| |exact E].
    + rewrite E2. change (firstn (S (S m)) (map B2R (x :: l))) with (B2R x :: firstn (S m) (map B2R l)). cbn [total fold_right]. unfold total. ring.
    + intros i Hi. specialize (HF (S i) ltac:(cbn; lia)). cbn [map firstn total fold_right] in HF. rewrite E2, Rplus_assoc. exact HF.
Qed.
(** ** The steps *)
Lemma fone_mul x : usable x -> usable (fmul fone x) /\ B2R (fmul fone x) = B2R x.
Proof.
  intros [F P]. destruct (fmul_ok fone x eq_refl F) as [E G].
  - rewrite fone_R, Rmult_1_l, rnd_id by apply B2R_format. apply abs_B2R_lt_emax.
  - rewrite fone_R, Rmult_1_l, rnd_id in E by apply B2R_format. split; [split; [exact G|rewrite E; exact P]|exact E].
Qed.
Lemma repeat_mul x n : usable x -> Forall usable (repeat (fmul fone x) n) /\ map B2R (repeat (fmul fone x) n) = repeat (B2R x) n.
Proof.
  intros H. destruct (fone_mul x H) as [G E]. induction n as [|n [I1 I2]]; [split; [constructor|reflexivity]|]. cbn [repeat map]. split; [constructor; assumption|]. rewrite I2, E. reflexivity.
Qed.
Lemma ints_ok l : Forall (fun z => (0 <= z <= 2 ^ 53)%Z) l -> Forall usable (map f64_of_Z l) /\ map B2R (map f64_of_Z l) = map IZR l.
Proof.
  induction 1 as [|z l Hz Hl [I1 I2]]; [split; [constructor|reflexivity]|]. cbn [map]. destruct (f64_of_Z_ok z ltac:(lia)) as [E F]. split.
  - constructor; [|exact I1]. split; [exact F|]. rewrite E. apply IZR_le. lia.
  - rewrite I2, E. reflexivity.
Qed.
Lemma alternate_steps : forall ws ss r, length ws = S (length ss) -> map B2R (alternateF (r :: ss) ws) = steps (B2R r) (map B2R ws) (map B2R ss).
Proof.
  induction ws as [|w ws IH]; intros ss r H; [discriminate|]. cbn [alternateF map steps]. destruct ss as [|s ss].
  - destruct ws; [reflexivity|discriminate].
  - cbn [map]. rewrite IH by (cbn in *; lia). reflexivity.
Qed.
Lemma alternate_usable : forall ws ss, Forall usable ws -> Forall usable ss -> Forall usable (alternateF ss ws).
Proof.
  induction ws as [|w ws IH]; intros [|s ss] Hw Hs; cbn; try constructor. { inversion Hs; assumption. } constructor; [inversion Hw; assumption|]. apply IH; [inversion Hw|inversion Hs]; assumption.
Qed.
Lemma alternate_length : forall ws ss, length ws = length ss -> length (alternateF ss ws) = (2 * length ws)%nat.
Proof. induction ws as [|w ws IH]; intros [|s ss] H; try discriminate; [reflexivity|]. cbn. rewrite IH by (cbn in H; lia). lia. Qed.
Lemma cum_length : forall l a, length (cumF a l) = length l. Proof. induction l as [|x l IH]; intros a; cbn; [reflexivity|]. rewrite IH. reflexivity. Qed.
Lemma flat_pairs : forall n l, length l = (2 * n)%nat -> flat (pairsF l) = l /\ length (pairsF l) = n.
Proof.
  induction n as [|n IH]; intros l H; [destruct l; [split; reflexivity|discriminate]|]. destruct l as [|x [|y l]]; [discriminate|cbn in H; lia|]. destruct (IH l) as [E1 E2]; [cbn in H; lia|].
  cbn [pairsF flat flat_map app fst snd length]. unfold flat in E1. rewrite E1, E2. split; reflexivity.
Qed.
(** ** ring_edges *)
Lemma inserted_ok inner s r : usable inner -> first_radius inner s r -> usable (insertedF inner s) /\ B2R (insertedF inner s) = r.
Proof.
  intros H F. destruct s as [x|l|[|z l]]; cbn [insertedF first_radius] in *; try (subst r; split; [exact H|reflexivity]).
  destruct F as [k [-> [B K]]]. destruct H as [Hf Hp]. assert (T : Btrunc inner = k).
  { rewrite Btrunc_floor, Ztrunc_floor by exact Hp. apply Zfloor_imp. rewrite plus_IZR. exact B. }
  assert (K0 : (0 <= k)%Z). { rewrite <- T, Btrunc_floor, Ztrunc_floor by exact Hp. apply Zfloor_lub. exact Hp. }
  rewrite T. destruct (f64_of_Z_ok k ltac:(lia)) as [E G]. split; [split; [exact G|rewrite E; apply IZR_le; exact K0]|exact E].
Qed.
Lemma shape inner w s nr n : asks_for n w s nr -> usable_widths w -> usable_spacings s ->
  exists ws ss, ring_edgesF inner w s nr = RingsOf (pairsF (cumsumF (alternateF (insertedF inner s :: ss) ws))) /\
    length ws = n /\ length ss = (n - 1)%nat /\ Forall usable ws /\ Forall usable ss /\ map B2R ws = width_values n w /\ map B2R ss = spacing_values (n - 1) s.
Proof.
  intros [N [Lw [Ls [Hone Hnr]]]] Uw Us.
  set (ws := match w with Width x => repeat (fmul fone x) n | Widths l => l end).
  set (ss := match s with Spacing x => repeat (fmul fone x) (n - 1) | Spacings l => l | IntSpacings l => map f64_of_Z l end).
  assert (W : Forall usable ws /\ map B2R ws = width_values n w).
  { unfold ws. destruct w as [x|l]; cbn [width_values usable_widths] in *; [apply repeat_mul, Uw|split; [exact Uw|reflexivity]]. }
  assert (S' : Forall usable ss /\ map B2R ss = spacing_values (n - 1) s).
  { unfold ss. destruct s as [x|l|l]; cbn [spacing_values usable_spacings] in *; [apply repeat_mul, Us|split; [exact Us|reflexivity]|apply ints_ok, Us]. }
  destruct W as [W1 W2], S' as [S1 S2]. assert (Lw' : length ws = n) by (rewrite <- (map_length B2R), W2; exact Lw). assert (Ls' : length ss = (n - 1)%nat) by (rewrite <- (map_length B2R), S2; exact Ls).
  exists ws, ss. split; [|auto 10].
  assert (Z1 : (Z.of_nat n <? 0)%Z = false) by lia. assert (Z2 : (Z.of_nat n - 1 <? 0)%Z = false) by lia. assert (Z3 : Z.to_nat (Z.of_nat n - 1) = (n - 1)%nat) by lia.
  unfold ring_edgesF.
  assert (G : forall k, k = Z.of_nat n -> (if (match match w with Widths l => Some (Z.of_nat (length l)) | Width _ => None end with None => (k <? 0)%Z | _ => false end ||
      match option_map (fun l => Z.of_nat (length l)) (as_list s) with None => (k - 1 <? 0)%Z | _ => false end)%bool then ValueErrorF else
      if negb (length (insertedF inner s :: match s with Spacing x => repeat (fmul fone x) (Z.to_nat (k - 1)) | Spacings l => l | IntSpacings l => map f64_of_Z l end) =? length (match w with Width x => repeat (fmul fone x) (Z.to_nat k) | Widths l => l end))%nat then RaggedF
      else RingsOf (pairsF (cumsumF (alternateF (insertedF inner s :: match s with Spacing x => repeat (fmul fone x) (Z.to_nat (k - 1)) | Spacings l => l | IntSpacings l => map f64_of_Z l end) (match w with Width x => repeat (fmul fone x) (Z.to_nat k) | Widths l => l end)))))
      = RingsOf (pairsF (cumsumF (alternateF (insertedF inner s :: ss) ws)))).
  { intros k ->. rewrite Z1, Z2, Z3, Nat2Z.id. fold ws ss. replace (length (insertedF inner s :: ss) =? length ws)%nat with true by (symmetry; apply Nat.eqb_eq; cbn; lia).
    destruct w, s; reflexivity. }
  assert (LW : forall l, w = Widths l -> length l = n) by (intros l ->; cbn in Lw; rewrite map_length in Lw; exact Lw).
  assert (LS : forall l, as_list s = Some l -> length l = (n - 1)%nat).
  { intros l E. destruct s as [x|l'|l']; cbn in E; [discriminate| |]; injection E as <-; cbn [spacing_values] in Ls; rewrite !map_length in *; exact Ls. }
  destruct Hone as [[x ->]|[x ->]].
  - destruct Hnr as [->|[-> Hx]].
    + destruct (as_list s) as [l|] eqn:E; cbn [option_map]; cbn [option_map] in G.
      * replace (Z.of_nat n - 1 =? Z.of_nat (length l))%Z with true by (rewrite (LS l eq_refl); lia). cbn [negb orb] in *. apply G. reflexivity.
      * cbn [orb]. cbn [orb] in G. apply G. reflexivity.
    + destruct (as_list s) as [l|] eqn:E; cbn [option_map] in *.
      * apply G. rewrite (LS l eq_refl). lia.
      * exfalso. apply Hx. split; [eexists; reflexivity|]. destruct s; try discriminate. eexists; reflexivity.
  - cbn [as_list option_map] in *. destruct w as [y|l].
    + destruct Hnr as [->|[-> Hx]]; [cbn [orb] in *; apply G; reflexivity|]. exfalso. apply Hx. split; eexists; reflexivity.
    + destruct Hnr as [->|[-> _]].
      * replace (Z.of_nat n =? Z.of_nat (length l))%Z with true by (rewrite (LW l eq_refl); lia). cbn [negb orb] in *. apply G. reflexivity.
      * apply G. rewrite (LW l eq_refl). reflexivity.
Qed.
Section Edges.
Context (inner : f64) (w : widthsF) (s : spacingsF) (nr : option Z) (n : nat) (r : R).
Hypothesis Hi : usable inner.
Hypothesis Hw : usable_widths w.
Hypothesis Hs : usable_spacings s.
Hypothesis Hn : asks_for n w s nr.
Hypothesis Hr : first_radius inner s r.
Hypothesis Hsmall : (Z.of_nat n <= 2 ^ 51)%Z.
Let st := steps r (width_values n w) (spacing_values (n - 1) s).
Hypothesis Htot : total st <= bpow radix2 1021.
Lemma the_edges : exists l x rest, ring_edgesF inner w s nr = RingsOf l /\ length l = n /\ flat l = x :: cumF x rest /\ usable x /\ Forall usable rest /\
  st = map B2R (x :: rest) /\ length (x :: rest) = (2 * n)%nat.
Proof.
  destruct (shape inner w s nr n Hn Hw Hs) as (ws & ss & E & Lw & Ls & Uw & Us & Vw & Vs). destruct (inserted_ok inner s r Hi Hr) as [Ui Vi].
  assert (N : n <> O) by apply Hn.
  set (al := alternateF (insertedF inner s :: ss) ws) in *.
  assert (La : length al = (2 * n)%nat). { unfold al. rewrite alternate_length by (cbn; lia). lia. }
  assert (Va : map B2R al = st). { unfold al. rewrite alternate_steps by lia. rewrite Vi, Vw, Vs. reflexivity. }
  assert (Ua : Forall usable al) by (apply alternate_usable; [exact Uw|constructor; assumption]).
  destruct al as [|x rest]; [cbn in La; lia|]. exists (pairsF (x :: cumF x rest)), x, rest.
  assert (Lc : length (x :: cumF x rest) = (2 * n)%nat) by (cbn [length]; rewrite cum_length; exact La). destruct (flat_pairs n _ Lc) as [F1 F2].
  split; [exact E|]. split; [exact F2|]. split; [exact F1|]. inversion Ua; subst. auto.
Qed.
Lemma edges_close l x rest : flat l = x :: cumF x rest -> usable x -> Forall usable rest -> st = map B2R (x :: rest) -> length (x :: rest) = (2 * n)%nat ->
  forall k e, nth_error (flat l) k = Some e -> usable e /\ Rabs (B2R e - exact_edge st k) <= 2 * INR k * u * exact_edge st k /\ B2R e <= bpow radix2 1022 /\
    forall d, nth_error (flat l) (k + 1) = Some d -> B2R e <= B2R d.
Proof.
  intros Fl Ux Ur Es Lr k e E. rewrite Fl in *. destruct u_pos as [U1 U2].
  assert (Tt : forall m, 0 <= total (firstn m (map B2R rest)) <= total (map B2R rest)).
  { clear -Ur. induction Ur as [|y l Hy Hl IH]; intros [|m]; cbn; try lra; [specialize (IH O); cbn in IH; destruct Hy; unfold total in IH; lra|]. specialize (IH m). destruct Hy. unfold total in IH. lra. }
  assert (Tx : B2R x + total (map B2R rest) <= bpow radix2 1021). { rewrite Es in Htot. exact Htot. }
  assert (Small : forall m, (m <= 2 * n)%nat -> INR m * u <= / 2).
  { intros m Hm. apply Rle_trans with (bpow radix2 52 * u).
    - apply Rmult_le_compat_r; [lra|]. rewrite INR_IZR_INZ, (bpow_IZR 52) by lia. apply IZR_le. lia.
    - rewrite <- bpow_plus. change (/ 2) with (bpow radix2 (-1)). apply bpow_le. lia. }
  assert (B22 : bpow radix2 1022 = 2 * bpow radix2 1021). { change 2 with (bpow radix2 1). rewrite <- bpow_plus. reflexivity. }
  pose proof (Tt (length (map B2R rest))) as T0. pose proof (proj2 Ux) as Px.
  assert (HB : (B2R x + total (map B2R rest)) * (1 + u) ^ (0 + length rest) <= bpow radix2 1022).
  { rewrite B22, (Rmult_comm 2). destruct (pow_up (length rest)) as [P1 P2]; [apply Small; cbn in Lr; lia|]. pose proof (Small (length rest) ltac:(cbn in Lr; lia)). apply Rmult_le_compat; cbn [Nat.add]; lra. }
  pose proof (cum_ok rest x (B2R x) 0 Ux Ur Px ltac:(cbn; lra) HB) as C.
  assert (Nx : forall d, nth_error (x :: cumF x rest) (k + 1) = Some d -> B2R e <= B2R d).
  { intros d Ed. rewrite Nat.add_1_r in Ed. cbn [nth_error] in Ed. destruct (C k d Ed) as [_ [_ M]]. destruct k as [|k]; [injection E as <-; exact M|]. apply M. exact E. }
  destruct k as [|k].
  - injection E as <-. split; [exact Ux|]. rewrite Es. unfold exact_edge. cbn [firstn map total fold_right INR]. rewrite Rplus_0_r. split.
    + replace (B2R x - B2R x) with 0 by ring. rewrite Rabs_R0. lra.
    + split; [|exact Nx]. pose proof (bpow_ge_0 radix2 1021). lra.
  - cbn [nth_error] in E. destruct (C k e E) as [Ue [Hc _]]. split; [exact Ue|].
    assert (Hk : (k < length rest)%nat). { rewrite <- (cum_length rest x). apply nth_error_Some. congruence. }
    assert (Ee : exact_edge st (S k) = B2R x + total (firstn (S k) (map B2R rest))) by (rewrite Es; reflexivity). rewrite Ee. cbv zeta in Hc. set (T := B2R x + total (firstn (S k) (map B2R rest))) in *.
    assert (T1 : 0 <= T <= bpow radix2 1021) by (unfold T; specialize (Tt (S k)); lra).
    cbn [Nat.add] in Hc. destruct (pow_up (S k)) as [P1 P2]; [apply Small; cbn in Lr; lia|]. destruct (pow_down (S k)) as [P3 P4]. pose proof (Small (S k) ltac:(cbn in Lr; lia)) as Sm.
    pose proof (pos_INR (S k)) as P0. assert (0 <= INR (S k) * u) by (apply Rmult_le_pos; lra). clear Ee.
    split; [|split; [|exact Nx]].
    + apply Rabs_le. assert (T * (1 - INR (S k) * u) <= T * (1 - u) ^ S k) by (apply Rmult_le_compat_l; lra). assert (T * (1 + u) ^ S k <= T * (1 + 2 * INR (S k) * u)) by (apply Rmult_le_compat_l; lra).
      replace (2 * INR (S k) * u * T) with (2 * (T * (INR (S k) * u))) by ring. assert (0 <= T * (INR (S k) * u)) by (apply Rmult_le_pos; lra). split; nra.
    + rewrite B22, (Rmult_comm 2). apply Rle_trans with (1 := proj2 Hc). apply Rmult_le_compat; try lra. 
Qed.
Lemma cum_step : forall rest x m e y, nth_error (x :: cumF x rest) m = Some e -> nth_error rest m = Some y -> nth_error (cumF x rest) m = Some (fadd e y).
Proof.
  induction rest as [|z rest IH]; intros x [|m] e y E Ey; try discriminate; cbn [cumF nth_error] in *.
  - injection E as <-. injection Ey as <-. reflexivity.
  - apply IH; assumption.
Qed.
Theorem edges_all : exists l, ring_edgesF inner w s nr = RingsOf l /\ length l = n /\
  forall k e, nth_error (flat l) k = Some e -> usable e /\ Rabs (B2R e - exact_edge st k) <= 2 * INR k * u * exact_edge st k /\
    (k = O -> B2R e = r) /\ ((forall m, (m < 2 * n)%nat -> F64 (exact_edge st m)) -> B2R e = exact_edge st k) /\
    forall d y, nth_error (flat l) (k + 1) = Some d -> nth_error st (k + 1) = Some y -> B2R d = rnd (B2R e + y) /\ B2R e <= B2R d.
Proof.
  destruct the_edges as (l & x & rest & E & Ll & Fl & Ux & Ur & Es & Lr). exists l. split; [exact E|]. split; [exact Ll|]. intros k e Ee.
  destruct (edges_close l x rest Fl Ux Ur Es Lr k e Ee) as (Ue & Ac & Be & Mo). split; [exact Ue|]. split; [exact Ac|].
  assert (N : n <> O) by apply Hn. assert (Er : B2R x = r).
  { assert (H : nth_error st 0 = Some (B2R x)) by (rewrite Es; reflexivity). unfold st in H. destruct Hn as (_ & L1 & _). destruct (width_values n w) as [|a b]; [cbn in L1; lia|]. cbn in H. injection H as <-. reflexivity. }
  assert (B20 : bpow radix2 1021 <= bpow radix2 1022) by (apply bpow_le; lia).
  split; [|split].
  - intros ->. rewrite Fl in Ee. injection Ee as <-. exact Er.
  - intros HF. rewrite Fl in Ee. rewrite Es in *. destruct k as [|k].
    + injection Ee as <-. unfold exact_edge. cbn. ring.
    + cbn [nth_error] in Ee. change (B2R e = B2R x + total (firstn (S k) (map B2R rest))). apply (cum_exact rest x Ux Ur); [|intros m Hm; apply (HF m); cbn in Lr; lia|exact Ee].
      apply Rle_trans with (2 := B20). exact Htot.
  - intros d y Ed Ey. split; [|apply Mo; exact Ed]. rewrite Fl in *. rewrite Nat.add_1_r in *. cbn [nth_error] in Ed. rewrite Es in Ey. cbn [map nth_error] in Ey.
    rewrite nth_error_map in Ey. destruct (nth_error rest k) as [z|] eqn:Ez; [|discriminate]. injection Ey as <-. rewrite (cum_step rest x k e z Ee Ez) in Ed. injection Ed as <-.
    assert (Uz : usable z) by (eapply Forall_forall; [exact Ur|eapply nth_error_In; exact Ez]).
    destruct (add_ok e z Ue Uz) as [_ [G _]]; [|exact G].
    assert (Bz : B2R z <= total st).
    { rewrite Es. cbn [map total fold_right]. pose proof (proj2 Ux). assert (B2R z <= fold_right Rplus 0 (map B2R rest)); [|lra]. clear -Ez Ur. revert k Ez.
      assert (P : forall l, Forall usable l -> 0 <= fold_right Rplus 0 (map B2R l)) by (induction 1 as [|a b Ha Hb IH]; cbn; [lra|destruct Ha; lra]).
      induction Ur as [|a b Ha Hb IH]; intros [|k] Ez; try discriminate; cbn in *; [injection Ez as ->; specialize (P b Hb); lra|]. specialize (IH k Ez). destruct Ha. lra. }
    assert (B23 : bpow radix2 1023 = 2 * bpow radix2 1022). { change 2 with (bpow radix2 1). rewrite <- bpow_plus. reflexivity. }
    lra.
Qed.
End Edges.
Lemma steps_even : forall ws ss r i, nth_error (steps r ws ss) (2 * i + 2) = if (S i <? length ws)%nat then nth_error ss i else None.
Proof.
  induction ws as [|w ws IH]; intros ss r i; [destruct i; reflexivity|]. replace (2 * i + 2)%nat with (S (S (2 * i))) by lia. cbn [steps nth_error]. destruct ss as [|s ss].
  - transitivity (@None R); [destruct (2 * i)%nat; reflexivity|]. destruct (S i <? length (w :: ws))%nat; destruct i; reflexivity.
  - destruct i as [|i].
    + destruct ws; reflexivity.
    + replace (2 * S i)%nat with (2 * i + 2)%nat by lia. rewrite IH. reflexivity.
Qed.
Lemma nth_flat {A} : forall (l : list (A * A)) i p, nth_error l i = Some p -> nth_error (flat l) (2 * i) = Some (fst p) /\ nth_error (flat l) (2 * i + 1) = Some (snd p).
Proof.
  induction l as [|q l IH]; intros [|i] p E; try discriminate; cbn in E.
  - injection E as ->. split; reflexivity.
  - destruct (IH i p E) as [E1 E2]. replace (2 * S i)%nat with (S (S (2 * i))) by lia. replace (S (S (2 * i)) + 1)%nat with (S (S (2 * i + 1))) by lia. split; assumption.
Qed.
