From Coq Require Import ZArith Reals Lia Lra Bool List.
From Verif Require Import F64 FloatIndex_Model.
From Flocq Require Import Relative Plus_error.
Open Scope R_scope.

Lemma accepts_unit p : grid_accepts p = true -> fin p /\ 0 <= B2R p < 1.
Proof. unfold grid_accepts. intros H. apply andb_prop in H. destruct H. apply in_unit; assumption. Qed.

Lemma index_in_range p n : grid_accepts p = true -> (1 <= n <= 2 ^ 53)%Z ->
  (0 <= grid_index p n < n)%Z.
Proof.
  intros Hp Hn. apply accepts_unit in Hp. destruct Hp as [Hf Hp].
  destruct (f64_of_Z_ok n ltac:(lia)) as [En Fn].
  pose proof (mul_below (B2R p) n (B2R_format p) Hp Hn) as Hm.
  assert (Hn1 : 1 <= IZR n) by (apply IZR_le; lia).
  destruct (fmul_ok p (f64_of_Z n) Hf Fn) as [Em _].
  - rewrite En. rewrite Rabs_pos_eq by lra. apply Rlt_le_trans with (IZR n); [lra|].
    apply Rle_trans with (IZR (2 ^ 53)); [apply IZR_le; lia|].
    rewrite <- bpow_IZR by lia. apply bpow_le. lia.
  - unfold grid_index. rewrite Btrunc_floor, Em, En. apply Ztrunc_lt; lra.
Qed.

Lemma flat_in_range n0 n1 n2 i0 i1 i2 :
  (0 <= i0 < n0 -> 0 <= i1 < n1 -> 0 <= i2 < n2 ->
   0 <= grid_flat n0 n1 n2 i0 i1 i2 < n0 * n1 * n2)%Z.
Proof.
  unfold grid_flat. intros H0 H1 H2.
  assert (A : (0 <= i1 * n2 + i2 < n1 * n2)%Z) by nia.
  set (m := (n1 * n2)%Z) in *. rewrite <- Z.mul_assoc. fold m. nia.
Qed.

Lemma flat_injective n0 n1 n2 i0 i1 i2 j0 j1 j2 :
  (0 <= i0 < n0 -> 0 <= i1 < n1 -> 0 <= i2 < n2 ->
   0 <= j0 < n0 -> 0 <= j1 < n1 -> 0 <= j2 < n2 ->
   grid_flat n0 n1 n2 i0 i1 i2 = grid_flat n0 n1 n2 j0 j1 j2 ->
   i0 = j0 /\ i1 = j1 /\ i2 = j2)%Z.
Proof.
  unfold grid_flat. intros A1 A2 A3 B1 B2 B3 E.
  assert (E2 : (i2 + n2 * (i1 + n1 * i0) = j2 + n2 * (j1 + n1 * j0))%Z) by (revert E; nia).
  assert (i2 = j2).
  { apply (f_equal (fun z => z mod n2)%Z) in E2.
    rewrite !(Z.mul_comm n2), !Z_mod_plus_full, !Z.mod_small in E2 by lia. exact E2. }
  subst j2. assert (E3 : (i1 + n1 * i0 = j1 + n1 * j0)%Z) by nia.
  assert (i1 = j1).
  { apply (f_equal (fun z => z mod n1)%Z) in E3.
    rewrite !(Z.mul_comm n1), !Z_mod_plus_full, !Z.mod_small in E3 by lia. exact E3. }
  subst j1. split; [nia|]. split; reflexivity.
Qed.

(* ------------------------------------------------------------------ *)
(** * Default bounds *)
Lemma sign_neg (x : f64) : B2R x < 0 -> Bsign x = true /\ fin x.
Proof.
  destruct x as [s|s| |s m e H]; cbn; try lra. intros Hl. split; [|reflexivity].
  destruct s; [reflexivity|]. exfalso.
  assert (0 < F2R (Float radix2 (Z.pos m) e)) by (apply F2R_gt_0; reflexivity). cbn in Hl. lra.
Qed.
Lemma sign_pos (x : f64) : 0 < B2R x -> Bsign x = false /\ fin x.
Proof.
  destruct x as [s|s| |s m e H]; cbn; try lra. intros Hl. split; [|reflexivity].
  destruct s; [|reflexivity]. exfalso.
  assert (F2R (Float radix2 (Z.neg m) e) < 0) by (apply F2R_lt_0; reflexivity). cbn in Hl. lra.
Qed.

Lemma default_stop_pos x : 0 < B2R x -> succ radix2 fmt (B2R x) < bpow radix2 1024 ->
  B2R (default_stop x) = succ radix2 fmt (B2R x) /\ fin (default_stop x).
Proof.
  intros Hx Hs. destruct (sign_pos x Hx) as [Sg Hf].
  pose proof (Bsucc_correct 53 1024 _ _ x Hf) as HB.
  change (succ radix2 (SpecFloat.fexp 53 1024) (B2R x)) with (succ radix2 fmt (B2R x)) in HB.
  rewrite Rlt_bool_true in HB by exact Hs. destruct HB as [EB [FB _]].
  pose proof (B2R_format x) as HFx.
  assert (Esu : succ radix2 fmt (B2R x) = B2R x + ulp radix2 fmt (B2R x)) by (apply succ_eq_pos; lra).
  assert (HFu : F64 (ulp radix2 fmt (B2R x))) by (apply generic_format_ulp; typeclasses eauto).
  assert (HFs : F64 (succ radix2 fmt (B2R x))) by (apply generic_format_succ; [typeclasses eauto|exact HFx]).
  pose proof (ulp_ge_0 radix2 fmt (B2R x)) as Hu0.
  assert (Hul : ulp radix2 fmt (B2R x) <= B2R x) by (apply ulp_le_id; assumption).
  assert (Esp : np_spacing x = fsub (Bsucc x) x).
  { unfold np_spacing. destruct x as [s|s| |s m e He]; cbn in Hx; try lra; rewrite Sg; reflexivity. }
  unfold default_stop. rewrite Esp.
  assert (Ed : B2R (Bsucc x) - B2R x = ulp radix2 fmt (B2R x)) by (rewrite EB, Esu; ring).
  destruct (fsub_ok (Bsucc x) x FB Hf) as [E1 [F1 _]].
  { rewrite Ed, (rnd_id _ HFu), Rabs_pos_eq by exact Hu0. lra. }
  rewrite Ed, (rnd_id _ HFu) in E1.
  destruct (fadd_ok x (fsub (Bsucc x) x) Hf F1) as [E2 F2].
  { rewrite E1, <- Esu, (rnd_id _ HFs), Rabs_pos_eq by lra. exact Hs. }
  split; [|exact F2]. rewrite E2, E1, <- Esu. apply rnd_id. exact HFs.
Qed.

Lemma default_stop_neg x : B2R x < 0 -> - bpow radix2 1024 < pred radix2 fmt (B2R x) ->
  B2R (default_stop x) = pred radix2 fmt (B2R x) /\ fin (default_stop x).
Proof.
  intros Hx Hs. destruct (sign_neg x Hx) as [Sg Hf].
  pose proof (Bpred_correct 53 1024 _ _ x Hf) as HB.
  change (pred radix2 (SpecFloat.fexp 53 1024) (B2R x)) with (pred radix2 fmt (B2R x)) in HB.
  rewrite Rlt_bool_true in HB by exact Hs. destruct HB as [EB [FB _]].
  pose proof (B2R_format x) as HFx.
  assert (Esu : pred radix2 fmt (B2R x) = B2R x - ulp radix2 fmt (B2R x)).
  { unfold pred. rewrite succ_eq_pos by lra. rewrite ulp_opp. ring. }
  assert (HFu : F64 (ulp radix2 fmt (B2R x))) by (apply generic_format_ulp; typeclasses eauto).
  assert (HFs : F64 (pred radix2 fmt (B2R x))) by (apply generic_format_pred; [typeclasses eauto|exact HFx]).
  pose proof (ulp_ge_0 radix2 fmt (B2R x)) as Hu0.
  assert (Hul : ulp radix2 fmt (B2R x) <= - B2R x).
  { rewrite <- ulp_opp. apply ulp_le_id; [lra|]. apply generic_format_opp. exact HFx. }
  assert (Esp : np_spacing x = fsub (Bpred x) x).
  { unfold np_spacing. destruct x as [s|s| |s m e He]; cbn in Hx; try lra; rewrite Sg; reflexivity. }
  unfold default_stop. rewrite Esp.
  assert (Ed : B2R (Bpred x) - B2R x = - ulp radix2 fmt (B2R x)) by (rewrite EB, Esu; ring).
  assert (HFn : F64 (- ulp radix2 fmt (B2R x))) by (apply generic_format_opp; exact HFu).
  destruct (fsub_ok (Bpred x) x FB Hf) as [E1 [F1 _]].
  { rewrite Ed, (rnd_id _ HFn), Rabs_Ropp, Rabs_pos_eq by exact Hu0. lra. }
  rewrite Ed, (rnd_id _ HFn) in E1.
  assert (Ead : B2R x + - ulp radix2 fmt (B2R x) = pred radix2 fmt (B2R x)) by (rewrite Esu; ring).
  destruct (fadd_ok x (fsub (Bpred x) x) Hf F1) as [E2 F2].
  { rewrite E1, Ead, (rnd_id _ HFs), Rabs_left1 by lra. lra. }
  split; [|exact F2]. rewrite E2, E1, Ead. apply rnd_id. exact HFs.
Qed.

(** A quotient with numerator at least the positive denominator is rejected. *)
Lemma reject_ge a d : fin a -> fin d -> 0 < B2R d -> B2R d <= B2R a ->
  grid_accepts (fdiv a d) = false.
Proof.
  intros Ha Hd Hp Hge. destruct (grid_accepts (fdiv a d)) eqn:E; [|reflexivity]. exfalso.
  apply accepts_unit in E. destruct E as [Hf [_ Hlt]].
  rewrite (fdiv_finite_ok a d Ha ltac:(lra) Hf) in Hlt.
  assert (1 <= rnd (B2R a / B2R d)); [|lra]. apply rnd_ge; [apply F64_1|].
  apply Rmult_le_reg_r with (B2R d); [exact Hp|]. unfold Rdiv.
  rewrite Rmult_assoc, Rinv_l by lra. lra.
Qed.
Lemma reject_zero a d : fin a -> 0 < B2R a -> fin d -> B2R d = 0 ->
  grid_accepts (fdiv a d) = false.
Proof.
  intros Ha Hp Hd E0. destruct (sign_pos a Hp) as [Sg _].
  destruct d as [s|s| |s m e He]; cbn in E0; try discriminate.
  - destruct a as [sa|sa| |sa ma ea Hea]; cbn in Hp; try lra. destruct s, sa; reflexivity.
  - exfalso. apply F2R_eq_0 in E0 || (apply eq_0_F2R in E0). destruct s; discriminate.
Qed.

Lemma rnd_nonneg x : 0 <= x -> 0 <= rnd x.
Proof. intros H. apply rnd_ge; [apply F64_0|exact H]. Qed.

Lemma B2R_lt_max (x : f64) : Rabs (B2R x) < bpow radix2 1024.
Proof. apply (abs_B2R_lt_emax 53 1024). Qed.

Lemma rnd_pos_bound x y : 0 <= x -> x <= y -> F64 y -> y < bpow radix2 1024 -> Rabs (rnd x) < bpow radix2 1024.
Proof.
  intros H0 Hle HF Hb. rewrite Rabs_pos_eq by (apply rnd_nonneg; exact H0).
  apply Rle_lt_trans with y; [apply rnd_le_g; assumption|exact Hb].
Qed.

Lemma rnd_diff_pos x y : F64 x -> F64 y -> y < x -> 0 < rnd (x - y).
Proof.
  intros Hx Hy Hlt. assert (H0 : 0 <= rnd (x - y)) by (apply rnd_nonneg; lra).
  assert (HFy : F64 (- y)) by (apply generic_format_opp; exact Hy).
  pose proof (round_plus_neq_0 radix2 fmt ZnearestE x (- y) Hx HFy ltac:(lra)) as Hn.
  change (x + - y) with (x - y) in Hn. lra.
Qed.

Theorem negative_max_dropped qmin qmax :
  fin qmin -> B2R qmin < B2R qmax -> B2R qmax < 0 -> default_accepts qmax qmin qmax = false.
Proof.
  intros Fm Hlt Hneg. destruct (sign_neg qmax Hneg) as [_ Fx].
  pose proof (B2R_format qmin) as HFm. pose proof (B2R_format qmax) as HFx.
  assert (Hpm : B2R qmin <= pred radix2 fmt (B2R qmax)) by (apply pred_ge_gt; try typeclasses eauto; assumption).
  pose proof (B2R_lt_max qmin) as Hbm. rewrite Rabs_left1 in Hbm by lra.
  destruct (default_stop_neg qmax Hneg) as [Es Fs]; [lra|].
  assert (Hpx : pred radix2 fmt (B2R qmax) <= B2R qmax) by apply pred_le_id.
  assert (HFo : F64 (- B2R qmin)) by (apply generic_format_opp; exact HFm).
  unfold default_accepts, grid_pos.
  destruct (fsub_ok qmax qmin Fx Fm) as [Ea [Fa _]].
  { apply rnd_pos_bound with (- B2R qmin); try assumption; lra. }
  destruct (fsub_ok (default_stop qmax) qmin Fs Fm) as [Ed [Fd _]].
  { apply rnd_pos_bound with (- B2R qmin); rewrite ?Es; try assumption; lra. }
  assert (Hda : B2R (fsub (default_stop qmax) qmin) <= B2R (fsub qmax qmin)).
  { rewrite Ea, Ed, Es. apply rnd_le. lra. }
  assert (Hd0 : 0 <= B2R (fsub (default_stop qmax) qmin)).
  { rewrite Ed, Es. apply rnd_nonneg. lra. }
  destruct (Req_dec (B2R (fsub (default_stop qmax) qmin)) 0) as [E0|E0].
  - apply reject_zero; try assumption. rewrite Ea. apply rnd_diff_pos; assumption.
  - apply reject_ge; try assumption. lra.
Qed.

Theorem small_max_dropped qmin qmax :
  fin qmin -> 0 < B2R qmax -> B2R qmax * bpow radix2 55 <= - B2R qmin ->
  - B2R qmin < bpow radix2 1000 ->
  default_accepts qmax qmin qmax = false.
Proof.
  intros Fm Hpos Hle Hb. destruct (sign_pos qmax Hpos) as [_ Fx].
  pose proof (B2R_format qmin) as HFm. pose proof (B2R_format qmax) as HFx.
  pose proof (bpow_gt_0 radix2 55) as H55.
  assert (H55' : 1 <= bpow radix2 55) by (change 1 with (bpow radix2 0); apply bpow_le; lia).
  assert (Hxb : B2R qmax <= - B2R qmin) by nra.
  assert (Hul : ulp radix2 fmt (B2R qmax) <= B2R qmax) by (apply ulp_le_id; assumption).
  pose proof (ulp_ge_0 radix2 fmt (B2R qmax)) as Hu0.
  assert (Esu : succ radix2 fmt (B2R qmax) = B2R qmax + ulp radix2 fmt (B2R qmax)) by (apply succ_eq_pos; lra).
  assert (Hbig : 2 * bpow radix2 1000 < bpow radix2 1024).
  { change 2 with (bpow radix2 1). rewrite <- bpow_plus. apply bpow_lt. lia. }
  destruct (default_stop_pos qmax Hpos) as [Es Fs]; [lra|].
  set (w := - B2R qmin) in *.
  assert (HFw : F64 w) by (apply generic_format_opp; exact HFm).
  assert (Hw : 0 < w) by lra.
  assert (Hround : forall t, 0 <= t -> t * bpow radix2 54 <= w -> rnd (w + t) = w).
  { intros t Ht Htw. apply Rle_antisym; [|apply rnd_ge; [exact HFw|lra]].
    apply (round_N_le_midp radix2 fmt (fun x => negb (Z.even x))); [exact HFw|].
    rewrite succ_eq_pos by lra.
    assert (Hug : w * bpow radix2 (-53) < ulp radix2 fmt w).
    { pose proof (ulp_FLT_gt radix2 (-1074) 53 w) as H. rewrite Rabs_pos_eq in H by lra. exact H. }
    assert (E53 : bpow radix2 (-53) = 2 * bpow radix2 (-54)).
    { change 2 with (bpow radix2 1). rewrite <- bpow_plus. reflexivity. }
    assert (E54 : bpow radix2 54 * bpow radix2 (-54) = 1) by (rewrite <- bpow_plus; reflexivity).
    assert (Htb : t <= w * bpow radix2 (-54)).
    { pose proof (bpow_gt_0 radix2 (-54)). replace t with (t * bpow radix2 54 * bpow radix2 (-54)) by (rewrite Rmult_assoc, E54; ring).
      apply Rmult_le_compat_r; lra. }
    rewrite E53 in Hug. lra. }
  assert (E5554 : bpow radix2 55 = 2 * bpow radix2 54).
  { change 2 with (bpow radix2 1). rewrite <- bpow_plus. reflexivity. }
  pose proof (bpow_gt_0 radix2 54) as H54.
  assert (R1 : rnd (B2R qmax - B2R qmin) = w).
  { replace (B2R qmax - B2R qmin) with (w + B2R qmax) by (unfold w; ring). apply Hround; nra. }
  assert (R2 : rnd (B2R (default_stop qmax) - B2R qmin) = w).
  { rewrite Es, Esu. replace (B2R qmax + ulp radix2 fmt (B2R qmax) - B2R qmin)
      with (w + (B2R qmax + ulp radix2 fmt (B2R qmax))) by (unfold w; ring). apply Hround; nra. }
  unfold default_accepts, grid_pos.
  destruct (fsub_ok qmax qmin Fx Fm) as [Ea [Fa _]]; [rewrite R1, Rabs_pos_eq by lra; lra|].
  destruct (fsub_ok (default_stop qmax) qmin Fs Fm) as [Ed [Fd _]]; [rewrite R2, Rabs_pos_eq by lra; lra|].
  apply reject_ge; try assumption; rewrite ?Ed, ?Ea, ?R1, ?R2; lra.
Qed.

Theorem exact_range_kept qmin qmax :
  fin qmin -> 0 <= B2R qmin -> B2R qmin < B2R qmax ->
  F64 (B2R qmax - B2R qmin) -> succ radix2 fmt (B2R qmax) < bpow radix2 1024 ->
  default_accepts qmax qmin qmax = true.
Proof.
  intros Fm H0 Hlt HFd Hs. assert (Hpos : 0 < B2R qmax) by lra.
  destruct (sign_pos qmax Hpos) as [_ Fx].
  pose proof (B2R_format qmin) as HFm. pose proof (B2R_format qmax) as HFx.
  destruct (default_stop_pos qmax Hpos Hs) as [Es Fs].
  assert (Esu : succ radix2 fmt (B2R qmax) = B2R qmax + ulp radix2 fmt (B2R qmax)) by (apply succ_eq_pos; lra).
  set (a := B2R qmax - B2R qmin) in *.
  assert (Ha : 0 < a) by (unfold a; lra).
  pose proof (B2R_lt_max qmax) as Hbx. rewrite Rabs_pos_eq in Hbx by lra.
  unfold default_accepts, grid_pos.
  destruct (fsub_ok qmax qmin Fx Fm) as [Ea [Fa _]].
  { fold a. rewrite (rnd_id _ HFd), Rabs_pos_eq by lra. unfold a. lra. }
  fold a in Ea. rewrite (rnd_id _ HFd) in Ea.
  assert (HFs : F64 (succ radix2 fmt (B2R qmax))) by (apply generic_format_succ; [typeclasses eauto|exact HFx]).
  assert (Hsx : B2R qmax <= succ radix2 fmt (B2R qmax)) by apply succ_ge_id.
  destruct (fsub_ok (default_stop qmax) qmin Fs Fm) as [Ed [Fd _]].
  { apply rnd_pos_bound with (succ radix2 fmt (B2R qmax)); rewrite ?Es; try assumption; lra. }
  assert (Hsa : succ radix2 fmt a <= B2R (fsub (default_stop qmax) qmin)).
  { rewrite Ed, Es. apply rnd_ge; [apply generic_format_succ; [typeclasses eauto|exact HFd]|].
    rewrite Esu, succ_eq_pos by lra.
    assert (ulp radix2 fmt a <= ulp radix2 fmt (B2R qmax)).
    { apply ulp_le_pos; try typeclasses eauto; unfold a; lra. }
    unfold a in *. lra. }
  set (D := fsub (default_stop qmax) qmin) in *.
  assert (HaD : a < B2R D).
  { apply Rlt_le_trans with (2 := Hsa). apply succ_gt_id. lra. }
  pose proof (div_below a (B2R D) HFd (B2R_format D) Ha HaD) as Hq.
  assert (Hq0 : 0 <= rnd (a / B2R D)).
  { apply rnd_nonneg. apply Rmult_le_pos; [lra|]. left. apply Rinv_0_lt_compat. lra. }
  destruct (fdiv_ok (fsub qmax qmin) D Fa ltac:(lra)) as [Eq Fq].
  { rewrite Ea, Rabs_pos_eq by exact Hq0. apply Rlt_le_trans with 1; [exact Hq|].
    change 1 with (bpow radix2 0). apply bpow_le. lia. }
  unfold grid_accepts. rewrite fleb_ok, fltb_ok by (assumption || reflexivity).
  rewrite Eq, Ea, fone_R. rewrite Rle_bool_true by (cbn; exact Hq0).
  rewrite Rlt_bool_true by exact Hq. reflexivity.
Qed.

(* ------------------------------------------------------------------ *)
(** * Histogram index *)
Section Hist.
Variables (pos low high : f64) (nbin : Z).
Hypotheses (Fp : fin pos) (Fl : fin low) (Fh : fin high).
Hypothesis (Hlo : B2R low <= B2R pos) (Hhi : B2R pos < B2R high).
Hypothesis (FD : fin (fsub high low)).

Lemma hist_tests : fleb low pos && fltb pos high = true.
Proof.
  rewrite fleb_ok, fltb_ok by assumption. rewrite Rle_bool_true, Rlt_bool_true by assumption. reflexivity.
Qed.
Lemma num_le : B2R (fsub pos low) = rnd (B2R pos - B2R low) /\ fin (fsub pos low) /\
  0 <= B2R (fsub pos low) <= B2R (fsub high low) /\ B2R (fsub high low) = rnd (B2R high - B2R low).
Proof.
  destruct (fsub_finite_ok high low Fh Fl FD) as [ED HD].
  assert (Hmon : rnd (B2R pos - B2R low) <= rnd (B2R high - B2R low)) by (apply rnd_le; lra).
  assert (H0 : 0 <= rnd (B2R pos - B2R low)) by (apply rnd_nonneg; lra).
  destruct (fsub_ok pos low Fp Fl) as [EN [FN _]].
  { rewrite Rabs_pos_eq in HD by lra. rewrite Rabs_pos_eq by lra. lra. }
  rewrite EN, ED. tauto.
Qed.

Theorem hist_index_le :
  (1 <= nbin <= 2 ^ 50)%Z -> bpow radix2 (-1021) <= B2R (hist_binsize low high nbin) ->
  fin (hist_binsize low high nbin) ->
  (0 <= find_indices pos low high nbin <= nbin)%Z.
Proof.
  intros Hn Hbs Fb. unfold find_indices. rewrite hist_tests.
  destruct num_le as [EN [FN [HN ED]]].
  destruct (f64_of_Z_ok nbin ltac:(lia)) as [En Fn].
  assert (Hn1 : 1 <= IZR nbin) by (apply IZR_le; lia).
  assert (Hn50 : IZR nbin <= bpow radix2 50) by (rewrite bpow_IZR by lia; apply IZR_le; lia).
  set (D := fsub high low) in *. set (bs := hist_binsize low high nbin) in *.
  assert (Eb : B2R bs = rnd (B2R D / IZR nbin)).
  { unfold bs, hist_binsize. fold D. rewrite fdiv_finite_ok; rewrite ?En; auto; try lra. }
  pose proof (bpow_gt_0 radix2 (-1021)) as Hb0.
  set (q := B2R D / IZR nbin) in *.
  assert (Hq0 : 0 <= q) by (apply Rmult_le_pos; [lra|left; apply Rinv_0_lt_compat; lra]).
  assert (Hqn : bpow radix2 (-1022) <= q).
  { destruct (Rle_or_lt (bpow radix2 (-1022)) q) as [|Hl]; [assumption|]. exfalso.
    assert (rnd q <= bpow radix2 (-1022)).
    { apply rnd_le_g; [|lra]. apply generic_format_bpow. unfold FLT_exp. lia. }
    assert (bpow radix2 (-1022) < bpow radix2 (-1021)) by (apply bpow_lt; lia). lra. }
  assert (Herr : Rabs (rnd q - q) <= / 2 * bpow radix2 (-53 + 1) * Rabs q).
  { apply (relative_error_N_FLT radix2 (-1074) 53); [reflexivity|].
    rewrite Rabs_pos_eq by lra. exact Hqn. }
  assert (E52 : / 2 * bpow radix2 (-53 + 1) = bpow radix2 (-53)).
  { change (/ 2) with (bpow radix2 (-1)). rewrite <- bpow_plus. reflexivity. }
  rewrite E52, (Rabs_pos_eq q) in Herr by lra.
  assert (Hlow : q * (1 - bpow radix2 (-53)) <= B2R bs).
  { rewrite Eb. pose proof (Rle_abs (-(rnd q - q))) as Ha. rewrite Rabs_Ropp in Ha. lra. }
  assert (EDq : B2R D = q * IZR nbin) by (unfold q; field; lra).
  assert (Hbsp : 0 < B2R bs) by lra.
  assert (Hval : B2R (fsub pos low) / B2R bs <= IZR nbin + / 2).
  { apply Rmult_le_reg_r with (B2R bs); [exact Hbsp|]. unfold Rdiv.
    rewrite Rmult_assoc, Rinv_l, Rmult_1_r by lra.
    apply Rle_trans with (q * IZR nbin); [lra|].
    apply Rle_trans with ((IZR nbin + / 2) * (q * (1 - bpow radix2 (-53)))).
    2:{ apply Rmult_le_compat_l; lra. }
    assert (Hs : (IZR nbin + / 2) * bpow radix2 (-53) <= / 2).
    { assert (E : bpow radix2 (-53) = bpow radix2 (-51) * / 4).
      { change (/ 4) with (bpow radix2 (-2)). rewrite <- bpow_plus. reflexivity. }
      assert (E2 : bpow radix2 50 * bpow radix2 (-51) = / 2) by (rewrite <- bpow_plus; reflexivity).
      assert (Hb51 : bpow radix2 (-51) <= 1) by (change 1 with (bpow radix2 0); apply bpow_le; lia).
      pose proof (bpow_gt_0 radix2 (-51)).
      assert (IZR nbin * bpow radix2 (-51) <= / 2) by (rewrite <- E2; apply Rmult_le_compat_r; lra).
      rewrite E. lra. }
    nra. }
  assert (Hv0 : 0 <= B2R (fsub pos low) / B2R bs).
  { apply Rmult_le_pos; [lra|]. left. apply Rinv_0_lt_compat. lra. }
  assert (HFh : F64 (IZR nbin + / 2)) by (apply half_format; lia).
  pose proof (rnd_le_g _ _ HFh Hval) as Hr. pose proof (rnd_nonneg _ Hv0) as Hr0.
  destruct (fdiv_ok (fsub pos low) bs FN ltac:(lra)) as [Eq Fq].
  { rewrite Rabs_pos_eq by exact Hr0. apply Rle_lt_trans with (1 := Hr).
    apply Rle_lt_trans with (bpow radix2 50 + bpow radix2 50).
    - assert (1 <= bpow radix2 50) by (change 1 with (bpow radix2 0); apply bpow_le; lia). lra.
    - replace (bpow radix2 50 + bpow radix2 50) with (bpow radix2 1 * bpow radix2 50) by (cbn; ring).
      rewrite <- bpow_plus. apply bpow_lt. lia. }
  rewrite Btrunc_floor, Eq.
  assert (Ht : (0 <= Ztrunc (rnd (B2R (fsub pos low) / B2R bs)) < nbin + 1)%Z).
  { apply Ztrunc_lt; [exact Hr0|]. rewrite plus_IZR. lra. }
  lia.
Qed.

Theorem hist_exact_safe :
  (1 <= nbin <= 2 ^ 50)%Z ->
  B2R (fsub pos low) = B2R pos - B2R low -> B2R (fsub high low) = B2R high - B2R low ->
  B2R (hist_binsize low high nbin) * IZR nbin = B2R high - B2R low ->
  (0 <= find_indices pos low high nbin < nbin)%Z.
Proof.
  intros Hn E1 E2 E3. unfold find_indices. rewrite hist_tests.
  destruct num_le as [EN [FN [HN ED]]].
  assert (Hn1 : 1 <= IZR nbin) by (apply IZR_le; lia).
  set (a := B2R pos - B2R low) in *. set (d := B2R high - B2R low) in *.
  set (bs := hist_binsize low high nbin) in *.
  assert (Ha : 0 <= a) by (unfold a; lra). assert (Had : a < d) by (unfold a, d; lra).
  assert (HFa : F64 a) by (rewrite <- E1; apply B2R_format).
  assert (HFd : F64 d) by (rewrite <- E2; apply B2R_format).
  assert (Hbs : 0 < B2R bs) by nra.
  assert (Hr : 0 <= rnd (a / B2R bs) < IZR nbin).
  { split. { apply rnd_nonneg. apply Rmult_le_pos; [exact Ha|]. left. apply Rinv_0_lt_compat. exact Hbs. }
    destruct (Req_dec a 0) as [->|Hne].
    { unfold Rdiv. rewrite Rmult_0_l, rnd_0. lra. }
    assert (Hratio : a / d <= 1 - bpow radix2 (-53)).
    { apply Rle_trans with (a / succ radix2 fmt a); [|apply succ_ratio; [lra|exact HFa]].
      apply Rmult_le_compat_l; [lra|]. apply Rinv_le.
      - apply Rlt_le_trans with a; [lra|apply succ_ge_id].
      - apply succ_le_lt; try typeclasses eauto; assumption. }
    assert (Eq : a / B2R bs = a / d * IZR nbin).
    { rewrite <- E3. field. split; lra. }
    rewrite Eq. assert (HF : F64 (IZR nbin)) by (apply Z_format; lia).
    apply Rle_lt_trans with (pred radix2 fmt (IZR nbin)).
    + apply (round_N_le_midp radix2 fmt (fun x => negb (Z.even x))).
      * apply generic_format_pred; [typeclasses eauto|exact HF].
      * apply Rle_lt_trans with (IZR nbin * (1 - bpow radix2 (-53))).
        -- rewrite Rmult_comm. apply Rmult_le_compat_l; lra.
        -- apply pred_gap; [lra|exact HF|]. apply Rle_trans with 1; [|lra].
           change 1 with (bpow radix2 0). apply bpow_le. lia.
    + apply pred_lt_id. lra. }
  destruct (fdiv_ok (fsub pos low) bs FN ltac:(lra)) as [Eq Fq].
  { rewrite E1, Rabs_pos_eq by lra. apply Rlt_trans with (IZR nbin); [lra|].
    apply Rle_lt_trans with (IZR (2 ^ 50)); [apply IZR_le; lia|].
    rewrite <- bpow_IZR by lia. apply bpow_lt. lia. }
  rewrite Btrunc_floor, Eq, E1. apply Ztrunc_lt; lra.
Qed.
End Hist.
