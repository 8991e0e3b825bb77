From Coq Require Import List ZArith Reals Lia Lra Bool.
From Verif Require Import F64 EdgesF_Model EdgesF_Spec RunMean_Proofs.
From Flocq Require Import Core Relative Sterbenz Plus_error Mult_error.
Import ListNotations.
Open Scope R_scope.

(** ** Exact values *)
Lemma dyadic_F64 m e : (Z.abs m < 2 ^ 53)%Z -> (-1074 <= e)%Z -> F64 (IZR m * bpow radix2 e).
Proof. intros Hm He. apply generic_format_FLT. exists (Float radix2 m e); [reflexivity|exact Hm|exact He]. Qed.
Lemma f64_of_ok m e : (Z.abs m < 2 ^ 53)%Z -> (-1074 <= e)%Z -> Rabs (IZR m * bpow radix2 e) < bpow radix2 1024 ->
  B2R (f64_of m e) = IZR m * bpow radix2 e /\ fin (f64_of m e).
Proof.
  intros Hm He Hb. pose proof (binary_normalize_correct 53 1024 _ _ mode_NE m e false) as H. cbv zeta in H.
  change (round radix2 (SpecFloat.fexp 53 1024) (round_mode mode_NE)) with rnd in H.
  change (F2R (Float radix2 m e)) with (IZR m * bpow radix2 e) in H. rewrite (rnd_id _ (dyadic_F64 m e Hm He)) in H.
  rewrite Rlt_bool_true in H by exact Hb. split; apply H.
Qed.
Lemma parts_ok x : fin x -> B2R x = IZR (fst (parts x)) * bpow radix2 (snd (parts x)) /\ (Z.abs (fst (parts x)) < 2 ^ 53)%Z /\ (-1074 <= snd (parts x))%Z.
Proof.
  destruct x as [s|s| |s m e He]; try discriminate; intros _; cbn [parts fst snd B2R].
  - split; [ring|lia].
  - pose proof He as He'. unfold SpecFloat.bounded in He. apply andb_true_iff in He. destruct He as [C _]. unfold SpecFloat.canonical_mantissa in C. apply Zeq_bool_eq in C.
    unfold SpecFloat.fexp, SpecFloat.emin in C. rewrite Digits.Zpos_digits2_pos in C.
    split; [destruct s; reflexivity|]. split; [|lia].
    assert (Z.abs (if s then Zneg m else Zpos m) = Zpos m) as -> by (destruct s; reflexivity).
    apply Digits.Zpower_gt_Zdigits with (beta := radix2) (e := 53%Z) (x := Zpos m). lia.
Qed.
Lemma fmod_ok x y : fin x -> fin y -> 0 < B2R x -> 0 < B2R y ->
  exists q, (0 <= q)%Z /\ whole_steps (B2R x) (B2R y) q /\ B2R (fmod x y) = B2R x - IZR q * B2R y /\ fin (fmod x y).
Proof.
  intros Fx Fy Px Py. destruct (parts_ok x Fx) as (Ex & Bx & Lx). destruct (parts_ok y Fy) as (Ey & By & Ly).
  unfold fmod. destruct (parts x) as [a e]. destruct (parts y) as [b f]. cbn [fst snd] in *. set (g := Z.min e f).
  assert (Pa : (0 < a)%Z). { apply lt_IZR. apply (Rmult_lt_reg_r (bpow radix2 e)); [apply bpow_gt_0|]. lra. }
  assert (Pb : (0 < b)%Z). { apply lt_IZR. apply (Rmult_lt_reg_r (bpow radix2 f)); [apply bpow_gt_0|]. lra. }
  set (a' := (a * 2 ^ (e - g))%Z). set (b' := (b * 2 ^ (f - g))%Z).
  assert (P2 : forall k, (0 <= k)%Z -> (0 < 2 ^ k)%Z) by (intros; apply Z.pow_pos_nonneg; lia).
  assert (Pa' : (0 < a')%Z). { apply Z.mul_pos_pos; [exact Pa|apply P2; unfold g; lia]. }
  assert (Pb' : (0 < b')%Z). { apply Z.mul_pos_pos; [exact Pb|apply P2; unfold g; lia]. }
  assert (Ea : B2R x = IZR a' * bpow radix2 g).
  { rewrite Ex. unfold a'. rewrite mult_IZR, <- bpow_IZR by (unfold g; lia). rewrite Rmult_assoc, <- bpow_plus. f_equal. f_equal. lia. }
  assert (Eb : B2R y = IZR b' * bpow radix2 g).
  { rewrite Ey. unfold b'. rewrite mult_IZR, <- bpow_IZR by (unfold g; lia). rewrite Rmult_assoc, <- bpow_plus. f_equal. f_equal. lia. }
  pose proof (Z.div_mod a' b' ltac:(lia)) as DM. pose proof (Z.mod_pos_bound a' b' Pb') as MB.
  set (q := (a' / b')%Z) in *. set (r := (a' mod b')%Z) in *.
  assert (Q0 : (0 <= q)%Z) by (unfold q; apply Z.div_pos; lia).
  assert (Rb : (r < 2 ^ 53)%Z).
  { destruct (Z.le_ge_cases e f) as [H|H].
    - assert (a' = a) by (unfold a', g; rewrite Z.min_l, Z.sub_diag by lia; cbn; lia). assert (r <= a')%Z by nia. lia.
    - assert (b' = b) by (unfold b', g; rewrite Z.min_r, Z.sub_diag by lia; cbn; lia). lia. }
  assert (G : 0 < bpow radix2 g) by apply bpow_gt_0.
  assert (Ax : IZR a' = IZR b' * IZR q + IZR r) by (rewrite <- mult_IZR, <- plus_IZR; f_equal; exact DM).
  assert (R0 : 0 <= IZR r) by (apply IZR_le; lia). assert (R1 : IZR r < IZR b') by (apply IZR_lt; lia).
  destruct (f64_of_ok r g) as [V F]; [lia|unfold g; lia| |].
  { rewrite Rabs_pos_eq by (apply Rmult_le_pos; lra). apply Rlt_trans with (B2R y); [rewrite Eb; apply Rmult_lt_compat_r; assumption|].
    rewrite <- (Rabs_pos_eq (B2R y)) by lra. apply abs_B2R_lt_emax. }
  exists q. split; [exact Q0|]. split.
  - unfold whole_steps. rewrite Ea, Eb, Ax. split; nra.
  - split; [|exact F]. rewrite V, Ea, Eb, Ax. ring.
Qed.
Lemma fhalf_ok : B2R fhalf = / 2 /\ fin fhalf.
Proof. split; [|reflexivity]. vm_compute. lra. Qed.

(** relative error of a rounding above the smallest normal number; below it sums of doubles are exact *)
Lemma rnd_rel x : bpow radix2 (-1022) <= Rabs x -> Rabs (rnd x - x) <= u53 * Rabs x.
Proof.
  intros H. pose proof (relative_error_N_FLT radix2 (-1074) 53 ltac:(lia) (fun z => negb (Z.even z)) x) as E.
  specialize (E ltac:(exact H)). replace (/ 2 * bpow radix2 (- (53) + 1)) with u53 in E; [exact E|].
  change (/2) with (bpow radix2 (-1)). rewrite <- bpow_plus. reflexivity.
Qed.
Lemma rnd_rel_sum x y : F64 x -> F64 y -> Rabs (rnd (x + y) - (x + y)) <= u53 * Rabs (x + y).
Proof.
  intros Fx Fy. destruct (Rle_or_lt (bpow radix2 (-1022)) (Rabs (x + y))) as [H|H]; [apply rnd_rel, H|].
  assert (F : F64 (x + y)). { apply (FLT_format_plus_small radix2 (-1074) 53 x y Fx Fy). apply Rle_trans with (bpow radix2 (-1022)); [lra|apply bpow_le; lia]. }
  rewrite (rnd_id _ F). rewrite Rminus_diag_eq, Rabs_R0 by reflexivity. apply Rmult_le_pos; [apply bpow_ge_0|apply Rabs_pos].
Qed.

Lemma u53_val : u53 = / 9007199254740992. Proof. reflexivity. Qed.
(** ** Whole steps: the algorithm is exact below 2^50 *)
Lemma whole_steps_unique D s q q' : 0 < s -> whole_steps D s q -> whole_steps D s q' -> q = q'.
Proof.
  intros Ps [A B] [A' B']. assert (q < q' + 1)%Z. { apply lt_IZR. rewrite plus_IZR. apply (Rmult_lt_reg_r s); lra. }
  assert (q' < q + 1)%Z. { apply lt_IZR. rewrite plus_IZR. apply (Rmult_lt_reg_r s); lra. } lia.
Qed.
Theorem floordiv_ok x y q : fin x -> fin y -> 0 < B2R x -> 0 < B2R y -> whole_steps (B2R x) (B2R y) q -> (q < 2 ^ 50)%Z -> floordiv x y = q.
Proof.
  intros Fx Fy Px Py W Q. destruct (fmod_ok x y Fx Fy Px Py) as (q' & Q0 & W' & M & FM).
  assert (q' = q) by (apply (whole_steps_unique (B2R x) (B2R y)); assumption). subst q'. clear W'.
  assert (Fq : F64 (IZR q)) by (apply Z_format; lia).
  destruct W as [W1 W2]. set (w := B2R y) in *. set (v := B2R x) in *.
  assert (Qr : 0 <= IZR q <= 1125899906842623). { split; apply IZR_le; lia. }
  (* the difference *)
  assert (E1 : rnd (v - B2R (fmod x y)) = rnd (IZR q * w)) by (f_equal; rewrite M; ring).
  assert (D1 : Rabs (rnd (IZR q * w) - IZR q * w) <= u53 * (IZR q * w)).
  { pose proof (rnd_rel_sum v (- B2R (fmod x y)) (B2R_format x) (generic_format_opp _ _ _ (B2R_format _))) as H.
    replace (v + - B2R (fmod x y)) with (IZR q * w) in H by (rewrite M; ring). rewrite (Rabs_pos_eq (IZR q * w)) in H by nra. exact H. }
  destruct (fsub_ok x (fmod x y) Fx FM) as (S1 & S2 & _).
  { fold v. rewrite E1. apply Rle_lt_trans with v; [|unfold v; rewrite <- (Rabs_pos_eq (B2R x)) by (fold v; lra); apply abs_B2R_lt_emax].
    rewrite Rabs_pos_eq by (apply rnd_pos; nra). apply rnd_le_g; [apply B2R_format|exact W1]. }
  fold v in S1. rewrite E1 in S1. set (p := rnd (IZR q * w)) in *. apply Rabs_le_inv in D1.
  (* the quotient *)
  assert (P0 : 0 <= p / w <= IZR q * (1 + u53)).
  { rewrite u53_val in *. split; [apply Rmult_le_pos; [nra|left; apply Rinv_0_lt_compat, Py]|]. apply (Rmult_le_reg_r w); [exact Py|]. replace (p / w * w) with p by (field; lra). nra. }
  assert (P1 : IZR q * (1 - u53) <= p / w).
  { apply (Rmult_le_reg_r w); [exact Py|]. replace (p / w * w) with p by (field; lra). nra. }
  assert (D2 : Rabs (rnd (p / w) - IZR q) < / 4 + / 8).
  { destruct (Z.eq_dec q 0) as [E|N].
    - subst q. assert (p / w = 0) as -> by (rewrite u53_val in *; lra). rewrite rnd_0, Rminus_0_r, Rabs_R0. lra.
    - assert (1 <= IZR q) by (apply IZR_le; lia). assert (R := rnd_rel (p / w)). rewrite Rabs_pos_eq in R by lra.
      assert (bpow radix2 (-1022) <= p / w) as B.
      { apply Rle_trans with (bpow radix2 (-1)); [apply bpow_le; lia|]. change (bpow radix2 (-1)) with (/ 2). rewrite u53_val in *. nra. }
      specialize (R B). apply Rabs_le_inv in R. rewrite u53_val in *. apply Rabs_lt. split; nra. }
  apply Rabs_def2 in D2. set (dv := rnd (p / w)) in *.
  destruct (fdiv_ok (fsub x (fmod x y)) y S2) as [V1 V2].
  { fold w. lra. }
  { rewrite S1. fold w dv. apply Rabs_lt. assert (2251799813685248 + 1 < bpow radix2 1024); [|lra].
    apply Rlt_trans with (bpow radix2 53); [cbn; lra|apply bpow_lt; lia]. }
  rewrite S1 in V1. fold w dv in V1.
  assert (dv0 : 0 <= dv) by (apply rnd_pos; lra).
  assert (T : Btrunc (fdiv (fsub x (fmod x y)) y) = Zfloor dv).
  { rewrite Btrunc_floor, V1. apply Ztrunc_floor, dv0. }
  unfold floordiv. rewrite T. set (n := Zfloor dv).
  assert (N : n = q /\ IZR q <= dv \/ n = (q - 1)%Z /\ dv < IZR q).
  { destruct (Rle_or_lt (IZR q) dv) as [H|H]; [left|right]; (split; [|exact H]); apply Zfloor_imp; rewrite ?plus_IZR, ?minus_IZR; try lra. }
  assert (n0 : (0 <= n)%Z) by (apply Zfloor_lub; exact dv0).
  destruct (f64_of_Z_ok n) as [C1 C2]; [lia|].
  assert (Sm : rnd (dv - IZR n) = dv - IZR n).
  { apply rnd_id. destruct (Z.eq_dec n 0) as [Z|NZ]; [rewrite Z, Rminus_0_r; apply generic_format_round; typeclasses eauto|].
    apply sterbenz; [typeclasses eauto|apply FLT_exp_monotone|apply generic_format_round; typeclasses eauto|apply Z_format; lia|].
    assert (1 <= IZR n) by (apply IZR_le; lia). pose proof (Zfloor_lb dv). pose proof (Zfloor_ub dv). fold n in H0, H1. lra. }
  destruct (fsub_ok (fdiv (fsub x (fmod x y)) y) (f64_of_Z n) V2 C2) as (G1 & G2 & _).
  { rewrite V1, C1, Sm. apply small_bound. pose proof (Zfloor_lb dv). pose proof (Zfloor_ub dv). fold n in H, H0. apply Rabs_le. lra. }
  rewrite V1, C1, Sm in G1. destruct fhalf_ok as [H1 H2].
  rewrite (fltb_ok _ _ H2 G2), H1, G1.
  destruct N as [[-> A]|[-> A]].
  - rewrite Rlt_bool_false by lra. reflexivity.
  - rewrite Rlt_bool_true by (rewrite minus_IZR; lra). lia.
Qed.

(** ** Multiples of a double *)
Lemma F64_unit s : F64 s -> exists m, s = IZR m * eta.
Proof.
  intros F. apply FLT_format_generic in F; [|typeclasses eauto]. destruct F as [[m e] E _ He]. cbn [Fnum Fexp] in *.
  exists (m * 2 ^ (e + 1074))%Z. rewrite E. unfold F2R. cbn [Fnum Fexp]. rewrite mult_IZR, <- bpow_IZR by lia. rewrite Rmult_assoc, <- bpow_plus. f_equal. f_equal. lia.
Qed.
Lemma rnd_rel_mult k s : F64 s -> Rabs (rnd (IZR k * s) - IZR k * s) <= u53 * Rabs (IZR k * s).
Proof.
  intros F. destruct (Rle_or_lt (bpow radix2 (-1022)) (Rabs (IZR k * s))) as [H|H]; [apply rnd_rel, H|].
  destruct (F64_unit s F) as [m E]. assert (Fk : F64 (IZR k * s)).
  { rewrite E, <- Rmult_assoc, <- mult_IZR. apply dyadic_F64; [|lia]. apply lt_IZR. rewrite abs_IZR.
    apply (Rmult_lt_reg_r eta); [apply bpow_gt_0|]. replace (Rabs (IZR (k * m)) * eta) with (Rabs (IZR k * s)).
    - apply Rlt_le_trans with (1 := H). rewrite <- bpow_IZR by lia. rewrite <- bpow_plus. apply bpow_le. lia.
    - rewrite E, <- Rmult_assoc, <- mult_IZR, Rabs_mult. f_equal. apply Rabs_pos_eq, bpow_ge_0. }
  rewrite (rnd_id _ Fk), Rminus_diag_eq, Rabs_R0 by reflexivity. apply Rmult_le_pos; [apply bpow_ge_0|apply Rabs_pos].
Qed.

Section Ladder.
Context (lo hi step : f64) (Fl : fin lo) (Fh : fin hi) (Fs : fin step) (B : R) (HB : B <= bpow radix2 1022)
  (Bl : Rabs (B2R lo) <= B) (Bh : Rabs (B2R hi) <= B) (LH : B2R lo < B2R hi) (Ps : 0 < B2R step).
Notation l := (B2R lo). Notation h := (B2R hi). Notation s := (B2R step). Notation D := (rnd (h - l)).
Definition edge (k : Z) : R := rnd (l + rnd (IZR k * s)).
Context (q : Z) (Wq : whole_steps D s q) (Sq : (q < 2 ^ 50)%Z) (SD : s <= D).

Lemma u_small : 0 < u53 <= / 9007199254740992. Proof. rewrite u53_val. lra. Qed.
Lemma B_pos : 0 < B. Proof. apply Rabs_le_inv in Bl, Bh. lra. Qed.
Lemma big : bpow radix2 1022 + bpow radix2 1022 + bpow radix2 1022 < bpow radix2 1024.
Proof. replace (bpow radix2 1024) with (4 * bpow radix2 1022) by (change 4 with (bpow radix2 2); rewrite <- bpow_plus; reflexivity). pose proof (bpow_gt_0 radix2 1022). lra. Qed.
Lemma D_close : Rabs (D - (h - l)) <= u53 * (h - l).
Proof. pose proof (rnd_rel_sum h (- l) (B2R_format hi) (generic_format_opp _ _ _ (B2R_format lo))) as H. rewrite (Rabs_pos_eq (h + - l)) in H by lra. exact H. Qed.
Lemma D_le : D <= 2 * bpow radix2 1022.
Proof.
  apply rnd_le_g; [change 2 with (bpow radix2 1); rewrite <- bpow_plus; apply generic_format_bpow; cbv; discriminate|].
  apply Rabs_le_inv in Bl, Bh. lra.
Qed.
Lemma diff_ok : B2R (fsub hi lo) = D /\ fin (fsub hi lo).
Proof.
  destruct (fsub_ok hi lo Fh Fl) as (E & F & _); [|split; assumption]. rewrite Rabs_pos_eq by (apply rnd_pos; lra). pose proof D_le. pose proof big. pose proof (bpow_gt_0 radix2 1022). lra.
Qed.
Lemma q_pos : (1 <= q)%Z.
Proof. destruct Wq as [_ W]. assert (0 < q)%Z; [|lia]. apply lt_IZR. apply (Rmult_lt_reg_r s); [exact Ps|]. lra. Qed.
Lemma mult_le k : (0 <= k <= q)%Z -> 0 <= IZR k * s <= D.
Proof.
  intros K. destruct Wq as [W _]. assert (0 <= IZR k) by (apply IZR_le; lia). assert (IZR k <= IZR q) by (apply IZR_le; lia).
  split; [apply Rmult_le_pos; lra|]. apply Rle_trans with (2 := W). apply Rmult_le_compat_r; lra.
Qed.
Lemma mult_rnd k : (0 <= k <= q)%Z -> 0 <= rnd (IZR k * s) <= D.
Proof. intros K. pose proof (mult_le k K). split; [apply rnd_pos; lra|]. apply rnd_le_g; [apply generic_format_round; typeclasses eauto|lra]. Qed.
Lemma edge_ok k : (0 <= k <= q)%Z -> let e := fadd lo (fmul (f64_of_Z k) step) in B2R e = edge k /\ fin e.
Proof.
  intros K e. unfold e. destruct (f64_of_Z_ok k) as [C1 C2]; [lia|]. pose proof (mult_rnd k K) as M. pose proof D_le as DL. pose proof big as BG. pose proof (bpow_gt_0 radix2 1022) as BP.
  destruct (fmul_ok (f64_of_Z k) step C2 Fs) as [M1 M2]; [rewrite C1, Rabs_pos_eq by lra; lra|]. rewrite C1 in M1.
  destruct (fadd_ok lo _ Fl M2) as [A1 A2].
  - rewrite M1. set (m := rnd (IZR k * s)) in *. apply Rabs_le_inv in Bl. apply Rle_lt_trans with (2 := BG). apply Rabs_le.
    assert (F3 : F64 (bpow radix2 1022 + bpow radix2 1022 + bpow radix2 1022)).
    { replace (bpow radix2 1022 + bpow radix2 1022 + bpow radix2 1022) with (IZR 3 * bpow radix2 1022) by lra. apply dyadic_F64; lia. }
    split; [apply rnd_ge; [apply generic_format_opp, F3|lra]|apply rnd_le_g; [exact F3|lra]].
  - rewrite M1 in A1. split; assumption.
Qed.
Lemma edge_mono i j : (0 <= i <= j)%Z -> (j <= q)%Z -> edge i <= edge j.
Proof. intros I J. apply rnd_le. apply Rplus_le_compat_l. apply rnd_le. apply Rmult_le_compat_r; [lra|]. apply IZR_le. lia. Qed.
Lemma edge_0 : edge 0 = l.
Proof. unfold edge. rewrite Rmult_0_l, rnd_0, Rplus_0_r. apply rnd_id, B2R_format. Qed.
Lemma edge_close k : (0 <= k <= q)%Z -> Rabs (edge k - (l + IZR k * s)) <= 4 * u53 * B.
Proof.
  intros K. pose proof (rnd_rel_mult k s (B2R_format step)) as E1. pose proof (mult_le k K) as M. pose proof (mult_rnd k K) as M'. rewrite (Rabs_pos_eq (IZR k * s)) in E1 by lra.
  assert (E2 : Rabs (edge k - (l + rnd (IZR k * s))) <= u53 * Rabs (l + rnd (IZR k * s))) by (apply rnd_rel_sum; [apply B2R_format|apply generic_format_round; typeclasses eauto]).
  pose proof D_close as DC. pose proof u_small as U. pose proof B_pos as BP. apply Rabs_le_inv in Bl, Bh, DC. set (m := rnd (IZR k * s)) in *. set (u := u53) in *. clearbody u.
  assert (D2 : D <= (h - l) + u * (2 * B)) by (assert (u * (h - l) <= u * (2 * B)) by (apply Rmult_le_compat_l; lra); lra).
  assert (uB : 0 <= u * B <= B * / 9007199254740992) by (split; [apply Rmult_le_pos; lra|rewrite (Rmult_comm u); apply Rmult_le_compat_l; lra]).
  assert (A : Rabs (l + m) <= B + 2 * (u * B)) by (apply Rabs_le; lra).
  apply Rabs_le_inv in E1, E2. assert (u * (IZR k * s) <= u * (2 * B + 2 * (u * B))) by (apply Rmult_le_compat_l; lra).
  assert (u * Rabs (l + m) <= u * (B + 2 * (u * B))) by (apply Rmult_le_compat_l; lra).
  assert (u * (u * B) <= u * B * / 9007199254740992) by (rewrite (Rmult_comm u (u * B)); apply Rmult_le_compat_l; lra).
  apply Rabs_le. lra.
Qed.
Lemma edge_before_last : edge (q - 1) <= h.
Proof.
  pose proof q_pos as Q. unfold edge. apply rnd_le_g; [apply B2R_format|]. pose proof (mult_le (q - 1) ltac:(lia)) as M.
  pose proof (rnd_rel_mult (q - 1) s (B2R_format step)) as E1. rewrite (Rabs_pos_eq (IZR (q - 1) * s)) in E1 by lra. pose proof D_close as DC. apply Rabs_le_inv in DC, E1.
  pose proof u_small as U. destruct Wq as [W1 W2]. rewrite minus_IZR in *. set (m := rnd ((IZR q - 1) * s)) in *. set (d := D) in *. clearbody m d.
  assert (S8 : 8 * (u53 * d) <= s).
  { rewrite u53_val. assert (IZR q + 1 <= 1125899906842624). { assert (q <= 1125899906842623)%Z as X by lia. apply IZR_le in X. lra. }
    assert ((IZR q + 1) * s <= 1125899906842624 * s) by (apply Rmult_le_compat_r; lra). lra. }
  rewrite u53_val in *. assert ((h - l) <= 2 * d) by lra. lra.
Qed.
End Ladder.

Lemma nth_map_seq {A} (f : nat -> A) n i : nth_error (map f (seq 0 n)) i = if (i <? n)%nat then Some (f i) else None.
Proof.
  destruct (Nat.ltb_spec i n) as [H|H].
  - rewrite nth_error_map, (nth_error_nth' _ 0%nat) by (rewrite seq_length; lia). rewrite seq_nth by lia. reflexivity.
  - apply nth_error_None. rewrite map_length, seq_length. exact H.
Qed.

(** the edges kept: n + 1 rungs *)
Definition rungs (lo step : f64) (n : nat) : list f64 := map (fun i => fadd lo (fmul (f64_of_Z (Z.of_nat i)) step)) (seq 0 (S n)).
Lemma rungs_removelast lo step n : removelast (rungs lo step (S n)) = rungs lo step n.
Proof. unfold rungs. rewrite (seq_S (S n)), map_app. cbn [map]. rewrite removelast_last. reflexivity. Qed.
Lemma rungs_last lo step n : last (rungs lo step n) fzero = fadd lo (fmul (f64_of_Z (Z.of_nat n)) step).
Proof. unfold rungs. rewrite seq_S, map_app. cbn [map]. rewrite last_last. reflexivity. Qed.

Section Edges.
Context (lo hi step : f64) (Fl : fin lo) (Fh : fin hi) (Fs : fin step) (B : R) (HB : B <= bpow radix2 1022)
  (Bl : Rabs (B2R lo) <= B) (Bh : Rabs (B2R hi) <= B) (LH : B2R lo < B2R hi) (Ps : 0 < B2R step)
  (q : Z) (Wq : whole_steps (rnd (B2R hi - B2R lo)) (B2R step) q) (Sq : (q < 2 ^ 50)%Z) (SD : B2R step <= rnd (B2R hi - B2R lo)).
Notation e := (edge lo step).
Lemma Q1 : (1 <= q)%Z. Proof. exact (q_pos lo hi step Ps q Wq SD). Qed.
Lemma edges_value : edges_min_max_step lo hi step =
  Some (rungs lo step (Z.to_nat (if Rlt_bool (B2R hi) (e q) then q - 1 else q))).
Proof.
  destruct (diff_ok lo hi Fl Fh B HB Bl Bh LH) as [D1 D2]. pose proof Q1 as Q1. unfold edges_min_max_step.
  rewrite fleb_ok, (Rle_bool_false _ _ LH) by assumption. rewrite fltb_ok, D1, (Rlt_bool_false _ _ SD) by assumption.
  rewrite fleb_ok, (Rle_bool_false (B2R step)) by (assumption || reflexivity || exact Ps).
  rewrite (floordiv_ok (fsub hi lo) step q) by (rewrite ?D1; (assumption || lia || (unfold whole_steps in *; lra))).
  assert (L : ladder lo step q = rungs lo step (Z.to_nat q)) by (unfold ladder, rungs; do 2 f_equal; lia). cbv zeta. rewrite L.
  rewrite rungs_last, Z2Nat.id by lia. destruct (edge_ok lo hi step Fl Fs B HB Bl Bh Ps q Wq Sq q) as [E1 E2]; [lia|].
  rewrite fltb_ok, E1 by assumption. destruct (Rlt_bool _ _); [|reflexivity].
  replace (Z.to_nat q) with (S (Z.to_nat (q - 1))) by lia. rewrite rungs_removelast. reflexivity.
Qed.

Lemma rungs_nth n k x : (Z.of_nat n <= q)%Z -> nth_error (map B2R (rungs lo step n)) k = Some x -> (k <= n)%nat /\ x = e (Z.of_nat k).
Proof.
  intros N H. unfold rungs in H. rewrite map_map, nth_map_seq in H. destruct (Nat.ltb_spec k (S n)) as [K|]; [|discriminate].
  split; [lia|]. destruct (edge_ok lo hi step Fl Fs B HB Bl Bh Ps q Wq Sq (Z.of_nat k)) as [E1 E2]; [lia|]. rewrite E1 in H. injection H as <-. reflexivity.
Qed.
Lemma u51 : bpow radix2 (-51) = 4 * u53. Proof. rewrite u53_val. change (bpow radix2 (-51)) with (/ 2251799813685248). lra. Qed.
Lemma u50 : bpow radix2 (-50) = 8 * u53. Proof. rewrite u53_val. change (bpow radix2 (-50)) with (/ 1125899906842624). lra. Qed.
Lemma edges_ok : exists es n, edges_min_max_step lo hi step = Some es /\ length es = S n /\ (Z.of_nat n = q \/ Z.of_nat n = q - 1)%Z /\
  Forall (fun x => fin x /\ B2R x <= B2R hi) es /\ never_falls (map B2R es) /\ nth_error (map B2R es) 0 = Some (B2R lo) /\
  (forall k x, nth_error (map B2R es) k = Some x -> Rabs (x - (B2R lo + INR k * B2R step)) <= bpow radix2 (-51) * B) /\
  (forall x, nth_error (map B2R es) n = Some x -> B2R hi - x <= B2R step + bpow radix2 (-50) * B) /\
  (bpow radix2 (-50) * B < B2R step -> rises (map B2R es)).
Proof.
  pose proof Q1 as Q. set (n := Z.to_nat (if Rlt_bool (B2R hi) (e q) then q - 1 else q)).
  assert (Nq : (Z.of_nat n = q /\ e q <= B2R hi) \/ ((Z.of_nat n = q - 1)%Z /\ B2R hi < e q)).
  { unfold n. destruct (Rlt_bool_spec (B2R hi) (e q)); [right|left]; (split; [lia|lra]). }
  assert (Nle : (Z.of_nat n <= q)%Z) by lia.
  assert (C : forall k, (0 <= k <= q)%Z -> Rabs (e k - (B2R lo + IZR k * B2R step)) <= bpow radix2 (-51) * B).
  { intros k K. rewrite u51. exact (edge_close lo hi step B Bl Bh LH Ps q Wq k K). }
  pose proof (B_pos lo hi B Bl Bh LH) as BP. pose proof u_small as U.
  exists (rungs lo step n), n. split; [exact edges_value|]. split; [unfold rungs; rewrite map_length, seq_length; reflexivity|].
  split; [lia|]. split.
  { apply Forall_forall. intros x X. unfold rungs in X. apply in_map_iff in X. destruct X as (k & <- & K). apply in_seq in K.
    destruct (edge_ok lo hi step Fl Fs B HB Bl Bh Ps q Wq Sq (Z.of_nat k)) as [E1 E2]; [lia|]. split; [exact E2|]. rewrite E1.
    destruct Nq as [[N1 N2]|[N1 N2]].
    - apply Rle_trans with (2 := N2). apply edge_mono with (q := q); (assumption || lia).
    - apply Rle_trans with (e (q - 1)); [apply edge_mono with (q := q); (assumption || lia)|]. apply (edge_before_last lo hi step LH Ps q Wq Sq SD). }
  split.
  { intros i j a b IJ A1 A2. apply rungs_nth in A1, A2; try exact Nle. destruct A1 as [_ ->], A2 as [A ->]. apply edge_mono with (q := q); (assumption || lia). }
  split.
  { unfold rungs. rewrite map_map, nth_map_seq. destruct (Nat.ltb_spec 0 (S n)); [|lia]. destruct (edge_ok lo hi step Fl Fs B HB Bl Bh Ps q Wq Sq 0) as [E1 _]; [lia|].
    cbn [Z.of_nat]. rewrite E1. f_equal. apply edge_0. }
  split.
  { intros k x X. apply rungs_nth in X; [|exact Nle]. destruct X as [K ->]. rewrite INR_IZR_INZ. apply C. lia. }
  split.
  { intros x X. apply rungs_nth in X; [|exact Nle]. destruct X as [_ ->]. rewrite u50. pose proof (D_close lo hi LH) as DC. destruct Wq as [_ W2].
    assert (HL : B2R hi - B2R lo <= 2 * B) by (apply Rabs_le_inv in Bl, Bh; lra). assert (HL2 : u53 * (B2R hi - B2R lo) <= u53 * (2 * B)) by (apply Rmult_le_compat_l; lra). apply Rabs_le_inv in DC.
    destruct Nq as [[-> N2]|[-> N2]].
    - pose proof (C q ltac:(lia)) as Cq. rewrite u51 in Cq. apply Rabs_le_inv in Cq. nra.
    - pose proof (C q ltac:(lia)) as Cq. pose proof (C (q - 1)%Z ltac:(lia)) as Cp. rewrite u51 in Cq, Cp. rewrite minus_IZR in Cp. apply Rabs_le_inv in Cq, Cp. lra. }
  { intros G i j a b IJ A1 A2. apply rungs_nth in A1, A2; try exact Nle. destruct A1 as [_ ->], A2 as [A ->].
    pose proof (C (Z.of_nat i) ltac:(lia)) as C1. pose proof (C (Z.of_nat j) ltac:(lia)) as C2. apply Rabs_le_inv in C1, C2. rewrite u50 in G. rewrite u51 in C1, C2.
    assert (IZR (Z.of_nat i) + 1 <= IZR (Z.of_nat j)) by (rewrite <- plus_IZR; apply IZR_le; lia).
    assert ((IZR (Z.of_nat i) + 1) * B2R step <= IZR (Z.of_nat j) * B2R step) by (apply Rmult_le_compat_r; lra). lra. }
Qed.
End Edges.

(** ** Grids of whole multiples of one power of two: nothing is rounded *)
Lemma grid_value lo hi step a b c e : fin lo -> fin hi -> fin step ->
  B2R lo = IZR a * bpow radix2 e -> B2R hi = IZR b * bpow radix2 e -> B2R step = IZR c * bpow radix2 e ->
  (-1074 <= e <= 960)%Z -> (Z.abs a <= 2 ^ 51)%Z -> (Z.abs b <= 2 ^ 51)%Z -> (0 < c <= b - a)%Z -> ((b - a) / c < 2 ^ 50)%Z ->
  exists es, edges_min_max_step lo hi step = Some es /\ Forall (fun x => fin x) es /\
  map B2R es = map (fun k => IZR (a + Z.of_nat k * c) * bpow radix2 e) (seq 0 (S (Z.to_nat ((b - a) / c)))).
Proof.
  intros Fl Fh Fs El Eh Es He Ha Hb Hc Hq. set (q := ((b - a) / c)%Z) in *. pose proof (bpow_gt_0 radix2 e) as P.
  assert (F : forall z, (Z.abs z <= 2 ^ 52)%Z -> F64 (IZR z * bpow radix2 e)) by (intros; apply dyadic_F64; lia).
  assert (ED : rnd (B2R hi - B2R lo) = IZR (b - a) * bpow radix2 e).
  { replace (B2R hi - B2R lo) with (IZR (b - a) * bpow radix2 e) by (rewrite El, Eh, minus_IZR; ring). apply rnd_id, F. lia. }
  assert (Q : (0 <= q /\ q * c <= b - a < (q + 1) * c)%Z) by (pose proof (Z.div_mod (b - a) c ltac:(lia)) as X; pose proof (Z.mod_pos_bound (b - a) c ltac:(lia)); fold q in X; split; [apply Z.div_pos; lia|nia]).
  assert (BX : forall z, (Z.abs z <= 2 ^ 51)%Z -> Rabs (IZR z * bpow radix2 e) <= bpow radix2 1022).
  { intros z Z. rewrite Rabs_mult, (Rabs_pos_eq (bpow radix2 e)) by lra. rewrite <- abs_IZR. apply IZR_le in Z. rewrite <- bpow_IZR in Z by lia.
    apply Rle_trans with (bpow radix2 51 * bpow radix2 e); [apply Rmult_le_compat_r; lra|]. rewrite <- bpow_plus. apply bpow_le. lia. }
  assert (Wq : whole_steps (rnd (B2R hi - B2R lo)) (B2R step) q).
  { rewrite ED, Es. destruct Q as [_ [Q1 Q2]]. apply IZR_le in Q1. apply IZR_lt in Q2. rewrite mult_IZR in Q1, Q2. rewrite plus_IZR in Q2. split; nra. }
  assert (LH : B2R lo < B2R hi) by (rewrite El, Eh; apply Rmult_lt_compat_r; [exact P|apply IZR_lt; lia]).
  assert (Ps : 0 < B2R step) by (rewrite Es; apply Rmult_lt_0_compat; [apply IZR_lt; lia|exact P]).
  assert (SD : B2R step <= rnd (B2R hi - B2R lo)) by (rewrite ED, Es; apply Rmult_le_compat_r; [lra|apply IZR_le; lia]).
  assert (E : forall k, (0 <= k <= q)%Z -> edge lo step k = IZR (a + k * c) * bpow radix2 e).
  { intros k K. unfold edge. rewrite Es. replace (IZR k * (IZR c * bpow radix2 e)) with (IZR (k * c) * bpow radix2 e) by (rewrite mult_IZR; ring).
    assert (0 <= k * c <= b - a)%Z by nia. rewrite (rnd_id (IZR (k * c) * bpow radix2 e)) by (apply F; lia). rewrite El.
    replace (IZR a * bpow radix2 e + IZR (k * c) * bpow radix2 e) with (IZR (a + k * c) * bpow radix2 e) by (rewrite plus_IZR; ring). apply rnd_id, F. lia. }
  pose proof (BX a Ha) as B1. pose proof (BX b Hb) as B2. rewrite <- El in B1. rewrite <- Eh in B2.
  exists (rungs lo step (Z.to_nat q)). split.
  { rewrite (edges_value lo hi step Fl Fh Fs (bpow radix2 1022) (Rle_refl _) B1 B2 LH Ps q Wq Hq SD). rewrite (E q) by lia.
    rewrite Rlt_bool_false; [reflexivity|]. rewrite Eh. apply Rmult_le_compat_r; [lra|apply IZR_le; lia]. }
  assert (OK : forall k, (k < S (Z.to_nat q))%nat -> fin (fadd lo (fmul (f64_of_Z (Z.of_nat k)) step)) /\ B2R (fadd lo (fmul (f64_of_Z (Z.of_nat k)) step)) = IZR (a + Z.of_nat k * c) * bpow radix2 e).
  { intros k K. destruct (edge_ok lo hi step Fl Fs (bpow radix2 1022) (Rle_refl _) B1 B2 Ps q Wq Hq (Z.of_nat k)) as [E1 E2]; [lia|]. split; [exact E2|]. rewrite E1. apply E. lia. }
  split.
  - apply Forall_forall. intros x X. unfold rungs in X. apply in_map_iff in X. destruct X as (k & <- & K). apply in_seq in K. apply OK. lia.
  - unfold rungs. rewrite map_map. apply map_ext_in. intros k K. apply in_seq in K. apply OK. lia.
Qed.

(** ** One end, a step and a number of bins *)
Section OneEnd.
Context (p step : f64) (Fp : fin p) (Fs : fin step) (B : R) (HB : B <= bpow radix2 1022) (Bp : Rabs (B2R p) <= B)
  (n : Z) (Hn : (0 < n <= 2 ^ 53)%Z) (Ps : 0 <= B2R step) (Bn : IZR n * B2R step <= B).
Notation s := (B2R step).
Lemma oe_mult k : (0 <= k <= n)%Z -> 0 <= IZR k * s <= B.
Proof.
  intros K. assert (0 <= IZR k) by (apply IZR_le; lia). assert (IZR k <= IZR n) by (apply IZR_le; lia).
  split; [apply Rmult_le_pos; lra|]. apply Rle_trans with (2 := Bn). apply Rmult_le_compat_r; lra.
Qed.
Lemma oe_rnd k : (0 <= k <= n)%Z -> 0 <= rnd (IZR k * s) <= bpow radix2 1022.
Proof. intros K. pose proof (oe_mult k K). split; [apply rnd_pos; lra|]. apply rnd_le_g; [apply generic_format_bpow; cbv; discriminate|lra]. Qed.
Lemma oe_mul_ok k : (0 <= k <= n)%Z -> B2R (fmul (f64_of_Z k) step) = rnd (IZR k * s) /\ fin (fmul (f64_of_Z k) step).
Proof.
  intros K. destruct (f64_of_Z_ok k) as [C1 C2]; [lia|]. pose proof (oe_rnd k K) as M. pose proof big as BG. pose proof (bpow_gt_0 radix2 1022) as BP.
  destruct (fmul_ok (f64_of_Z k) step C2 Fs) as [M1 M2]; [rewrite C1, Rabs_pos_eq by lra; lra|]. rewrite C1 in M1. split; assumption.
Qed.
Lemma F2 : F64 (2 * bpow radix2 1022).
Proof. change 2 with (bpow radix2 1). rewrite <- bpow_plus. apply generic_format_bpow. cbv. discriminate. Qed.
Lemma oe_bounded x : Rabs x <= 2 * bpow radix2 1022 -> Rabs (rnd x) < bpow radix2 1024.
Proof.
  intros X. apply Rabs_le_inv in X. apply Rle_lt_trans with (2 * bpow radix2 1022); [|pose proof big; pose proof (bpow_gt_0 radix2 1022); lra].
  apply Rabs_le. split; [apply rnd_ge; [apply generic_format_opp, F2|lra]|apply rnd_le_g; [apply F2|lra]].
Qed.
Lemma oe_up k : (0 <= k <= n)%Z -> B2R (fadd p (fmul (f64_of_Z k) step)) = rnd (B2R p + rnd (IZR k * s)) /\ fin (fadd p (fmul (f64_of_Z k) step)).
Proof.
  intros K. destruct (oe_mul_ok k K) as [M1 M2]. pose proof (oe_rnd k K). apply Rabs_le_inv in Bp.
  destruct (fadd_ok p _ Fp M2) as [A1 A2]; [rewrite M1; apply oe_bounded, Rabs_le; lra|]. rewrite M1 in A1. split; assumption.
Qed.
Lemma oe_down k : (0 <= k <= n)%Z -> B2R (fsub p (fmul (f64_of_Z k) step)) = rnd (B2R p - rnd (IZR k * s)) /\ fin (fsub p (fmul (f64_of_Z k) step)).
Proof.
  intros K. destruct (oe_mul_ok k K) as [M1 M2]. pose proof (oe_rnd k K). apply Rabs_le_inv in Bp.
  destruct (fsub_ok p _ Fp M2) as (A1 & A2 & _); [rewrite M1; apply oe_bounded, Rabs_le; lra|]. rewrite M1 in A1. split; assumption.
Qed.
Lemma oe_close (t : R) k : (0 <= k <= n)%Z -> t = rnd (IZR k * s) \/ t = - rnd (IZR k * s) ->
  Rabs (rnd (B2R p + t) - (B2R p + t)) <= 2 * u53 * B + u53 * (u53 * B) /\ Rabs (rnd (IZR k * s) - IZR k * s) <= u53 * B.
Proof.
  intros K T. pose proof (rnd_rel_mult k s (B2R_format step)) as E1. pose proof (oe_mult k K) as M. rewrite (Rabs_pos_eq (IZR k * s)) in E1 by lra.
  pose proof u_small as U. assert (E2 : u53 * (IZR k * s) <= u53 * B) by (apply Rmult_le_compat_l; lra). split; [|lra].
  assert (F : F64 t) by (destruct T as [->| ->]; [|apply generic_format_opp]; apply generic_format_round; typeclasses eauto).
  apply Rle_trans with (1 := rnd_rel_sum _ _ (B2R_format p) F).
  assert (A : Rabs (B2R p + t) <= B + (B + u53 * B)); [|assert (u53 * Rabs (B2R p + t) <= u53 * (B + (B + u53 * B))) by (apply Rmult_le_compat_l; lra); lra].
  apply Rabs_le_inv in E1, Bp. assert (0 <= rnd (IZR k * s)) by (apply rnd_pos; lra). apply Rabs_le. destruct T as [->| ->]; lra.
Qed.
Lemma oe_small : 3 * u53 * B + u53 * (u53 * B) <= bpow radix2 (-51) * B.
Proof. rewrite u51. pose proof u_small as U. pose proof (oe_mult 0 ltac:(lia)). assert (u53 * (u53 * B) <= 1 * (u53 * B)) by (apply Rmult_le_compat_r; [apply Rmult_le_pos; lra|lra]). lra. Qed.

Lemma min_step_ok : exists es, edges_min_step p step n = Some es /\ length es = S (Z.to_nat n) /\ Forall (fun x => fin x) es /\
  never_falls (map B2R es) /\ nth_error (map B2R es) 0 = Some (B2R p) /\
  (forall k x, nth_error (map B2R es) k = Some x -> Rabs (x - (B2R p + INR k * s)) <= bpow radix2 (-51) * B).
Proof.
  unfold edges_min_step. destruct (Z.leb_spec n 0); [lia|]. eexists. split; [reflexivity|]. unfold ladder. replace (Z.to_nat (n + 1)) with (S (Z.to_nat n)) by lia.
  assert (N : forall k x, nth_error (map B2R (map (fun i => fadd p (fmul (f64_of_Z (Z.of_nat i)) step)) (seq 0 (S (Z.to_nat n))))) k = Some x ->
    (0 <= Z.of_nat k <= n)%Z /\ x = rnd (B2R p + rnd (IZR (Z.of_nat k) * s))).
  { intros k x H'. rewrite map_map, nth_map_seq in H'. destruct (Nat.ltb_spec k (S (Z.to_nat n))); [|discriminate]. split; [lia|].
    destruct (oe_up (Z.of_nat k)) as [E1 _]; [lia|]. rewrite E1 in H'. congruence. }
  split; [rewrite map_length, seq_length; reflexivity|]. split; [|split; [|split]].
  - apply Forall_forall. intros x X. apply in_map_iff in X. destruct X as (k & <- & K). apply in_seq in K. apply oe_up. lia.
  - intros i j a b IJ A1 A2. apply N in A1, A2. destruct A1 as [_ ->], A2 as [_ ->]. apply rnd_le. apply Rplus_le_compat_l, rnd_le. apply Rmult_le_compat_r; [lra|apply IZR_le; lia].
  - rewrite map_map, nth_map_seq. destruct (Nat.ltb_spec 0 (S (Z.to_nat n))); [|lia]. destruct (oe_up 0) as [E1 _]; [lia|]. cbn [Z.of_nat]. rewrite E1, Rmult_0_l, rnd_0, Rplus_0_r. f_equal. apply rnd_id, B2R_format.
  - intros k x X. apply N in X. destruct X as [K ->]. rewrite INR_IZR_INZ. destruct (oe_close _ _ K (or_introl eq_refl)) as [E1 E2]. pose proof oe_small. apply Rabs_le_inv in E1, E2. apply Rabs_le. lra.
Qed.
Lemma nth_rev_seq m k : (k < m)%nat -> nth_error (rev (seq 0 m)) k = Some (m - 1 - k)%nat.
Proof. intros K. rewrite (nth_error_nth' _ 0%nat) by (rewrite rev_length, seq_length; exact K). rewrite rev_nth by (rewrite seq_length; exact K). rewrite seq_length, seq_nth by lia. f_equal. lia. Qed.
Lemma max_step_ok : exists es, edges_max_step p step n = Some es /\ length es = S (Z.to_nat n) /\ Forall (fun x => fin x) es /\
  never_falls (map B2R es) /\ nth_error (map B2R es) (Z.to_nat n) = Some (B2R p) /\
  (forall k x, nth_error (map B2R es) k = Some x -> Rabs (x - (B2R p - (IZR n - INR k) * s)) <= bpow radix2 (-51) * B).
Proof.
  unfold edges_max_step. destruct (Z.leb_spec n 0); [lia|]. eexists. split; [reflexivity|]. replace (Z.to_nat (n + 1)) with (S (Z.to_nat n)) by lia.
  assert (V : forall k, (k <= Z.to_nat n)%nat -> nth_error (map B2R (map (fun i => fsub p (fmul (f64_of_Z (Z.of_nat i)) step)) (rev (seq 0 (S (Z.to_nat n)))))) k
    = Some (rnd (B2R p - rnd (IZR (n - Z.of_nat k) * s)))).
  { intros k K. rewrite map_map, nth_error_map, nth_rev_seq by lia. cbn [option_map]. destruct (oe_down (n - Z.of_nat k)) as [E1 _]; [lia|]. rewrite <- E1. do 5 f_equal. lia. }
  assert (N : forall k x, nth_error (map B2R (map (fun i => fsub p (fmul (f64_of_Z (Z.of_nat i)) step)) (rev (seq 0 (S (Z.to_nat n)))))) k = Some x ->
    (0 <= n - Z.of_nat k <= n)%Z /\ x = rnd (B2R p - rnd (IZR (n - Z.of_nat k) * s))).
  { intros k x H'. assert (K : (k < S (Z.to_nat n))%nat) by (assert (X : nth_error (map B2R (map (fun i => fsub p (fmul (f64_of_Z (Z.of_nat i)) step)) (rev (seq 0 (S (Z.to_nat n)))))) k <> None) by congruence; apply nth_error_Some in X; rewrite !map_length, rev_length, seq_length in X; exact X).
    rewrite V in H' by lia. split; [lia|congruence]. }
  split; [rewrite map_length, rev_length, seq_length; reflexivity|]. split; [|split; [|split]].
  - apply Forall_forall. intros x X. apply in_map_iff in X. destruct X as (k & <- & K). apply in_rev, in_seq in K. apply oe_down. lia.
  - intros i j a b IJ A1 A2. apply N in A1, A2. destruct A1 as [_ ->], A2 as [_ ->]. apply rnd_le. apply Rplus_le_compat_l, Ropp_le_contravar, rnd_le. apply Rmult_le_compat_r; [lra|apply IZR_le; lia].
  - rewrite V by lia. replace (n - Z.of_nat (Z.to_nat n))%Z with 0%Z by lia. rewrite Rmult_0_l, rnd_0, Rminus_0_r. f_equal. apply rnd_id, B2R_format.
  - intros k x X. apply N in X. destruct X as [K ->]. rewrite INR_IZR_INZ, <- minus_IZR. destruct (oe_close _ _ K (or_intror eq_refl)) as [E1 E2]. pose proof oe_small. apply Rabs_le_inv in E1, E2. fold (B2R p - rnd (IZR (n - Z.of_nat k) * s)) in E1. apply Rabs_le. lra.
Qed.
End OneEnd.

(** ** Both ends and a number of bins *)
Section Linspace.
Context (lo hi : f64) (Fl : fin lo) (Fh : fin hi) (B : R) (HB : B <= bpow radix2 1022)
  (Bl : Rabs (B2R lo) <= B) (Bh : Rabs (B2R hi) <= B) (LH : B2R lo < B2R hi) (n : Z) (Hn : (0 < n <= 2 ^ 50)%Z)
  (Hd : IZR n * bpow radix2 (-1022) <= rnd (B2R hi - B2R lo)).
Notation l := (B2R lo). Notation h := (B2R hi). Notation D := (rnd (h - l)). Notation w := (D / IZR n). Notation st := (rnd w).
Lemma nR : 1 <= IZR n <= 1125899906842624.
Proof. split; apply IZR_le; lia. Qed.
Lemma w_low : bpow radix2 (-1022) <= w.
Proof. pose proof nR. apply (Rmult_le_reg_r (IZR n)); [lra|]. replace (w * IZR n) with D by (field; lra). lra. Qed.
Lemma w_n : IZR n * w = D. Proof. pose proof nR. field. lra. Qed.
Lemma st_close : Rabs (st - w) <= u53 * w.
Proof. pose proof w_low as W. pose proof (bpow_gt_0 radix2 (-1022)). pose proof (rnd_rel w) as H'. rewrite (Rabs_pos_eq w) in H' by lra. auto. Qed.
Lemma st_ok : B2R (fdiv (fsub hi lo) (f64_of_Z n)) = st /\ fin (fdiv (fsub hi lo) (f64_of_Z n)).
Proof.
  destruct (diff_ok lo hi Fl Fh B HB Bl Bh LH) as [D1 D2]. destruct (f64_of_Z_ok n) as [C1 C2]; [lia|]. pose proof nR as N. pose proof w_n as WN. pose proof w_low as WL. pose proof (bpow_gt_0 radix2 (-1022)) as P.
  destruct (fdiv_ok (fsub hi lo) (f64_of_Z n) D2) as [E F]; [rewrite C1; lra| |].
  - rewrite D1, C1. apply oe_bounded. rewrite Rabs_pos_eq by lra. pose proof (D_le lo hi B HB Bl Bh). nra.
  - rewrite D1, C1 in E. split; assumption.
Qed.
Lemma d_bounds : 0 < h - l <= 2 * B /\ D <= (1 + u53) * (h - l) /\ (1 - u53) * (h - l) <= D.
Proof. pose proof (D_close lo hi LH) as DC. apply Rabs_le_inv in DC, Bl, Bh. lra. Qed.
Lemma st_bounds : 0 < w /\ 0 <= st <= (1 + u53) * w /\ (1 - u53) * w <= st.
Proof. pose proof w_low as W. pose proof (bpow_gt_0 radix2 (-1022)). pose proof st_close as S'. apply Rabs_le_inv in S'. assert (0 <= st) by (apply rnd_pos; lra). lra. Qed.
Lemma m_bounds i : (0 <= i < n)%Z -> 0 <= rnd (IZR i * st) <= (1 + 9 / 4 * u53) * (IZR i * w) /\ (1 - 9 / 4 * u53) * (IZR i * w) <= rnd (IZR i * st) /\ rnd (IZR i * st) <= h - l.
Proof.
  intros I. destruct st_bounds as (W & S1 & S2). assert (I0 : 0 <= IZR i) by (apply IZR_le; lia). assert (I1 : IZR i + 1 <= IZR n) by (rewrite <- plus_IZR; apply IZR_le; lia).
  assert (F : F64 st) by (apply generic_format_round; typeclasses eauto). pose proof (rnd_rel_mult i st F) as R'. rewrite (Rabs_pos_eq (IZR i * st)) in R' by (apply Rmult_le_pos; lra).
  assert (M0 : 0 <= rnd (IZR i * st)) by (apply rnd_pos, Rmult_le_pos; lra). apply Rabs_le_inv in R'. set (m := rnd (IZR i * st)) in *. clearbody m.
  assert (A1 : IZR i * st <= (1 + u53) * (IZR i * w)) by (replace ((1 + u53) * (IZR i * w)) with (IZR i * ((1 + u53) * w)) by ring; apply Rmult_le_compat_l; lra).
  assert (A2 : (1 - u53) * (IZR i * w) <= IZR i * st) by (replace ((1 - u53) * (IZR i * w)) with (IZR i * ((1 - u53) * w)) by ring; apply Rmult_le_compat_l; lra).
  assert (P : 0 <= IZR i * w) by (apply Rmult_le_pos; lra). set (v := IZR i * w) in *. set (v' := IZR i * st) in *. rewrite u53_val in *.
  assert (M1 : m <= (1 + 9 / 4 * / 9007199254740992) * v) by lra. split; [lra|]. split; [lra|].
  destruct d_bounds as (D0 & D1 & _). rewrite u53_val in D1. pose proof nR as N. pose proof w_n as WN.
  assert (V : v <= (IZR n - 1) * w) by (apply Rmult_le_compat_r; lra). assert (V2 : D <= 1125899906842624 * w) by (rewrite <- WN at 1; apply Rmult_le_compat_r; lra).
  replace ((IZR n - 1) * w) with (D - w) in V by (rewrite <- WN at 1; ring). lra.
Qed.
Lemma ls_ok i : (0 <= i < n)%Z -> let x := fadd (fmul (f64_of_Z i) (fdiv (fsub hi lo) (f64_of_Z n))) lo in
  B2R x = rnd (rnd (IZR i * st) + l) /\ fin x.
Proof.
  intros I x. unfold x. destruct st_ok as [S1 S2]. destruct (f64_of_Z_ok i) as [C1 C2]; [lia|]. destruct (m_bounds i I) as (M1 & _ & M3). apply Rabs_le_inv in Bl, Bh.
  pose proof (bpow_gt_0 radix2 1022) as BP. pose proof big as BG. destruct (fmul_ok _ _ C2 S2) as [E1 E2]; [rewrite C1, S1, Rabs_pos_eq; lra|]. rewrite C1, S1 in E1.
  destruct (fadd_ok _ lo E2 Fl) as [E3 E4]; [rewrite E1; apply oe_bounded, Rabs_le; lra|]. rewrite E1 in E3. split; assumption.
Qed.
Lemma ls_close i : (0 <= i < n)%Z -> Rabs (rnd (rnd (IZR i * st) + l) - (l + IZR i * ((h - l) / IZR n))) <= bpow radix2 (-50) * B.
Proof.
  intros I. rewrite u50. destruct (m_bounds i I) as (M1 & M2 & M3). destruct d_bounds as (D0 & D1 & D2). pose proof nR as N. pose proof w_n as WN. destruct st_bounds as (W & _).
  assert (I0 : 0 <= IZR i) by (apply IZR_le; lia). assert (I1 : IZR i + 1 <= IZR n) by (rewrite <- plus_IZR; apply IZR_le; lia).
  assert (F : F64 (rnd (IZR i * st))) by (apply generic_format_round; typeclasses eauto). pose proof (rnd_rel_sum _ l F (B2R_format lo)) as R'.
  set (m := rnd (IZR i * st)) in *. clearbody m. assert (A : Rabs (m + l) <= B) by (apply Rabs_le_inv in Bl, Bh; apply Rabs_le; lra).
  assert (R2 : u53 * Rabs (m + l) <= u53 * B) by (apply Rmult_le_compat_l; [apply Rlt_le, u_small|exact A]). set (r := rnd (m + l)) in *. clearbody r. apply Rabs_le_inv in R'.
  assert (X : Rabs (IZR i * w - IZR i * ((h - l) / IZR n)) <= u53 * (h - l)).
  { replace (IZR i * w - IZR i * ((h - l) / IZR n)) with (IZR i / IZR n * (D - (h - l))) by (field; lra). rewrite Rabs_mult.
    assert (Y : 0 <= IZR i / IZR n <= 1) by (split; [apply Rmult_le_pos; [lra|left; apply Rinv_0_lt_compat; lra]|apply (Rmult_le_reg_r (IZR n)); [lra|]; replace (IZR i / IZR n * IZR n) with (IZR i) by (field; lra); lra]).
    rewrite (Rabs_pos_eq (IZR i / IZR n)) by lra. pose proof (Rabs_pos (D - (h - l))). pose proof (D_close lo hi LH). nra. }
  assert (V : 0 <= IZR i * w <= D) by (split; [apply Rmult_le_pos; lra|rewrite <- WN at 2; apply Rmult_le_compat_r; lra]). set (v := IZR i * w) in *. set (t := IZR i * ((h - l) / IZR n)) in *. clearbody v t.
  apply Rabs_le_inv in X. rewrite u53_val in *. apply Rabs_le. lra.
Qed.
Lemma linspace_ok : exists es, edges_min_max lo hi n = Some es /\ length es = S (Z.to_nat n) /\ Forall (fun x => fin x) es /\
  never_falls (map B2R es) /\ nth_error (map B2R es) 0 = Some l /\ nth_error (map B2R es) (Z.to_nat n) = Some h /\
  (forall k x, nth_error (map B2R es) k = Some x -> Rabs (x - (l + INR k * ((h - l) / IZR n))) <= bpow radix2 (-50) * B) /\
  (bpow radix2 (-49) * B < (h - l) / IZR n -> rises (map B2R es)).
Proof.
  unfold edges_min_max. rewrite fleb_ok, (Rle_bool_false _ _ LH) by assumption. destruct (Z.leb_spec n 0); [lia|]. eexists. split; [reflexivity|].
  set (f := fun i => fadd (fmul (f64_of_Z (Z.of_nat i)) (fdiv (fsub hi lo) (f64_of_Z n))) lo). pose proof nR as N.
  assert (V : forall k x, nth_error (map B2R (map f (seq 0 (Z.to_nat n)) ++ [hi])) k = Some x ->
    ((0 <= Z.of_nat k < n)%Z /\ x = rnd (rnd (IZR (Z.of_nat k) * st) + l)) \/ (Z.of_nat k = n /\ x = h)).
  { intros k x X. rewrite map_app, map_map in X. destruct (Nat.lt_ge_cases k (Z.to_nat n)) as [K|K].
    - left. rewrite nth_error_app1, nth_map_seq in X by (rewrite map_length, seq_length; exact K). destruct (Nat.ltb_spec k (Z.to_nat n)); [|lia]. split; [lia|].
      destruct (ls_ok (Z.of_nat k)) as [E1 _]; [lia|]. unfold f in X. rewrite E1 in X. congruence.
    - right. rewrite nth_error_app2 in X by (rewrite map_length, seq_length; exact K). rewrite map_length, seq_length in X.
      destruct (k - Z.to_nat n)%nat as [|j] eqn:J; [|destruct j; discriminate X]. split; [lia|]. cbn in X. congruence. }
  assert (C : forall k x, nth_error (map B2R (map f (seq 0 (Z.to_nat n)) ++ [hi])) k = Some x -> Rabs (x - (l + INR k * ((h - l) / IZR n))) <= bpow radix2 (-50) * B).
  { intros k x X. rewrite INR_IZR_INZ. destruct (V k x X) as [[K ->]|[K ->]]; [apply ls_close, K|]. rewrite K. replace (h - (l + IZR n * ((h - l) / IZR n))) with 0 by (field; lra). rewrite Rabs_R0.
    apply Rmult_le_pos; [apply bpow_ge_0|]. apply Rle_trans with (2 := Bl), Rabs_pos. }
  split; [rewrite app_length, map_length, seq_length; cbn; lia|]. split; [|split; [|split; [|split; [|split]]]].
  - apply Forall_app. split; [|repeat constructor; exact Fh]. apply Forall_forall. intros x X. apply in_map_iff in X. destruct X as (k & <- & K). apply in_seq in K. apply (ls_ok (Z.of_nat k)). lia.
  - intros i j a b IJ A1 A2. destruct (V i a A1) as [[I ->]|[I ->]], (V j b A2) as [[J ->]|[J ->]]; [| |exfalso; lia|apply Rle_refl].
    + apply rnd_le. apply Rplus_le_compat_r, rnd_le. destruct st_bounds as (_ & S1 & _). apply Rmult_le_compat_r; [lra|apply IZR_le; lia].
    + apply rnd_le_g; [apply B2R_format|]. destruct (m_bounds _ I) as (_ & _ & M). lra.
  - rewrite map_app, map_map, nth_error_app1, nth_map_seq by (rewrite map_length, seq_length; lia). destruct (Nat.ltb_spec 0 (Z.to_nat n)); [|lia].
    destruct (ls_ok 0) as [E1 _]; [lia|]. unfold f. cbn [Z.of_nat]. rewrite E1, Rmult_0_l, rnd_0, Rplus_0_l. f_equal. apply rnd_id, B2R_format.
  - rewrite map_app, map_map, nth_error_app2 by (rewrite map_length, seq_length; lia). rewrite map_length, seq_length, Nat.sub_diag. reflexivity.
  - exact C.
  - intros G i j a b IJ A1 A2. pose proof (C i a A1) as C1. pose proof (C j b A2) as C2. apply Rabs_le_inv in C1, C2. rewrite u50 in C1, C2.
    replace (bpow radix2 (-49)) with (16 * u53) in G by (rewrite u53_val; change (bpow radix2 (-49)) with (/ 562949953421312); lra).
    assert (INR i + 1 <= INR j) by (rewrite <- S_INR; apply le_INR; lia). set (g := (h - l) / IZR n) in *. assert (0 < g).
    { unfold g. destruct d_bounds as (D0 & _). apply Rmult_lt_0_compat; [lra|apply Rinv_0_lt_compat; lra]. }
    assert ((INR i + 1) * g <= INR j * g) by (apply Rmult_le_compat_r; lra). lra.
Qed.
End Linspace.
