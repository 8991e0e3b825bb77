From Coq Require Import Reals.
From Flocq Require Import Core BinarySingleNaN.
From Verif Require Import Common F64 GridF_Model GridF_Proofs RunMean_Model RunMean_Proofs XsvsF_Model XsvsF_Spec.
From Coq Require Import Lra.
Local Open Scope R_scope.

Lemma u_small : 0 < u53 <= / 1000.
Proof. split; [apply bpow_gt_0|]. apply Rle_trans with (bpow radix2 (-10)); [apply bpow_le; lia|]. cbn. lra. Qed.
Lemma eta_small : 0 < eta /\ eta <= u53 * / 1000 /\ IZR (2 ^ 53) * eta <= u53 * / 1000.
Proof.
  split; [apply bpow_gt_0|]. assert (H : bpow radix2 (-10) <= / 1000) by (cbn; lra). assert (U := u_small).
  split.
  - apply Rle_trans with (u53 * bpow radix2 (-10)); [rewrite <- bpow_plus; apply bpow_le; lia|apply Rmult_le_compat_l; lra].
  - rewrite <- bpow_IZR by lia. rewrite <- bpow_plus. apply Rle_trans with (u53 * bpow radix2 (-10)); [rewrite <- bpow_plus; apply bpow_le; lia|apply Rmult_le_compat_l; lra].
Qed.
Lemma one_small : 1 <= bpow radix2 1022. Proof. change 1 with (bpow radix2 0). apply bpow_le. lia. Qed.
Lemma in1022 x : 0 <= x <= 1 -> Rabs x <= bpow radix2 1022.
Proof. intros H. rewrite Rabs_pos_eq by lra. pose proof one_small. lra. Qed.
Definition unit (x : f64) : Prop := fin x /\ 0 <= B2R x <= 1.
Lemma unit0 : unit fzero. Proof. split; [reflexivity|]. change (B2R fzero) with 0. lra. Qed.

(** ** One histogram *)
Lemma hist_ok e : counted e -> unit (spe_hist e) /\ B2R (spe_hist e) = rnd (share e).
Proof.
  intros [Hc Hn]. unfold spe_hist, share. destruct (f64_of_Z_ok (fst e) ltac:(lia)) as [E1 F1]. destruct (f64_of_Z_ok (snd e) ltac:(lia)) as [E2 F2].
  destruct (fdiv_ok (f64_of_Z (fst e)) fone F1) as [E3 F3]. { rewrite fone_R. lra. }
  { rewrite E1, fone_R. replace (IZR (fst e) / 1) with (IZR (fst e)) by field. apply bound1022. rewrite Rabs_pos_eq by (apply (IZR_le 0); lia).
    apply Rle_trans with (bpow radix2 53); [rewrite bpow_IZR by lia; apply IZR_le; lia|apply bpow_le; lia]. }
  rewrite E1, fone_R in E3. replace (IZR (fst e) / 1) with (IZR (fst e)) in E3 by field. rewrite rnd_id in E3 by (apply Z_format; lia).
  destruct (Z.eqb_spec (snd e) 0) as [Z0|Z0].
  - assert (fst e = 0%Z) by lia. rewrite Z0, H. replace (nan_to_num (fdiv (fdiv (f64_of_Z 0) fone) (f64_of_Z 0))) with fzero by reflexivity.
    split; [exact unit0|]. rewrite rnd_0. reflexivity.
  - assert (P : 0 < IZR (snd e)) by (apply (IZR_lt 0); lia). assert (Q : 0 <= IZR (fst e) <= IZR (snd e)) by (split; [apply (IZR_le 0)|apply IZR_le]; lia).
    assert (V : 0 <= IZR (fst e) / IZR (snd e) <= 1).
    { split; [apply Rmult_le_pos; [lra|left; apply Rinv_0_lt_compat; lra]|]. apply (Rmult_le_reg_r (IZR (snd e))); [lra|]. unfold Rdiv. rewrite Rmult_assoc, Rinv_l by lra. lra. }
    destruct (fdiv_ok (fdiv (f64_of_Z (fst e)) fone) (f64_of_Z (snd e)) F3) as [E4 F4]. { rewrite E2. lra. }
    { rewrite E3, E2. apply bound1022. refine (Rle_trans _ _ _ (in1022 _ V) _). apply bpow_le. lia. }
    rewrite E3, E2 in E4. set (x := fdiv (fdiv _ _) _) in *. assert (NN : nan_to_num x = x) by (destruct x; try discriminate; reflexivity). rewrite NN.
    split; [|exact E4]. split; [exact F4|]. rewrite E4. split; [apply rnd_pos; lra|apply rnd_le_g; [apply F64_1|lra]].
Qed.
Lemma share_unit e : counted e -> 0 <= share e <= 1.
Proof.
  intros [Hc Hn]. unfold share. destruct (Z.eqb_spec (snd e) 0) as [Z0|Z0]; [lra|].
  assert (P : 0 < IZR (snd e)) by (apply (IZR_lt 0); lia). assert (Q : 0 <= IZR (fst e) <= IZR (snd e)) by (split; [apply (IZR_le 0)|apply IZR_le]; lia).
  split; [apply Rmult_le_pos; [lra|left; apply Rinv_0_lt_compat; lra]|]. apply (Rmult_le_reg_r (IZR (snd e))); [lra|]. unfold Rdiv. rewrite Rmult_assoc, Rinv_l by lra. lra.
Qed.
Lemma sq_ok x : unit x -> unit (fmul x x) /\ B2R (fmul x x) = rnd (B2R x * B2R x).
Proof.
  intros [F B]. assert (V : 0 <= B2R x * B2R x <= 1) by nra. destruct (fmul_ok x x F F) as [E F2].
  { apply bound1022. refine (Rle_trans _ _ _ (in1022 _ V) _). apply bpow_le. lia. }
  split; [|exact E]. split; [exact F2|]. rewrite E. split; [apply rnd_pos; lra|apply rnd_le_g; [apply F64_1|lra]].
Qed.
(** ** One blending *)
Lemma rnd_above_1 v : v < 1 + u53 -> rnd v <= 1.
Proof.
  intros H. apply round_N_le_midp; [typeclasses eauto|apply F64_1|]. rewrite succ_eq_pos by lra.
  assert (U : ulp radix2 fmt 1 = bpow radix2 (-52)). { rewrite ulp_neq_0 by lra. unfold cexp. replace (mag radix2 1 : Z) with 1%Z; [reflexivity|]. symmetry. apply mag_unique_pos. cbn. lra. }
  rewrite U. replace (bpow radix2 (-52)) with (2 * u53); [lra|]. change (-52)%Z with (1 + -53)%Z. rewrite bpow_plus. reflexivity.
Qed.
Lemma blend_first a x : unit a -> unit x -> unit (update a 1 x) /\ Rabs (B2R (update a 1 x) - B2R x) <= 3 * u53 /\ (B2R a = 0 \/ B2R a = B2R x -> B2R (update a 1 x) = B2R x).
Proof.
  intros [Fa Ba] [Fx Bx]. destruct u_small as [U0 U1]. unfold update. assert (BB : bpow radix2 1022 <= bpow radix2 1023) by (apply bpow_le; lia). pose proof one_small as O.
  destruct (fsub_ok x a Fx Fa) as (E1 & F1 & _). { apply bound1022. apply Rabs_le. lra. }
  destruct (plus_err (B2R x) (- B2R a) (B2R_format x) (generic_format_opp _ _ _ (B2R_format a))) as (e & He & Hr).
  replace (B2R x + - B2R a) with (B2R x - B2R a) in Hr by ring. 
  assert (RB : Rabs (rnd (B2R x - B2R a)) <= 1).
  { apply Rabs_le. split; [apply rnd_ge; [apply (generic_format_opp _ _ 1), F64_1|lra]|apply rnd_le_g; [apply F64_1|lra]]. }
  destruct (f64_of_Z_ok 1 ltac:(lia)) as [Ek _].
  destruct (fdiv_ok (fsub x a) (f64_of_Z 1) F1) as [E2 F2]. { rewrite Ek. lra. }
  { rewrite E1, Ek. apply bound1022. replace (rnd (B2R x - B2R a) / 1) with (rnd (B2R x - B2R a)) by field. lra. }
  rewrite E1, Ek in E2. replace (rnd (B2R x - B2R a) / 1) with (rnd (B2R x - B2R a)) in E2 by field. rewrite (rnd_id (rnd _)) in E2 by (apply generic_format_round; typeclasses eauto).
  set (d := rnd (B2R x - B2R a)) in *. assert (Dl : - B2R a <= d) by (apply rnd_ge; [apply generic_format_opp, B2R_format|lra]).
  apply Rabs_le_inv in RB, He.
  destruct (fadd_ok a (fdiv (fsub x a) (f64_of_Z 1)) Fa F2) as [E3 F3]. { rewrite E2. apply bound1022. apply Rabs_le.
    assert (2 <= bpow radix2 1023) by (change 2 with (bpow radix2 1); apply bpow_le; lia). lra. }
  rewrite E2 in E3. set (v := fadd _ _) in *.
  assert (Vu : B2R v <= 1).
  { rewrite E3. destruct (Req_dec (B2R a) 0) as [A0|A0]. { rewrite A0, Rplus_0_l. apply rnd_le_g; [apply F64_1|lra]. }
    apply rnd_above_1. rewrite Hr. replace (B2R a + (B2R x - B2R a) * (1 + e)) with (B2R x + (B2R x - B2R a) * e) by ring.
    assert (Rabs ((B2R x - B2R a) * e) <= Rabs (B2R x - B2R a) * u53). { rewrite Rabs_mult. apply Rmult_le_compat_l; [apply Rabs_pos|]. apply Rabs_le. lra. }
    destruct (Rle_or_lt (B2R a) (B2R x)) as [L|L].
    - rewrite (Rabs_pos_eq (B2R x - B2R a)) in H by lra. apply Rabs_le_inv in H. nra.
    - rewrite (Rabs_left (B2R x - B2R a)) in H by lra. apply Rabs_le_inv in H. assert (- (B2R x - B2R a) * u53 <= (B2R a - B2R x)* 1) by nra. assert (B2R x + (B2R x - B2R a) * e <= 1) by lra. lra. }
  assert (Vl : 0 <= B2R v) by (rewrite E3; apply rnd_pos; lra).
  split; [split; [exact F3|lra]|]. split.
  - assert (Fd : F64 d) by (apply generic_format_round; typeclasses eauto). destruct (plus_err (B2R a) d (B2R_format a) Fd) as (g & Hg & Hs). apply Rabs_le_inv in Hg. rewrite E3, Hs, Hr.
    replace ((B2R a + (B2R x - B2R a) * (1 + e)) * (1 + g) - B2R x) with ((B2R x - B2R a) * e + (B2R x + (B2R x - B2R a) * e) * g) by ring.
    assert (K1 : Rabs ((B2R x - B2R a) * e) <= 1 * u53). { rewrite Rabs_mult. apply Rmult_le_compat; try apply Rabs_pos; apply Rabs_le; lra. }
    assert (K2 : Rabs ((B2R x + (B2R x - B2R a) * e) * g) <= 2 * u53). { rewrite Rabs_mult. apply Rmult_le_compat; try apply Rabs_pos; [|apply Rabs_le; lra]. apply Rabs_le_inv in K1. apply Rabs_le. lra. }
    refine (Rle_trans _ _ _ (Rabs_triang _ _) _). lra.
  - intros [A|A].
    + rewrite E3, A, Rplus_0_l. unfold d. rewrite A, Rminus_0_r. rewrite !rnd_id; [reflexivity| |]; rewrite ?rnd_id; apply B2R_format.
    + rewrite E3. unfold d. rewrite A, Rminus_diag_eq by reflexivity. rewrite rnd_0, Rplus_0_r. apply rnd_id, B2R_format.
Qed.
Lemma blend_ok a x k : (1 <= k <= 2 ^ 53)%Z -> unit a -> unit x -> unit (update a k x) /\ (B2R a = B2R x -> B2R (update a k x) = B2R x).
Proof.
  intros K Ha Hx. destruct (Z.eq_dec k 1) as [->|K1]. { destruct (blend_first a x Ha Hx) as (H & _ & S). split; [exact H|]. intros E. apply S. right. exact E. }
  destruct Ha as [Fa Ba], Hx as [Fx Bx]. destruct (update_ok a x k Fa Fx (in1022 _ Ba) (in1022 _ Bx) K ltac:(lia)) as [E F]. split.
  - split; [exact F|]. rewrite E. apply step_range; auto using B2R_format. lia.
  - intros A. rewrite E. unfold stepR, quot. rewrite A, Rminus_diag_eq by reflexivity. rewrite rnd_0. unfold Rdiv. rewrite Rmult_0_l, rnd_0, Rplus_0_r. apply rnd_id, B2R_format.
Qed.
(** ** One image, one set *)
Definition ok (s : entry) : Prop := unit (pk s) /\ unit (pw s) /\ unit (all s) /\ unit (allp s) /\ (0 <= good s)%Z.
Lemma step_unit p k x : (1 <= k <= 2 ^ 53)%Z -> unit p -> unit x -> unit (update p k x).
Proof. intros K P X. apply blend_ok; assumption. Qed.
Lemma image_ok i s e : (Z.of_nat i + 1 <= 2 ^ 53)%Z -> ok s -> (good s + 1 <= 2 ^ 53)%Z -> (forall c, e = Some c -> counted c) ->
  ok (entry_image i s e) /\ (good (entry_image i s e) <= good s + 1)%Z.
Proof.
  intros Hi (P & W & A & AP & G) Hg He. assert (KI : (1 <= Z.of_nat (i + 1) <= 2 ^ 53)%Z) by lia. unfold entry_image. destruct e as [c|].
  - destruct (hist_ok c (He c eq_refl)) as [HU _]. destruct (sq_ok _ HU) as [SU _].
    assert (KG : (1 <= good s + 1 <= 2 ^ 53)%Z) by lia. split; [|cbn [good]; lia].
    repeat split; cbn [pk pw all allp good]; try apply step_unit; try apply step_unit; try assumption; lia.
  - split; [|cbn [good]; lia]. repeat split; cbn [pk pw all allp good]; try apply P; try apply W; try apply step_unit; try assumption; lia.
Qed.
Lemma images_ok i images : forall s, (Z.of_nat i + 1 <= 2 ^ 53)%Z -> ok s -> (good s + Z.of_nat (length images) <= 2 ^ 53)%Z ->
  (forall c, In (Some c) images -> counted c) -> ok (fold_left (entry_image i) images s).
Proof.
  induction images as [|e l IH]; intros s Hi Hs Hg He; [exact Hs|]. cbn [fold_left length] in *.
  destruct (image_ok i s e Hi Hs ltac:(lia)) as [H1 H2]. { intros c ->. apply He. left. reflexivity. }
  apply IH; auto; [lia|]. intros c Hc. apply He. right. exact Hc.
Qed.
Lemma sets_ok sets : forall i a ap, (Z.of_nat i + Z.of_nat (length sets) <= 2 ^ 53)%Z -> unit a -> unit ap ->
  (forall images, In images sets -> (Z.of_nat (length images) <= 2 ^ 53)%Z /\ forall c, In (Some c) images -> counted c) ->
  unit (fst (entry_sets i sets a ap)) /\ unit (snd (entry_sets i sets a ap)).
Proof.
  induction sets as [|images l IH]; intros i a ap Hi Ha Hap H; [split; assumption|]. cbn [entry_sets length] in *.
  destruct (H images (or_introl eq_refl)) as [HL HC].
  destruct (images_ok i images (Entry 0 fzero fzero a ap)) as (_ & _ & A & AP & _); [lia| |cbn [good]; lia|exact HC|].
  { repeat split; cbn [pk pw all allp good]; try apply unit0; try apply Ha; try apply Hap; try lia; change (B2R fzero) with 0; lra. }
  apply IH; auto; [lia|]. intros im Hin. apply H. right. exact Hin.
Qed.
(** the running averages of a set *)
Lemma updates_app d d' : forall m k, updates m k (d ++ d') = updates (updates m k d) (k + Z.of_nat (length d)) d'.
Proof.
  induction d as [|x d IH]; intros m k; cbn [app updates length]; [rewrite Z.add_0_r; reflexivity|]. rewrite IH. f_equal. lia.
Qed.
Lemma images_mean i images : forall s, let t := fold_left (entry_image i) images s in
  pk t = updates (pk s) (good s + 1) (map spe_hist (given images)) /\
  pw t = updates (pw s) (good s + 1) (map (fun c => fmul (spe_hist c) (spe_hist c)) (given images)).
Proof.
  induction images as [|e l IH]; intros s t; [split; reflexivity|]. subst t. cbn [fold_left]. destruct (IH (entry_image i s e)) as [H1 H2]. rewrite H1, H2.
  destruct e as [c|]; split; reflexivity.
Qed.
(** after the last image of the first set the blended value is within 3 units of the average *)
Lemma last_blend images s : images <> [] -> ok s -> (good s + Z.of_nat (length images) <= 2 ^ 53)%Z -> (forall c, In (Some c) images -> counted c) ->
  let t := fold_left (entry_image 0) images s in
  Rabs (B2R (all t) - B2R (pk t)) <= 3 * u53 /\ Rabs (B2R (allp t) - B2R (pw t)) <= 3 * u53.
Proof.
  intros N Hs Hg HC t. subst t. destruct (exists_last N) as (l & e & ->). rewrite fold_left_app. cbn [fold_left]. rewrite app_length in Hg. cbn [length] in Hg.
  assert (HS : ok (fold_left (entry_image 0) l s)). { apply images_ok; [lia|exact Hs|lia|]. intros c Hc. apply HC, in_or_app. left. exact Hc. }
  assert (GG : forall l s, (good (fold_left (entry_image 0) l s) <= good s + Z.of_nat (length l))%Z).
  { clear. induction l as [|e l IH]; intros s; cbn [fold_left length]; [lia|]. specialize (IH (entry_image 0 s e)). assert (good (entry_image 0 s e) <= good s + 1)%Z by (destruct e; cbn [entry_image good]; lia). lia. }
  specialize (GG l s). set (z := fold_left (entry_image 0) l s) in *. clearbody z.
  assert (HE : forall c, e = Some c -> counted c). { intros c ->. apply HC, in_or_app. right. left. reflexivity. }
  destruct (image_ok 0 z e ltac:(lia) HS ltac:(lia) HE) as [(P & W & _) _]. destruct HS as (_ & _ & A & AP & _).
  assert (EA : all (entry_image 0 z e) = update (all z) 1 (pk (entry_image 0 z e)) /\ allp (entry_image 0 z e) = update (allp z) 1 (pw (entry_image 0 z e))) by (destruct e; split; reflexivity).
  rewrite (proj1 EA), (proj2 EA). split; apply blend_first; assumption.
Qed.
