From Coq Require Import Reals.
From Flocq Require Import Core BinarySingleNaN.
From Verif Require Import Common F64 GridF_Model GridF_Proofs RunMean_Model RunMean_Proofs XsvsF_Model XsvsF_Spec XsvsF_Proofs.
From Coq Require Import Lra.
Local Open Scope R_scope.

Lemma avg_close {A} (f g : A -> R) d l : l <> [] -> (forall x, In x l -> Rabs (f x - g x) <= d) -> Rabs (average (map f l) - average (map g l)) <= d.
Proof.
  intros N H. unfold average. rewrite !map_length. assert (P : 0 < INR (length l)) by (apply lt_0_INR; destruct l; [contradiction|cbn; lia]).
  assert (S : Rabs (fold_right Rplus 0 (map f l) - fold_right Rplus 0 (map g l)) <= INR (length l) * d).
  { clear N P. induction l as [|a l IH]; [cbn; rewrite Rminus_0_r, Rabs_R0; lra|]. cbn [map fold_right length]. rewrite S_INR.
    specialize (IH (fun x I => H x (or_intror I))). pose proof (H a (or_introl eq_refl)) as Ha.
    replace (f a + fold_right Rplus 0 (map f l) - (g a + fold_right Rplus 0 (map g l))) with ((f a - g a) + (fold_right Rplus 0 (map f l) - fold_right Rplus 0 (map g l))) by ring.
    refine (Rle_trans _ _ _ (Rabs_triang _ _) _). lra. }
  replace (fold_right Rplus 0 (map f l) / INR (length l) - fold_right Rplus 0 (map g l) / INR (length l)) with ((fold_right Rplus 0 (map f l) - fold_right Rplus 0 (map g l)) / INR (length l)) by (field; lra).
  unfold Rdiv. rewrite Rabs_mult, (Rabs_pos_eq (/ INR (length l))) by (left; apply Rinv_0_lt_compat; lra).
  apply (Rmult_le_reg_r (INR (length l))); [lra|]. rewrite Rmult_assoc, Rinv_l by lra. lra.
Qed.
Lemma variance_alt l : l <> [] -> variance l = average (map (fun x => x * x) l) - average l * average l.
Proof.
  intros N. unfold variance. set (m := average l). assert (P : 0 < INR (length l)) by (apply lt_0_INR; destruct l; [contradiction|cbn; lia]).
  assert (E : fold_right Rplus 0 l = m * INR (length l)) by (unfold m, average; field; lra). unfold average. rewrite !map_length.
  assert (S : forall c l, fold_right Rplus 0 (map (fun x => (x - c) * (x - c)) l) = fold_right Rplus 0 (map (fun x => x * x) l) - 2 * c * fold_right Rplus 0 l + INR (length l) * (c * c)).
  { clear. intros c l. induction l as [|a l IH]; [cbn; ring|]. cbn [map fold_right length]. rewrite S_INR, IH. ring. }
  rewrite S, E. field. lra.
Qed.
Lemma average_unit l : l <> [] -> (forall x, In x l -> 0 <= x <= 1) -> 0 <= average l <= 1.
Proof.
  intros N H. unfold average. assert (P : 0 < INR (length l)) by (apply lt_0_INR; destruct l; [contradiction|cbn; lia]).
  assert (S : 0 <= fold_right Rplus 0 l <= INR (length l)).
  { clear N P. induction l as [|a l IH]; [cbn; lra|]. cbn [fold_right length]. rewrite S_INR. specialize (IH (fun x I => H x (or_intror I))). pose proof (H a (or_introl eq_refl)). lra. }
  split; [apply Rmult_le_pos; [lra|left; apply Rinv_0_lt_compat; lra]|]. apply (Rmult_le_reg_r (INR (length l))); [lra|]. unfold Rdiv. rewrite Rmult_assoc, Rinv_l by lra. lra.
Qed.
Lemma rsum_avg l : rsum l / INR (length l) = average (map B2R l).
Proof. unfold average. rewrite map_length. f_equal. induction l as [|x r IH]; [reflexivity|cbn [map fold_right rsum]; rewrite <- IH; reflexivity]. Qed.
Lemma mean_unit (ds : list f64) : ds <> [] -> (Z.of_nat (length ds) < 2 ^ 53)%Z -> (forall x, In x ds -> unit x) ->
  Rabs (B2R (running_mean ds) - average (map B2R ds)) <= ((INR (length ds) + 11) / 2 + 1) * u53.
Proof.
  intros N L H. pose proof (mean_error ds 1 N L one_small) as E. rewrite <- rsum_avg. refine (Rle_trans _ _ _ (E _) _).
  - intros x Hx. destruct (H x Hx) as [F B]. split; [exact F|]. rewrite Rabs_pos_eq; lra.
  - rewrite Rmult_1_r. destruct eta_small as (E0 & E1 & E2). destruct u_small as [U0 U1].
    assert (NB : INR (length ds) + 1 <= IZR (2 ^ 53)) by (rewrite INR_IZR_INZ, <- plus_IZR; apply IZR_le; lia).
    assert ((INR (length ds) + 1) * eta <= IZR (2 ^ 53) * eta) by (apply Rmult_le_compat_r; lra). lra.
Qed.

Lemma start_ok : ok (Entry 0 fzero fzero fzero fzero).
Proof. repeat split; cbn [pk pw all allp good]; try apply unit0; try lia; change (B2R fzero) with 0; lra. Qed.
Section OneSet.
Context (images : list (option (Z * Z))).
Let data := given images.
Hypothesis N : data <> [].
Hypothesis L : (Z.of_nat (length images) < 2 ^ 53)%Z.
Hypothesis HC : forall c, In (Some c) images -> counted c.
Lemma given_counted c : In c data -> counted c.
Proof. unfold data, given. intros H. apply in_flat_map in H. destruct H as ([x|] & Hx & H); [|destruct H]. destruct H as [->|[]]. apply HC, Hx. Qed.
Lemma given_len : (length data <= length images)%nat.
Proof. unfold data, given. clear. induction images as [|[x|] l IH]; cbn in *; lia. Qed.
Lemma images_some : images <> []. Proof. intros E. apply N. unfold data. rewrite E. reflexivity. Qed.
Let t := fold_left (entry_image 0) images (Entry 0 fzero fzero fzero fzero).
Let n := INR (length data).
Lemma n1 : 1 <= n. Proof. unfold n. change 1 with (INR 1). apply le_INR. destruct data; [contradiction|cbn; lia]. Qed.
Lemma share_err c : counted c -> Rabs (B2R (spe_hist c) - share c) <= 2 * u53.
Proof.
  intros H. destruct (hist_ok c H) as [_ E]. rewrite E. pose proof (share_unit c H) as S. pose proof (rnd_err (share c)) as R. rewrite (Rabs_pos_eq (share c)) in R by lra.
  destruct eta_small as (E0 & E1 & _). destruct u_small as [U0 U1]. assert (u53 * share c <= u53 * 1) by (apply Rmult_le_compat_l; lra). lra.
Qed.
Lemma square_err c : counted c -> Rabs (B2R (fmul (spe_hist c) (spe_hist c)) - share c * share c) <= 6 * u53.
Proof.
  intros H. destruct (hist_ok c H) as [HU E]. destruct (sq_ok _ HU) as [_ Q]. rewrite Q. pose proof (share_err c H) as SE. pose proof (share_unit c H) as S. destruct HU as [_ B].
  set (x := B2R (spe_hist c)) in *. pose proof (rnd_err (x * x)) as R. rewrite (Rabs_pos_eq (x * x)) in R by nra.
  destruct eta_small as (E0 & E1 & _). destruct u_small as [U0 U1]. assert (u53 * (x * x) <= u53 * 1) by (apply Rmult_le_compat_l; nra).
  replace (rnd (x * x) - share c * share c) with ((rnd (x * x) - x * x) + (x - share c) * (x + share c)) by ring.
  refine (Rle_trans _ _ _ (Rabs_triang _ _) _). rewrite Rabs_mult. rewrite (Rabs_pos_eq (x + share c)) by lra.
  assert (Rabs (x - share c) * (x + share c) <= 2 * u53 * 2) by (apply Rmult_le_compat; try apply Rabs_pos; lra). lra.
Qed.
Lemma prob_err : Rabs (B2R (all t) - average (map share data)) <= ((n + 11) / 2 + 6) * u53 /\
  Rabs (B2R (allp t) - average (map (fun x => x * x) (map share data))) <= ((n + 11) / 2 + 10) * u53.
Proof.
  destruct (last_blend images _ images_some start_ok ltac:(cbn [good]; lia) HC) as [B1 B2]. fold t in B1, B2.
  destruct (images_mean 0 images (Entry 0 fzero fzero fzero fzero)) as [P1 P2]. fold t in P1, P2. cbn [pk pw good] in P1, P2. change (0 + 1)%Z with 1%Z in P1, P2.
  fold data in P1, P2. fold (running_mean (map spe_hist data)) in P1. fold (running_mean (map (fun c => fmul (spe_hist c) (spe_hist c)) data)) in P2.
  pose proof given_len as GL.
  pose proof (mean_unit (map spe_hist data)) as M1. pose proof (mean_unit (map (fun c => fmul (spe_hist c) (spe_hist c)) data)) as M2. rewrite !map_length, !map_map in M1, M2. fold n in M1, M2.
  rewrite P1 in B1. rewrite P2 in B2. specialize (M1 ltac:(destruct data; [contradiction|discriminate]) ltac:(lia)). specialize (M2 ltac:(destruct data; [contradiction|discriminate]) ltac:(lia)).
  assert (M1' := M1 ltac:(intros x Hx; apply in_map_iff in Hx; destruct Hx as (c & <- & Hc); apply hist_ok, given_counted, Hc)).
  assert (M2' := M2 ltac:(intros x Hx; apply in_map_iff in Hx; destruct Hx as (c & <- & Hc); apply sq_ok, hist_ok, given_counted, Hc)). clear M1 M2.
  pose proof (avg_close (fun c => B2R (spe_hist c)) share (2 * u53) data N (fun c Hc => share_err c (given_counted c Hc))) as A1.
  pose proof (avg_close (fun c => B2R (fmul (spe_hist c) (spe_hist c))) (fun c => share c * share c) (6 * u53) data N (fun c Hc => square_err c (given_counted c Hc))) as A2.
  rewrite map_map. apply Rabs_le_inv in B1, B2, M1', M2', A1, A2. split; apply Rabs_le; lra.
Qed.
Lemma all_units : unit (all t) /\ unit (allp t).
Proof. destruct (images_ok 0 images _ ltac:(lia) start_ok ltac:(cbn [good]; lia) HC) as (_ & _ & A & AP & _). split; [exact A|exact AP]. Qed.
Let D := fsub (allp t) (fmul (all t) (all t)).
Let var := variance (map share data).
Lemma shares_unit x : In x (map share data) -> 0 <= x <= 1.
Proof. intros H. apply in_map_iff in H. destruct H as (c & <- & Hc). apply share_unit, given_counted, Hc. Qed.
Lemma diff_err : fin D /\ Rabs (B2R D - var) <= (2 * n + 42) * u53 /\ Rabs (B2R D) <= 1.
Proof.
  destruct prob_err as [E1 E2]. destruct all_units as [[FA BA] [FP BP]]. destruct (sq_ok (all t) (conj FA BA)) as [[FS BS] ES].
  assert (DF : -1 <= B2R (allp t) - B2R (fmul (all t) (all t)) <= 1) by lra. pose proof one_small as O.
  destruct (fsub_ok (allp t) (fmul (all t) (all t)) FP FS) as (ED & FD & _).
  { apply bound1022. apply Rle_trans with (bpow radix2 1022); [apply Rabs_le; lra|apply bpow_le; lia]. }
  fold D in ED, FD. split; [exact FD|]. destruct u_small as [U0 U1]. destruct eta_small as (E0 & Et & _).
  split.
  - destruct (plus_err (B2R (allp t)) (- B2R (fmul (all t) (all t))) (B2R_format _) (generic_format_opp _ _ _ (B2R_format _))) as (e & He & Hr).
    replace (B2R (allp t) + - B2R (fmul (all t) (all t))) with (B2R (allp t) - B2R (fmul (all t) (all t))) in Hr by ring. rewrite ED, Hr.
    assert (NS : map share data <> []) by (destruct data; [contradiction|discriminate]).
    unfold var. rewrite (variance_alt _ NS). pose proof (average_unit _ NS shares_unit) as AU.
    pose proof (rnd_err (B2R (all t) * B2R (all t))) as RS. rewrite <- ES in RS. rewrite (Rabs_pos_eq (B2R (all t) * B2R (all t))) in RS by nra.
    assert (U2 : u53 * (B2R (all t) * B2R (all t)) <= u53 * 1) by (apply Rmult_le_compat_l; nra).
    set (a := B2R (all t)) in *. set (s := B2R (fmul (all t) (all t))) in *. set (p := B2R (allp t)) in *. set (m := average (map share data)) in *. set (m2 := average (map (fun x => x * x) (map share data))) in *.
    assert (SM : Rabs (s - m * m) <= 2 * u53 + 2 * (((n + 11) / 2 + 6) * u53)).
    { replace (s - m * m) with ((s - a * a) + (a - m) * (a + m)) by ring. refine (Rle_trans _ _ _ (Rabs_triang _ _) _). rewrite (Rabs_mult (a - m)), (Rabs_pos_eq (a + m)) by lra.
      assert (Rabs (a - m) * (a + m) <= (((n + 11) / 2 + 6) * u53) * 2) by (apply Rmult_le_compat; try apply Rabs_pos; lra). lra. }
    assert (EE : Rabs ((p - s) * e) <= 1 * u53) by (rewrite Rabs_mult; apply Rmult_le_compat; try apply Rabs_pos; [apply Rabs_le; lra|exact He]).
    replace ((p - s) * (1 + e) - (m2 - m * m)) with ((p - m2) - (s - m * m) + (p - s) * e) by ring.
    pose proof n1 as N1. apply Rabs_le_inv in SM, EE, E2. apply Rabs_le. assert (0 <= n * u53) by nra. assert (u53 <= n * u53) by nra. lra.
  - rewrite ED. apply Rabs_le. split; [apply rnd_ge; [apply (generic_format_opp _ _ 1), F64_1|lra]|apply rnd_le_g; [apply F64_1|lra]].
Qed.
Lemma deviation_ok : (fsqrt D = B754_nan /\ var < (2 * n + 42) * u53) \/
  (fin (fsqrt D) /\ 0 <= B2R (fsqrt D) /\ Rabs (B2R (fsqrt D) * B2R (fsqrt D) - var) <= (2 * n + 50) * u53).
Proof.
  destruct diff_err as (FD & ED & BD). destruct u_small as [U0 U1]. destruct eta_small as (E0 & Et & _). destruct (Rlt_or_le (B2R D) 0) as [Neg|Pos].
  - left. split.
    + clearbody D. clear - Neg FD. destruct D as [s|s| |s m e p]; try discriminate; [cbn in Neg; lra|]. destruct s; [reflexivity|]. exfalso. cbn in Neg.
      assert (0 < F2R (Float radix2 (Zpos m) e)) by (apply F2R_gt_0; cbn; lia). lra.
    + apply Rabs_le_inv in ED. lra.
  - right. destruct (fsqrt_ok D FD Pos) as [FR ER]. split; [exact FR|]. split; [rewrite ER; apply rnd_pos, sqrt_pos|].
    rewrite Rabs_pos_eq in BD by lra. pose proof (sqrt_sqrt (B2R D) Pos) as SS. pose proof (sqrt_pos (B2R D)) as S0. assert (S1 : sqrt (B2R D) <= 1) by nra.
    pose proof (rnd_err (sqrt (B2R D))) as RE. rewrite <- ER in RE. rewrite (Rabs_pos_eq (sqrt (B2R D))) in RE by lra.
    set (q := sqrt (B2R D)) in *. set (r := B2R (fsqrt D)) in *. assert (u53 * q <= u53 * 1) by (apply Rmult_le_compat_l; lra).
    assert (R2 : Rabs (r - q) <= 2 * u53) by lra. assert (RR := R2). apply Rabs_le_inv in RR.
    replace (r * r - var) with ((r - q) * (r + q) + (B2R D - var)) by (rewrite <- SS; ring). refine (Rle_trans _ _ _ (Rabs_triang _ _) _). rewrite Rabs_mult.
    assert (Rabs (r - q) * Rabs (r + q) <= 2 * u53 * 3) by (apply Rmult_le_compat; try apply Rabs_pos; [lra|apply Rabs_le; lra]). lra.
Qed.
Lemma entry_one : xsvs_entry [images] = (all t, fsqrt D).
Proof. reflexivity. Qed.
End OneSet.
(** ** Equal histograms *)
Lemma running_const ds c : ds <> [] -> (Z.of_nat (length ds) < 2 ^ 53)%Z -> (forall x, In x ds -> unit x /\ B2R x = c) -> B2R (running_mean ds) = c.
Proof.
  intros N L H. assert (C : 0 <= c <= 1). { destruct ds as [|x r]; [contradiction|]. destruct (H x (or_introl eq_refl)) as [[_ B] <-]. exact B. }
  pose proof one_small as O. destruct (mean_range ds c c N L) as [_ R]; [lra|lra| |lra]. intros x Hx. destruct (H x Hx) as [[F _] E]. split; [exact F|lra].
Qed.
Lemma const_fold i c v w : (Z.of_nat i + 1 <= 2 ^ 53)%Z -> counted c -> B2R (spe_hist c) = v -> B2R (fmul (spe_hist c) (spe_hist c)) = w ->
  forall images s, (forall e, In e images -> exists c', e = Some c' /\ counted c' /\ share c' = share c) -> ok s -> (good s + Z.of_nat (length images) <= 2 ^ 53)%Z ->
  B2R (all s) = v -> B2R (allp s) = w -> ((1 <= good s)%Z /\ B2R (pk s) = v /\ B2R (pw s) = w) \/ (good s = 0%Z /\ B2R (pk s) = 0 /\ B2R (pw s) = 0) ->
  B2R (all (fold_left (entry_image i) images s)) = v /\ B2R (allp (fold_left (entry_image i) images s)) = w.
Proof.
  intros Hi HC Hv Hw. induction images as [|e l IH]; intros s HE HS HG A AP HP; [split; assumption|]. cbn [fold_left length] in *.
  destruct (HE e (or_introl eq_refl)) as (c' & -> & C' & S').
  destruct (hist_ok c HC) as [_ E0]. destruct (hist_ok c' C') as [U' E']. destruct (sq_ok _ U') as [Q' QE'].
  assert (V' : B2R (spe_hist c') = v) by (rewrite E', S', <- E0; exact Hv).
  assert (W' : B2R (fmul (spe_hist c') (spe_hist c')) = w). { rewrite QE', V', <- Hv. destruct (sq_ok (spe_hist c)) as [_ QE]; [apply hist_ok; exact HC|]. rewrite <- QE. exact Hw. }
  assert (CC : forall x, Some c' = Some x -> counted x) by (intros x E; injection E as <-; exact C').
  destruct (image_ok i s (Some c') Hi HS ltac:(lia) CC) as [HS' HG']. destruct HS as (P & W & A1 & A2 & G0).
  assert (NP : B2R (update (pk s) (good s + 1) (spe_hist c')) = v /\ B2R (update (pw s) (good s + 1) (fmul (spe_hist c') (spe_hist c'))) = w).
  { destruct HP as [(G & P1 & P2)|(G & P1 & P2)].
    - split; [rewrite <- V' at 1|rewrite <- W' at 1]; apply blend_ok; try assumption; try lia; congruence.
    - rewrite G. change (0 + 1)%Z with 1%Z. split; [rewrite <- V' at 1|rewrite <- W' at 1]; apply blend_first; try assumption; left; assumption. }
  destruct NP as [NP NW]. assert (K : (1 <= Z.of_nat (i + 1) <= 2 ^ 53)%Z) by lia. destruct HS' as (P' & W2 & R').
  apply IH; auto.
  - intros x Hx. apply HE. right. exact Hx.
  - split; [exact P'|]. split; [exact W2|]. exact R'.
  - cbn [entry_image good] in *. lia.
  - cbn [entry_image all pk] in *. refine (eq_trans (proj2 (blend_ok _ _ _ K A1 P') _) NP). congruence.
  - cbn [entry_image allp pw] in *. refine (eq_trans (proj2 (blend_ok _ _ _ K A2 W2) _) NW). congruence.
  - left. cbn [entry_image good pk pw]. split; [lia|]. split; [exact NP|exact NW].
Qed.
Lemma first_images c v w images : counted c -> B2R (spe_hist c) = v -> B2R (fmul (spe_hist c) (spe_hist c)) = w -> images <> [] ->
  (forall e, In e images -> exists c', e = Some c' /\ counted c' /\ share c' = share c) -> (Z.of_nat (length images) <= 2 ^ 53)%Z ->
  let t := fold_left (entry_image 0) images (Entry 0 fzero fzero fzero fzero) in B2R (all t) = v /\ B2R (allp t) = w.
Proof.
  intros HC Hv Hw NE HE HL t. subst t. destruct images as [|e l]; [contradiction|]. cbn [fold_left length] in *. destruct (HE e (or_introl eq_refl)) as (c' & -> & C' & S').
  destruct (hist_ok c HC) as [_ E0]. destruct (hist_ok c' C') as [U' E']. destruct (sq_ok _ U') as [Q' QE'].
  assert (V' : B2R (spe_hist c') = v) by (rewrite E', S', <- E0; exact Hv).
  assert (W' : B2R (fmul (spe_hist c') (spe_hist c')) = w). { rewrite QE', V', <- Hv. destruct (sq_ok (spe_hist c)) as [_ QE]; [apply hist_ok; exact HC|]. rewrite <- QE. exact Hw. }
  assert (CC : forall x, Some c' = Some x -> counted x) by (intros x E; injection E as <-; exact C').
  destruct (image_ok 0 _ (Some c') ltac:(lia) start_ok ltac:(cbn [good]; lia) CC) as [HS' HG'].
  assert (NP : B2R (update fzero 1 (spe_hist c')) = v). { rewrite <- V'. apply blend_first; [apply unit0|exact U'|left; reflexivity]. }
  assert (NW : B2R (update fzero 1 (fmul (spe_hist c') (spe_hist c'))) = w). { rewrite <- W'. apply blend_first; [apply unit0|exact Q'|left; reflexivity]. }
  apply (const_fold 0 c v w ltac:(lia) HC Hv Hw).
  - intros x Hx. apply HE. right. exact Hx.
  - exact HS'.
  - cbn [entry_image good] in *. lia.
  - destruct HS' as (P' & _). cbn [entry_image all pk good allp pw] in *. change (0 + 1)%Z with 1%Z in *. refine (eq_trans _ NP). apply blend_first; [apply unit0|exact P'|left; reflexivity].
  - destruct HS' as (_ & P' & _). cbn [entry_image all pk good allp pw] in *. change (0 + 1)%Z with 1%Z in *. refine (eq_trans _ NW). apply blend_first; [apply unit0|exact P'|left; reflexivity].
  - left. cbn [entry_image pk pw good]. change (0 + 1)%Z with 1%Z. split; [lia|]. split; [exact NP|exact NW].
Qed.
Lemma rest_sets c v w : counted c -> B2R (spe_hist c) = v -> B2R (fmul (spe_hist c) (spe_hist c)) = w ->
  forall sets i a ap, (Z.of_nat i + Z.of_nat (length sets) <= 2 ^ 53)%Z -> unit a -> unit ap -> B2R a = v -> B2R ap = w ->
  (forall images, In images sets -> (Z.of_nat (length images) <= 2 ^ 53)%Z /\ forall e, In e images -> exists c', e = Some c' /\ counted c' /\ share c' = share c) ->
  B2R (fst (entry_sets i sets a ap)) = v /\ B2R (snd (entry_sets i sets a ap)) = w.
Proof.
  intros HC Hv Hw. induction sets as [|images l IH]; intros i a ap Hi Ha Hap Ea Eap H; [split; assumption|]. cbn [entry_sets length] in *.
  destruct (H images (or_introl eq_refl)) as [HL HE].
  assert (S : ok (Entry 0 fzero fzero a ap)). { repeat split; cbn [pk pw all allp good]; try apply unit0; try apply Ha; try apply Hap; try lia; change (B2R fzero) with 0; lra. }
  assert (CC : forall x, In (Some x) images -> counted x). { intros x Hx. destruct (HE _ Hx) as (c' & E & C & _). injection E as ->. exact C. }
  destruct (images_ok i images _ ltac:(lia) S ltac:(cbn [good]; lia) CC) as (_ & _ & A & AP & _).
  destruct (const_fold i c v w ltac:(lia) HC Hv Hw images _ HE S ltac:(cbn [good]; lia) Ea Eap) as [E1 E2]. { right. cbn [good pk pw]. change (B2R fzero) with 0. auto. }
  apply IH; auto; [lia|]. intros im Hin. apply H. right. exact Hin.
Qed.
Lemma equal_sets c first rest : counted c -> first <> [] -> (Z.of_nat (S (length rest)) <= 2 ^ 53)%Z ->
  (forall images, In images (first :: rest) -> (Z.of_nat (length images) <= 2 ^ 53)%Z /\ forall e, In e images -> exists c', e = Some c' /\ counted c' /\ share c' = share c) ->
  B2R (fst (xsvs_entry (first :: rest))) = rnd (share c) /\ is_finite (snd (xsvs_entry (first :: rest))) = true /\ B2R (snd (xsvs_entry (first :: rest))) = 0.
Proof.
  intros HC NE HL H. destruct (hist_ok c HC) as [U E]. destruct (sq_ok _ U) as [Q QE].
  destruct (H first (or_introl eq_refl)) as [HF HE].
  destruct (first_images c _ _ first HC eq_refl eq_refl NE HE HF) as [A1 A2]. cbn zeta in A1, A2.
  assert (CC : forall x, In (Some x) first -> counted x). { intros x Hx. destruct (HE _ Hx) as (c' & E' & C & _). injection E' as ->. exact C. }
  destruct (images_ok 0 first _ ltac:(lia) start_ok ltac:(cbn [good]; lia) CC) as (_ & _ & A & AP & _).
  assert (HR : forall images, In images rest -> (Z.of_nat (length images) <= 2 ^ 53)%Z /\ forall e, In e images -> exists c', e = Some c' /\ counted c' /\ share c' = share c) by (intros im Hin; apply H; right; exact Hin).
  set (t := fold_left (entry_image 0) first _) in *.
  destruct (rest_sets c _ _ HC eq_refl eq_refl rest 1%nat (all t) (allp t) ltac:(lia) A AP A1 A2 HR) as [R1 R2].
  destruct (sets_ok rest 1%nat (all t) (allp t) ltac:(lia) A AP) as [UA UP].
  { intros im Hin. destruct (HR im Hin) as [K1 K2]. split; [exact K1|]. intros x Hx. destruct (K2 _ Hx) as (c' & E' & C & _). injection E' as ->. exact C. }
  unfold xsvs_entry. cbn [entry_sets]. change (0 + 1)%nat with 1%nat. fold t. destruct (entry_sets 1 rest (all t) (allp t)) as [a ap] eqn:EE. cbn [fst snd] in *.
  split; [rewrite R1; exact E|]. destruct (sq_ok a UA) as [[FS BS] ES]. destruct UP as [FP BP].
  assert (Z : B2R ap - B2R (fmul a a) = 0). { rewrite R2, ES, R1, QE. ring. }
  destruct (fsub_ok ap (fmul a a) FP FS) as (ED & FD & _). { rewrite Z, rnd_0, Rabs_R0. apply bpow_gt_0. }
  rewrite Z, rnd_0 in ED. destruct (fsqrt_ok (fsub ap (fmul a a)) FD) as [FR ER]; [rewrite ED; lra|]. split; [exact FR|]. rewrite ER, ED, sqrt_0. apply rnd_0.
Qed.
