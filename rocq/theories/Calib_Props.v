(* C91, C92: calibration of a powder detector (core/calibration.py). *)
From Coq Require Import Reals Sorted String.
Notation length := List.length.
From Verif Require Import Common Powder_Model Roi_Proofs RoiPolar_Model RoiPolar_Proofs PixGrid_Props Peak_Model Peak_Spec Peak_Lsq Peak_Proofs Calib_Model Calib_Spec Calib_Proofs Calib_Center Calib_Ex.
From Coq Require Import Lra.
Local Open Scope R_scope.
Local Open Scope list_scope.

(** C91: the estimate is the mean, and the error the standard deviation, of radius over tangent of the
    scattering angle, peak k paired with reflection k, as many as peaks, reflections and the limit allow. *)
Theorem C91_estimate lstsq (LS : least_squares lstsq) standards name wl x y w mx thr cal ps cs n ts ds : standards name = Some cal -> length x = length y -> (1 <= w)%Z -> (0 < mx)%Z ->
  peaks_at y w thr ps -> length cs = length ps -> (forall k p c, nth_error ps k = Some p -> nth_error cs k = Some c -> gaussian_at x y w p c) ->
  Z.of_nat n = Z.min (Z.min (Z.of_nat (length cal)) (Z.of_nat (length ps))) mx -> (0 < n)%nat ->
  length ts = n -> (forall k r t, nth_error cal k = Some r -> nth_error ts k = Some t -> t <> 0 /\ tangent wl r t) ->
  length ds = n -> (forall k c t d, nth_error cs k = Some c -> nth_error ts k = Some t -> nth_error ds k = Some d -> d * t = c) ->
  exists m s, estimate_d_blind lstsq standards name wl x y w mx thr = Some (Some m, Some s) /\ mean_of ds m /\ std_of ds m s.
Proof. apply blind_ok; exact LS. Qed.
Print Assumptions C91_estimate.
(** C91: if the rings lie where the reflections put them at distance D, D comes out, with no error. *)
Theorem C91_exact lstsq (LS : least_squares lstsq) standards name wl x y w mx thr cal ps cs n D : standards name = Some cal -> length x = length y -> (1 <= w)%Z -> (0 < mx)%Z ->
  peaks_at y w thr ps -> length cs = length ps -> (forall k p c, nth_error ps k = Some p -> nth_error cs k = Some c -> gaussian_at x y w p c) ->
  Z.of_nat n = Z.min (Z.min (Z.of_nat (length cal)) (Z.of_nat (length ps))) mx -> (0 < n)%nat ->
  (forall k c r, (k < n)%nat -> nth_error cs k = Some c -> nth_error cal k = Some r -> exists t, t <> 0 /\ tangent wl r t /\ c = D * t) ->
  estimate_d_blind lstsq standards name wl x y w mx thr = Some (Some D, Some 0).
Proof.
  intros Hs L Hw Hm P Lc HG En Hn HT.
  assert (HE : exists ts, length ts = n /\ forall k t, nth_error ts k = Some t -> exists c r, nth_error cs k = Some c /\ nth_error cal k = Some r /\ t <> 0 /\ tangent wl r t /\ c = D * t).
  { assert (G : forall m, (m <= n)%nat -> exists ts, length ts = m /\ forall k t, nth_error ts k = Some t -> exists c r, nth_error cs k = Some c /\ nth_error cal k = Some r /\ t <> 0 /\ tangent wl r t /\ c = D * t).
    { induction m as [|m IH]; intros Hle; [exists []; split; [reflexivity|]; intros [|k] t E; discriminate|]. destruct (IH ltac:(lia)) as (ts & Lt & Ht).
      destruct (nth_error cs m) as [c|] eqn:Ec; [|apply nth_error_None in Ec; lia]. destruct (nth_error cal m) as [r|] eqn:Er; [|apply nth_error_None in Er; lia].
      destruct (HT m c r ltac:(lia) Ec Er) as (t & Nt & Tt & Et). exists (ts ++ [t]). split; [rewrite app_length; cbn; lia|]. intros k t' E.
      destruct (Nat.ltb_spec k m) as [Hk|Hk]; [rewrite nth_error_app1 in E by lia; now apply Ht|]. rewrite nth_error_app2 in E by lia. replace (k - length ts)%nat with (k - m)%nat in E by lia.
      destruct (k - m)%nat as [|[|q]] eqn:Q; try discriminate. injection E as <-. replace k with m by lia. exists c, r. auto. }
    exact (G n (le_n n)). }
  destruct HE as (ts & Lt & Ht). destruct (C91_estimate lstsq LS standards name wl x y w mx thr cal ps cs n ts (repeat D n) Hs L Hw Hm P Lc HG En Hn Lt) as (m & s & E & M & S).
  - intros k r t Er Et. destruct (Ht k t Et) as (c & r' & _ & Er' & Nt & Tt & _). assert (r' = r) by congruence. subst. auto.
  - apply repeat_length.
  - intros k c t d Ec Et Ed. destruct (Ht k t Et) as (c' & r' & Ec' & _ & _ & _ & Q). assert (c' = c) by congruence. subst c'. apply nth_error_In, repeat_spec in Ed. subst d. auto.
  - assert (N : INR n <> 0) by (apply not_0_INR; lia). assert (T : forall (v : R) q, total (repeat v q) = INR q * v).
    { intros v q. induction q as [|q IH]; [cbn; ring|]. cbn [repeat total]. rewrite IH, S_INR. ring. }
    unfold mean_of in M. rewrite repeat_length, T in M. apply (Rmult_eq_reg_l _ _ _) in M; [|exact N]. subst m.
    destruct S as [S0 S]. rewrite repeat_length in S. assert (Q : map (fun v => (v - D) * (v - D)) (repeat D n) = repeat 0 n).
    { clear. induction n as [|n IH]; cbn; [reflexivity|]. rewrite IH. f_equal. ring. }
    rewrite Q, T in S. assert (s * s = 0) by (apply (Rmult_eq_reg_l (INR n)); [rewrite S; ring|exact N]). assert (s = 0) by nra. subst s. exact E.
Qed.
Print Assumptions C91_exact.
(** C91: rings and reflections are paired by order, so when the innermost ring is not seen the distance
    comes out too large, with nothing to tell. *)
Theorem C91_missing_ring_refuted lstsq (LS : least_squares lstsq) standards name wl x y w mx thr cal ps cs n ts us D : standards name = Some cal -> length x = length y -> (1 <= w)%Z -> (0 < mx)%Z ->
  peaks_at y w thr ps -> length cs = length ps -> (forall k p c, nth_error ps k = Some p -> nth_error cs k = Some c -> gaussian_at x y w p c) ->
  Z.of_nat n = Z.min (Z.min (Z.of_nat (length cal)) (Z.of_nat (length ps))) mx -> (0 < n)%nat -> 0 < D ->
  length ts = n -> (forall k r t, nth_error cal k = Some r -> nth_error ts k = Some t -> 0 < t /\ tangent wl r t) ->
  length us = n -> (forall k t u, nth_error ts k = Some t -> nth_error us k = Some u -> t < u /\ exists r, nth_error cal (S k) = Some r /\ tangent wl r u) ->
  (forall k u c, nth_error us k = Some u -> nth_error cs k = Some c -> c = D * u) ->
  exists m s, estimate_d_blind lstsq standards name wl x y w mx thr = Some (Some m, Some s) /\ D < m.
Proof.
  intros Hs L Hw Hm P Lc HG En Hn HD Lt Ht Lu Hu Hc. set (ds := map (fun p => D * snd p / fst p) (combine ts us)).
  assert (Ld : length ds = n) by (unfold ds; rewrite map_length, combine_length; lia).
  assert (C : forall k d t, nth_error ds k = Some d -> nth_error ts k = Some t -> exists u, nth_error us k = Some u /\ d = D * u / t).
  { intros k d t Ed Et. unfold ds in Ed. rewrite nth_error_map in Ed. destruct (nth_error (combine ts us) k) as [[t' u]|] eqn:E; [|discriminate]. cbn in Ed. injection Ed as <-.
    assert (Q : forall {A B} (a : list A) (b : list B) k x y, nth_error (combine a b) k = Some (x, y) -> nth_error a k = Some x /\ nth_error b k = Some y).
    { clear. intros A B a. induction a as [|x a IH]; intros [|y b] [|k] u v; cbn; intros; try discriminate; [split; congruence|eauto]. }
    apply Q in E as [E1 E2]. assert (t' = t) by congruence. subst. eauto. }
  assert (Pt : forall k t, nth_error ts k = Some t -> 0 < t).
  { intros k t Et. assert (Hk : (k < length ts)%nat) by (apply nth_error_Some; congruence). destruct (nth_error cal k) as [r|] eqn:Er; [|apply nth_error_None in Er; lia]. exact (proj1 (Ht k r t Er Et)). }
  destruct (C91_estimate lstsq LS standards name wl x y w mx thr cal ps cs n ts ds Hs L Hw Hm P Lc HG En Hn Lt) as (m & s & E & M & _).
  - intros k r t Er Et. destruct (Ht k r t Er Et). split; [lra|assumption].
  - exact Ld.
  - intros k c t d Ec Et Ed. destruct (C k d t Ed Et) as (u & Eu & ->). rewrite (Hc k u c Eu Ec). field. pose proof (Pt k t Et). lra.
  - exists m, s. split; [exact E|]. assert (Big : forall d, In d ds -> D < d).
    { intros d Id. apply In_nth_error in Id as [k Ed]. assert (Hk : (k < length ds)%nat) by (apply nth_error_Some; congruence). destruct (nth_error ts k) as [t|] eqn:Et; [|apply nth_error_None in Et; lia].
      destruct (C k d t Ed Et) as (u & Eu & ->). pose proof (Pt k t Et) as T0. destruct (Hu k t u Et Eu) as [TU _]. apply (Rmult_lt_reg_r t); [exact T0|]. replace (D * u / t * t) with (D * u) by (field; lra). nra. }
    unfold mean_of in M. assert (T : forall l, l <> [] -> (forall d, In d l -> D < d) -> INR (length l) * D < total l).
    { clear. induction l as [|a l IH]; intros N H; [easy|]. pose proof (H a ltac:(now left)). cbn [length total]. rewrite S_INR. destruct l as [|b l]; [cbn; lra|].
      assert (INR (length (b :: l)) * D < total (b :: l)) by (apply IH; [easy|]; intros; apply H; now right). lra. }
    assert (N : ds <> []) by (intros E0; rewrite E0 in Ld; cbn in Ld; lia). pose proof (T ds N Big). assert (0 < INR (length ds)) by (apply lt_0_INR; lia). nra.
Qed.
Print Assumptions C91_missing_ring_refuted.
(** C91: a reflection that the wavelength cannot reach makes everything nan. *)
Theorem C91_unreachable lstsq (LS : least_squares lstsq) standards name wl x y w mx thr cal ps cs k r : standards name = Some cal -> length x = length y -> (1 <= w)%Z ->
  peaks_at y w thr ps -> length cs = length ps -> (forall k p c, nth_error ps k = Some p -> nth_error cs k = Some c -> gaussian_at x y w p c) ->
  nth_error cal k = Some r -> (k < length ps)%nat -> (Z.of_nat k < mx)%Z -> ~ (Rabs (q_ r * wl) <= 4 * PI) ->
  estimate_d_blind lstsq standards name wl x y w mx thr = Some (None, None).
Proof. apply blind_nan; exact LS. Qed.
Print Assumptions C91_unreachable.
(** C91: without any peak there is an exception. *)
Theorem C91_no_peaks lstsq standards name wl x y w mx thr : (1 <= w)%Z -> peaks_at y w thr [] -> estimate_d_blind lstsq standards name wl x y w mx thr = None.
Proof. apply blind_no_peaks. Qed.
Print Assumptions C91_no_peaks.

(** a scan with one ring, of radius 1 *)
Definition one_x : list R := [0; 1; 2].
Definition one_y : list R := map (gauss_peak 1 1 1) one_x.
Lemma one_y_val : one_y = [exp (- (1 / 2)); 1; exp (- (1 / 2))].
Proof. unfold one_y, one_x, gauss_peak. cbn [map]. repeat apply f_equal2; try reflexivity; try (rewrite Rmult_1_l; f_equal; lra). replace (- ((1 - 1) * (1 - 1)) / (2 * 1 * 1)) with 0 by lra. rewrite exp_0. lra. Qed.
Lemma low_exp : exp (- (1 / 2)) < 1.
Proof. pose proof (exp_increasing (- (1 / 2)) 0 ltac:(lra)) as H. rewrite exp_0 in H. exact H. Qed.
Lemma one_peaks : peaks_at one_y 1 0 [1%Z].
Proof.
  pose proof low_exp as Lo. rewrite one_y_val. split; [repeat constructor|]. intros i. cbn [In]. split.
  - intros [<-|[]]. split; [split; [cbn; lia|]|].
    + intros j a b Nj Hj [H0 Ha] [_ Hb]. cbn in Hb. injection Hb as <-. assert (J : j = 0%Z \/ j = 2%Z) by lia. destruct J as [-> | ->]; cbn in Ha; injection Ha as <-; exact Lo.
    + intros m _ _. exists 1%Z, 0%Z, 1, (exp (- (1 / 2))). repeat split; try lia; try reflexivity. lra.
  - intros [[H _] _]. cbn in H. left. lia.
Qed.
Lemma one_gauss p c : nth_error [1%Z] p = Some 1%Z -> c = 1 -> gaussian_at one_x one_y 1 1 c.
Proof.
  intros _ ->. exists 1, 1, one_x. split; [lra|]. split; [lra|]. split; [|split].
  - exists 0%Z. split; [lia|]. split; [cbn; lia|]. intros k Hk. reflexivity.
  - exists 0%Z. split; [lia|]. split; [cbn; lia|]. intros k Hk. reflexivity.
  - exists 0, 1, 2. unfold one_x. cbn. repeat split; auto; lra.
Qed.
Definition refl (th : R) : reflection := {| d_ := 1; hkl_ := ((0, 0), 0)%Z; q_ := 4 * PI * sin (th / 2) |}.
Lemma tangent_refl th : 0 <= th <= PI -> th <> PI / 2 -> tangent 1 (refl th) (tan th).
Proof. intros H N. exists th. cbn [refl q_]. repeat split; try lra; auto. Qed.
Definition std45 (s : string) : option (list reflection) := if String.eqb s "A"%string then Some [refl (PI / 4)] else None.
Definition std30 (s : string) : option (list reflection) := if String.eqb s "A"%string then Some [refl (PI / 6); refl (PI / 4)] else None.
Example C91_ex : estimate_d_blind lsq std45 "A"%string 1 one_x one_y 1 5 0 = Some (Some 1, Some 0).
Proof.
  apply (C91_exact lsq lsq_ok std45 "A"%string 1 one_x one_y 1 5 0 [refl (PI / 4)] [1%Z] [1] 1 1); try reflexivity; try lia; [exact one_peaks| |].
  - intros [|[|k]] p c Ep Ec; try discriminate. injection Ep as <-. injection Ec as <-. now apply (one_gauss 0).
  - intros [|k] c r Hk Ec Er; [|lia]. injection Ec as <-. injection Er as <-. exists 1. pose proof PI_RGT_0. split; [lra|]. split; [|lra]. rewrite <- tan_PI4 at 2. apply tangent_refl; lra.
Qed.
(** The ring of the second reflection is taken for the first. *)
Example C91_missing_ex : exists m s, estimate_d_blind lsq std30 "A"%string 1 one_x one_y 1 5 0 = Some (Some m, Some s) /\ 1 < m.
Proof.
  pose proof PI_RGT_0 as HP.
  assert (T6 : 0 < tan (PI / 6) < 1). { split; [apply tan_gt_0; lra|]. rewrite <- tan_PI4. apply tan_increasing; lra. }
  apply (C91_missing_ring_refuted lsq lsq_ok std30 "A"%string 1 one_x one_y 1 5 0 [refl (PI / 6); refl (PI / 4)] [1%Z] [1] 1 [tan (PI / 6)] [1] 1); try reflexivity; try lia; try lra; [exact one_peaks| | | |].
  - intros [|[|k]] p c Ep Ec; try discriminate. injection Ep as <-. injection Ec as <-. now apply (one_gauss 0).
  - intros [|[|k]] r t Er Et; try discriminate. injection Er as <-. injection Et as <-. split; [lra|]. apply tangent_refl; lra.
  - intros [|[|k]] t u Et Eu; try discriminate. injection Et as <-. injection Eu as <-. split; [lra|]. exists (refl (PI / 4)). split; [reflexivity|]. rewrite <- tan_PI4 at 2. apply tangent_refl; lra.
  - intros [|[|k]] u c Eu Ec; try discriminate. injection Eu as <-. injection Ec as <-. lra.
Qed.

(** C92: every pixel belongs to exactly one of the sectors, phi_steps - 1 of them. *)
Theorem C92_sectors h w II center size px n phi r v : pixel_list h w II center size px -> (0 < n)%nat -> In (phi, (r, v)) px ->
  exists k, ((k < n)%nat /\ edge (- PI) PI n k < phi <= edge (- PI) PI n (S k)) /\
    forall k', (k' < n)%nat -> edge (- PI) PI n k' < phi <= edge (- PI) PI n (S k') -> k' = k.
Proof.
  intros [L H] Hn I. apply In_nth_error in I as [q E]. assert (Hq : (q < h * w)%nat) by (rewrite <- L; apply nth_error_Some; congruence).
  assert (Hw : (w <> 0)%nat) by (intros ->; lia). pose proof (Nat.div_mod q w Hw) as D. pose proof (Nat.mod_upper_bound q w Hw) as M.
  assert (Hi : (q / w < h)%nat) by (apply Nat.div_lt_upper_bound; lia).
  destruct (H (q / w) (q mod w) Hi M)%nat as (phi' & r' & v' & E' & _ & _ & Hp & _). replace (q / w * w + q mod w)%nat with q in E' by lia. rewrite E in E'. injection E' as <- <- <-.
  pose proof PI_RGT_0 as HP. assert (N : 0 < INR n) by (apply lt_0_INR; lia).
  assert (Step : 0 < (PI - - PI) / INR n) by (apply Rdiv_lt_0_compat; lra).
  assert (G : forall m, (m <= n)%nat -> phi <= edge (- PI) PI n m -> exists k, (k < m)%nat /\ edge (- PI) PI n k < phi <= edge (- PI) PI n (S k)).
  { induction m as [|m IH]; intros Hm Hle; [unfold edge in Hle; cbn [INR] in Hle; lra|]. destruct (Rle_dec phi (edge (- PI) PI n m)) as [Y|Y].
    - destruct (IH ltac:(lia) Y) as (k & Hk & P). exists k. split; [lia|exact P].
    - exists m. split; [lia|]. lra. }
  destruct (G n (le_n n)) as (k & Hk & P). { unfold edge. replace (- PI + INR n * ((PI - - PI) / INR n)) with PI by (field; lra). lra. }
  exists k. split; [split; assumption|]. intros k' Hk' P'. unfold edge in P, P'. destruct (Nat.lt_trichotomy k k') as [Q|[Q|Q]]; [|now symmetry|].
  - exfalso. assert (INR (S k) <= INR k') by (apply le_INR; lia). nra.
  - exfalso. assert (INR (S k') <= INR k) by (apply le_INR; lia). nra.
Qed.
Print Assumptions C92_sectors.
(** C92: the new centre. Rings are traced in every sector; the first m of them, m the fewest found in any
    sector, give the deviation u k of sector k. *)
Theorem C92_center h w II center size n mx thresh win nx min_x max_x px ts m (u : nat -> R) nxn : length II = (h * w)%nat -> pixel_list h w II center size px ->
  (1 <= win)%Z -> (2 <= n)%nat -> nxn = match nx with Some z => Z.to_nat z | None => (h + w)%nat end -> (0 < nxn)%nat ->
  length ts = n -> (forall k t, nth_error ts k = Some t -> traced px (edge (- PI) PI n k) (edge (- PI) PI n (S k)) nxn min_x max_x win thresh mx t) ->
  (forall t, In t ts -> (m <= length t)%nat) -> (exists t, In t ts /\ length t = m) -> (0 < m)%nat -> (forall k, (k < n)%nat -> deviation ts m k (u k)) ->
  refine_center h w II center size (S n) (Z.of_nat mx) thresh win nx min_x max_x =
  Some (Some (fst center + 2 / INR n * sum_to n (fun k => cos (sector_angle n k) * u k) / fst size, snd center + 2 / INR n * sum_to n (fun k => sin (sector_angle n k) * u k) / snd size)).
Proof. apply center_ok. Qed.
Print Assumptions C92_center.
Lemma deviations ts m : (0 < m)%nat -> exists u, forall k, (k < length ts)%nat -> deviation ts m k (u k).
Proof.
  intros Hm. exists (fun k => sum_to m (fun j => entry (nth k ts []) j - total (map (fun t => entry t j) ts) / INR (length ts)) / INR m). intros k Hk.
  exists (nth k ts []). split; [now apply nth_error_nth'|]. field. apply not_0_INR. lia.
Qed.
(** C92: seen from a centre that is wrong by (dy, dx), in length units, rows first, the ring of radius R
    appears at radius R + dx cos phi + dy sin phi (up to dx² + dy² over R). To what accuracy eps ever the
    traces follow this, the ROW is moved by dx and the COLUMN by dy, within 4 eps: the two are exchanged. *)
Theorem C92_exchanged_refuted h w II center size n mx thresh win nx min_x max_x px ts m nxn radii dy dx eps : length II = (h * w)%nat -> pixel_list h w II center size px ->
  (1 <= win)%Z -> (3 <= n)%nat -> nxn = match nx with Some z => Z.to_nat z | None => (h + w)%nat end -> (0 < nxn)%nat -> 0 < fst size -> 0 < snd size ->
  length ts = n -> (forall k t, nth_error ts k = Some t -> traced px (edge (- PI) PI n k) (edge (- PI) PI n (S k)) nxn min_x max_x win thresh mx t) ->
  (forall t, In t ts -> (m <= length t)%nat) -> (exists t, In t ts /\ length t = m) -> (0 < m)%nat ->
  (forall k t j, nth_error ts k = Some t -> (j < m)%nat -> Rabs (entry t j - (radii j + dx * cos (sector_angle n k) + dy * sin (sector_angle n k))) <= eps) ->
  exists row col, refine_center h w II center size (S n) (Z.of_nat mx) thresh win nx min_x max_x = Some (Some (row, col)) /\
    Rabs ((row - fst center) * fst size - dx) <= 4 * eps /\ Rabs ((col - snd center) * snd size - dy) <= 4 * eps.
Proof.
  intros LI P Hw Hn En Hnx Sy Sx L HT Hm1 Hm2 Hm HE. destruct (deviations ts m Hm) as [u Hu]. rewrite L in Hu.
  destruct (recover n m ts u radii dx dy eps Hn L Hm Hu HE) as [A B].
  eexists _, _. split; [apply (center_ok h w II center size n mx thresh win nx min_x max_x px ts m u nxn); auto; lia|]. split.
  - eapply Rle_trans; [|exact A]. apply Req_le. f_equal. field. split; solve [lra|apply not_0_INR; lia].
  - eapply Rle_trans; [|exact B]. apply Req_le. f_equal. field. split; solve [lra|apply not_0_INR; lia].
Qed.
Print Assumptions C92_exchanged_refuted.
(** C92: hence an error in the columns alone is made worse. *)
Theorem C92_column_error_refuted h w II center n mx thresh win nx min_x max_x px ts m nxn radii dx eps : length II = (h * w)%nat -> pixel_list h w II center (1, 1) px ->
  (1 <= win)%Z -> (3 <= n)%nat -> nxn = match nx with Some z => Z.to_nat z | None => (h + w)%nat end -> (0 < nxn)%nat ->
  length ts = n -> (forall k t, nth_error ts k = Some t -> traced px (edge (- PI) PI n k) (edge (- PI) PI n (S k)) nxn min_x max_x win thresh mx t) ->
  (forall t, In t ts -> (m <= length t)%nat) -> (exists t, In t ts /\ length t = m) -> (0 < m)%nat ->
  (forall k t j, nth_error ts k = Some t -> (j < m)%nat -> Rabs (entry t j - (radii j + dx * cos (sector_angle n k))) <= eps) -> 16 * eps < Rabs dx ->
  exists row col, refine_center h w II center (1, 1) (S n) (Z.of_nat mx) thresh win nx min_x max_x = Some (Some (row, col)) /\
    dx * dx < (row - fst center) * (row - fst center) + (col - (snd center + dx)) * (col - (snd center + dx)).
Proof.
  intros LI P Hw Hn En Hnx L HT Hm1 Hm2 Hm HE Hd.
  destruct (C92_exchanged_refuted h w II center (1, 1) n mx thresh win nx min_x max_x px ts m nxn radii 0 dx eps) as (row & col & E & A & B); auto; cbn [fst snd]; try lra.
  - intros k t j Et Hj. rewrite Rmult_0_l, Rplus_0_r. now apply HE.
  - exists row, col. split; [exact E|]. cbn [fst snd] in A, B. rewrite Rmult_1_r in A, B. rewrite Rminus_0_r in B.
    apply Rabs_def2 in Hd || idtac. set (a := row - fst center) in *. set (b := col - snd center) in *. replace (col - (snd center + dx)) with (b - dx) by (unfold b; ring). clearbody a b.
    assert (0 <= eps) by (pose proof (Rabs_pos b); lra). unfold Rabs in Hd, A, B. destruct (Rcase_abs dx), (Rcase_abs (a - dx)), (Rcase_abs b); nra.
Qed.
Print Assumptions C92_column_error_refuted.
(** C92: if all sectors agree on the rings the centre stays where it is. *)
Theorem C92_centered h w II center size n mx thresh win nx min_x max_x px ts m nxn radii : length II = (h * w)%nat -> pixel_list h w II center size px ->
  (1 <= win)%Z -> (3 <= n)%nat -> nxn = match nx with Some z => Z.to_nat z | None => (h + w)%nat end -> (0 < nxn)%nat -> 0 < fst size -> 0 < snd size ->
  length ts = n -> (forall k t, nth_error ts k = Some t -> traced px (edge (- PI) PI n k) (edge (- PI) PI n (S k)) nxn min_x max_x win thresh mx t) ->
  (forall t, In t ts -> (m <= length t)%nat) -> (exists t, In t ts /\ length t = m) -> (0 < m)%nat ->
  (forall t j, In t ts -> (j < m)%nat -> entry t j = radii j) ->
  refine_center h w II center size (S n) (Z.of_nat mx) thresh win nx min_x max_x = Some (Some center).
Proof.
  intros LI P Hw Hn En Hnx Sy Sx L HT Hm1 Hm2 Hm HE.
  destruct (C92_exchanged_refuted h w II center size n mx thresh win nx min_x max_x px ts m nxn radii 0 0 0) as (row & col & E & A & B); auto.
  - intros k t j Et Hj. rewrite (HE t j (nth_error_In _ _ Et) Hj). right. rewrite !Rmult_0_l, !Rplus_0_r, Rminus_diag_eq by reflexivity. apply Rabs_R0.
  - rewrite E. do 2 f_equal. rewrite Rmult_0_r in A, B. rewrite Rminus_0_r in A, B.
    assert (Z : forall a, Rabs a <= 0 -> a = 0) by (intros a Ha; unfold Rabs in Ha; destruct (Rcase_abs a); lra). apply Z in A, B.
    apply Rmult_integral in A as [A|A]; [|lra]. apply Rmult_integral in B as [B|B]; [|lra]. destruct center as [c1 c2]. cbn [fst snd] in A, B. f_equal; lra.
Qed.
Print Assumptions C92_centered.
(** C92: one sector without any intensity is an exception. *)
Theorem C92_dark_sector h w II center size n mx thresh win nx min_x max_x px k : length II = (h * w)%nat -> pixel_list h w II center size px -> (k < n)%nat ->
  (forall phi r v, In (phi, (r, v)) px -> edge (- PI) PI n k < phi <= edge (- PI) PI n (S k) -> v = 0) ->
  refine_center h w II center size (S n) mx thresh win nx min_x max_x = None.
Proof. apply center_dark. Qed.
Print Assumptions C92_dark_sector.
(** C92: so is a sector in which no ring is found. *)
Theorem C92_ringless h w II center size n mx thresh win nx min_x max_x px k nxn : length II = (h * w)%nat -> pixel_list h w II center size px ->
  (1 <= win)%Z -> nxn = match nx with Some z => Z.to_nat z | None => (h + w)%nat end -> (0 < nxn)%nat -> (k < n)%nat ->
  ringless px (edge (- PI) PI n k) (edge (- PI) PI n (S k)) nxn min_x max_x win thresh ->
  refine_center h w II center size (S n) mx thresh win nx min_x max_x = None.
Proof. apply center_ringless. Qed.
Print Assumptions C92_ringless.
(** A 4 x 4 image symmetric about (3/2, 3/2), started a quarter pixel to the left of it: the row, which was
    right, is moved by √2/10, the column stays. *)
Theorem C92_worse_refuted : (forall i j, (i < 4)%nat -> (j < 4)%nat -> nth_error ex_image (i * 4 + j) = nth_error ex_image (i * 4 + (3 - j)) /\ nth_error ex_image (i * 4 + j) = nth_error ex_image ((3 - i) * 4 + j)) /\
  refine_center 4 4 ex_image (3 / 2, 5 / 4) (1, 1) 5 1 0 1 (Some 10%Z) (Some (2 / 5)) (Some (12 / 5)) = Some (Some (3 / 2 + sqrt 2 / 10, 5 / 4)).
Proof.
  split. { intros i j Hi Hj. do 4 (try (destruct i as [|i])); try lia; do 4 (try (destruct j as [|j])); try lia; split; reflexivity. }
  refine (eq_trans (C92_center 4 4 ex_image (3 / 2, 5 / 4) (1, 1) 4 1 0 1 (Some 10%Z) (Some (2 / 5)) (Some (12 / 5)) ex_px [[3/2]; [17/10]; [17/10]; [3/2]] 1
    (fun k => match k with 0%nat | 3%nat => - (1 / 10) | _ => 1 / 10 end) 10 eq_refl ex_pixels ltac:(lia) ltac:(lia) eq_refl ltac:(lia) eq_refl ex_traced _ _ ltac:(lia) _) _).
  - intros t I. cbn in I. decompose [or] I; subst; cbn; lia.
  - exists [3/2]. split; [now left|reflexivity].
  - intros k Hk. destruct k as [|[|[|[|k]]]]; [| | | |lia]; (eexists; split; [reflexivity|]; cbn; lra).
  - assert (A0 : sector_angle 4 0 = - (3 * (PI / 4))) by (unfold sector_angle; cbn [INR]; field). assert (A1 : sector_angle 4 1 = - (PI / 4)) by (unfold sector_angle; cbn [INR]; field).
    assert (A2 : sector_angle 4 2 = PI / 4) by (unfold sector_angle; cbn [INR]; field). assert (A3 : sector_angle 4 3 = 3 * (PI / 4)) by (unfold sector_angle; cbn [INR]; field).
    cbn [sum_to fst snd]. rewrite A0, A1, A2, A3, !cos_neg, !sin_neg, cos_3PI4, sin_3PI4, cos_PI4, sin_PI4.
    assert (Q : sqrt 2 <> 0) by (pose proof (sqrt_lt_R0 2 ltac:(lra)); lra). pose proof (sqrt_sqrt 2 ltac:(lra)) as S2.
    do 2 f_equal. assert (H1 : 1 / sqrt 2 = sqrt 2 / 2) by (apply (Rmult_eq_reg_r (sqrt 2)); [|exact Q]; unfold Rdiv; rewrite Rmult_assoc, Rinv_l by exact Q; lra).
    assert (H2 : -1 / sqrt 2 = - (sqrt 2 / 2)) by (apply (Rmult_eq_reg_r (sqrt 2)); [|exact Q]; unfold Rdiv; rewrite Rmult_assoc, Rinv_l by exact Q; lra). rewrite H1, H2.
    f_equal; cbn [INR]; field.
Qed.
Print Assumptions C92_worse_refuted.
(** Started in the right place, a symmetric image leaves the centre there. *)
Example C92_centered_ex : refine_center 4 4 ex_image2 (3 / 2, 3 / 2) (1, 1) 5 1 0 1 (Some 10%Z) (Some (2 / 5)) (Some (12 / 5)) = Some (Some (3 / 2, 3 / 2)).
Proof.
  apply (C92_centered 4 4 ex_image2 (3 / 2, 3 / 2) (1, 1) 4 1 0 1 (Some 10%Z) (Some (2 / 5)) (Some (12 / 5)) ex_px2 [[3/2]; [3/2]; [3/2]; [3/2]] 1 10 (fun _ => 3/2)); try reflexivity; try lia; cbn [fst snd]; try lra.
  - exact ex_pixels2.
  - exact ex_traced2.
  - intros t I. cbn in I. decompose [or] I; subst; cbn; lia.
  - exists [3/2]. split; [now left|reflexivity].
  - intros t j I Hj. assert (t = [3/2]) by (cbn in I; decompose [or] I; subst; tauto). subst t. now destruct j; [|lia].
Qed.
Definition dim (p : R * (R * R)) : R * (R * R) := (fst p, (fst (snd p), 0)).
Example C92_dark_ex : refine_center 4 4 (repeat 0 16) (3 / 2, 5 / 4) (1, 1) 5 1 0 1 None None None = None.
Proof.
  apply (C92_dark_sector 4 4 (repeat 0 16) (3 / 2, 5 / 4) (1, 1) 4 1 0 1 None None None (map dim ex_px) 0); [reflexivity| |lia|].
  - split; [reflexivity|]. intros i j Hi Hj. destruct (proj2 ex_pixels i j Hi Hj) as (phi & r & v & E & _ & H). exists phi, r, 0. split; [now rewrite nth_error_map, E|]. split; [|exact H].
    destruct (nth_error (repeat 0 16) (i * 4 + j)) as [z|] eqn:Q; [apply nth_error_In, repeat_spec in Q; congruence|]. apply nth_error_None in Q. rewrite repeat_length in Q. lia.
  - intros phi r v I _. apply in_map_iff in I as (p & E & _). unfold dim in E. congruence.
Qed.
(** The same image with a threshold of one: no peak stands
    out by the height of the maximum. *)
Example C92_ringless_ex : refine_center 4 4 ex_image (3 / 2, 5 / 4) (1, 1) 5 1 1 1 (Some 10%Z) (Some (2 / 5)) (Some (12 / 5)) = None.
Proof.
  apply (C92_ringless 4 4 ex_image (3 / 2, 5 / 4) (1, 1) 4 1 1 1 (Some 10%Z) (Some (2 / 5)) (Some (12 / 5)) ex_px 0 10); try reflexivity; try lia; [exact ex_pixels|].
  exists [(1/2, 11, 1%nat); (3/2, 20, 1%nat); (19/10, 11, 1%nat)]. split; [exact ex_averaged|].
  split; [constructor|]. intros i. split; [intros []|]. intros [_ T]. cbn [map fst snd INR] in T. destruct (T 20) as (j & l & a & b & _ & _ & [Ja Ea] & [Jb Eb] & Q).
  - right. left. lra.
  - intros v I. cbn in I. decompose [or] I; subst; lra || tauto.
  - assert (G : forall m v, nth_error [11 / 1; 20 / 1; 11 / 1] m = Some v -> 11 <= v <= 20) by (intros [|[|[|m]]] v E; cbn in E; [..|destruct m; discriminate]; injection E as <-; lra).
    apply G in Ea, Eb. lra.
Qed.
