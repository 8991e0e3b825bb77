From Verif Require Import Common QcArith Sums Sgolay_Model Sgolay_Spec Sgolay_Proofs Sgolay_Core.
From Coq Require Import ZifyBool ZifyNat Lia.

Lemma assign_in r0 r1 c0 c1 v s i j : (r0 <= i < r1)%Z -> (c0 <= j < c1)%Z -> assign r0 r1 c0 c1 v s i j = v i j.
Proof. intros. unfold assign. replace (_ && _ && _ && _)%bool with true by lia. reflexivity. Qed.
Lemma assign_out r0 r1 c0 c1 v s i j : ~ ((r0 <= i < r1)%Z /\ (c0 <= j < c1)%Z) -> assign r0 r1 c0 c1 v s i j = s i j.
Proof. intros. unfold assign. replace (_ && _ && _ && _)%bool with false by lia. reflexivity. Qed.
Ltac region := repeat (first [rewrite assign_in by lia | rewrite assign_out by lia]).
(** ** the middle of the padded image *)
Lemma pad_inner h m i j : (0 <= i < rows m)%Z -> (0 <= j < cols m)%Z -> (0 <= h)%Z -> pad h m (i + h) (j + h) = px m i j.
Proof.
  intros Hi Hj Hh. unfold pad. cbv zeta. rewrite !assign_out by lia. rewrite assign_in by lia. unfold get. f_equal; lia.
Qed.
Lemma qabs_pos x : (0 <= x)%Qc -> qabs x = x.
Proof. intros H. unfold qabs. destruct (Qc_ltb_spec x 0%Qc); [qclra|reflexivity]. Qed.
Lemma qabs_neg x : (x <= 0)%Qc -> qabs x = (- x)%Qc.
Proof. intros H. unfold qabs. destruct (Qc_ltb_spec x 0%Qc); [reflexivity|]. assert (x = 0%Qc) as -> by (apply Qcle_antisym; [exact H|qclra]). ring. Qed.
(** ** ramps are continued *)
Section Ramp.
Variables (m : image) (h : Z) (a b c : Qc).
Hypotheses (Hb : (0 <= b)%Qc) (Hc : (0 <= c)%Qc) (Hh : (1 <= h)%Z) (HN : (h + 1 <= rows m)%Z) (HM : (h + 1 <= cols m)%Z).
Definition ramp (i j : Z) : Qc := (a + b * qz i + c * qz j)%Qc.
Hypothesis Himg : forall i j, (0 <= i < rows m)%Z -> (0 <= j < cols m)%Z -> px m i j = ramp i j.
Lemma step x k : (0 <= x)%Qc -> (0 <= k)%Z -> (0 <= x * qz k)%Qc.
Proof. intros X K. assert (K' : (0 <= qz k)%Qc) by (rewrite <- qz_0; now apply qz_le). replace 0%Qc with (0 * qz k)%Qc by ring. now apply Qcmult_le_compat_r. Qed.
Lemma ramp_diff i j i' j' : (i <= i')%Z -> (j <= j')%Z -> (0 <= ramp i' j' - ramp i j)%Qc.
Proof.
  intros I J. pose proof (step b (i' - i) Hb ltac:(lia)) as H1. pose proof (step c (j' - j) Hc ltac:(lia)) as H2. rewrite qz_sub in H1, H2.
  replace (ramp i' j' - ramp i j)%Qc with (b * (qz i' - qz i) + c * (qz j' - qz j))%Qc by (unfold ramp; ring). apply (Qcle_trans _ (0 + 0)%Qc); [discriminate|]. now apply Qcplus_le_compat.
Qed.
Lemma below i j i' j' : (i <= i')%Z -> (j <= j')%Z -> (ramp i j - qabs (ramp i' j' - ramp i j) = ramp (2 * i - i') (2 * j - j'))%Qc.
Proof. intros I J. rewrite qabs_pos by now apply ramp_diff. unfold ramp. rewrite !qz_sub, !qz_mul. change (qz 2) with (qz (1 + 1)). rewrite qz_add, qz_1. ring. Qed.
Lemma above i j i' j' : (i' <= i)%Z -> (j' <= j)%Z -> (ramp i j + qabs (ramp i' j' - ramp i j) = ramp (2 * i - i') (2 * j - j'))%Qc.
Proof.
  intros I J. rewrite qabs_neg. { unfold ramp. rewrite !qz_sub, !qz_mul. change (qz 2) with (qz (1 + 1)). rewrite qz_add, qz_1. ring. }
  pose proof (ramp_diff i' j' i j I J) as H. assert (E : (ramp i' j' - ramp i j = - (ramp i j - ramp i' j'))%Qc) by ring. rewrite E. replace 0%Qc with (- 0)%Qc by ring. now apply Qcopp_le_compat.
Qed.
Theorem pad_ramp i j : (0 <= i < rows m + 2 * h)%Z -> (0 <= j < cols m + 2 * h)%Z -> pad h m i j = ramp (i - h) (j - h).
Proof.
  intros Hi Hj. unfold pad. cbv zeta.
  assert (RI : (i < h)%Z \/ (h <= i < rows m + h)%Z \/ (rows m + h <= i)%Z) by lia.
  assert (RJ : (j < h)%Z \/ (h <= j < cols m + h)%Z \/ (cols m + h <= j)%Z) by lia.
  destruct RI as [RI|[RI|RI]], RJ as [RJ|[RJ|RJ]].
  - region. unfold get. rewrite !Himg by lia. rewrite below by lia. f_equal; lia.
  - region. unfold get. rewrite !Himg by lia. rewrite below by lia. f_equal; lia.
  - rewrite assign_out by lia. rewrite assign_in by lia. unfold get. region. unfold get. rewrite !Himg by lia. rewrite !above by lia. rewrite below by lia. f_equal; lia.
  - region. unfold get. rewrite !Himg by lia. rewrite below by lia. f_equal; lia.
  - region. unfold get. rewrite !Himg by lia. f_equal; lia.
  - region. unfold get. rewrite !Himg by lia. rewrite above by lia. f_equal; lia.
  - rewrite assign_in by lia. unfold get. region. unfold get. rewrite !Himg by lia. rewrite !above by lia. rewrite below by lia. f_equal; lia.
  - region. unfold get. rewrite !Himg by lia. rewrite above by lia. f_equal; lia.
  - region. unfold get. rewrite !Himg by lia. rewrite above by lia. f_equal; lia.
Qed.
End Ramp.
(** ** the whole function *)
Section Top.
Variable pinv : list (list Qc) -> list (list Qc).
(** the calls the code accepts *)
Definition accepted (m : image) (window order : Z) : Prop :=
  (window mod 2 = 1)%Z /\ (3 <= window)%Z /\ ((order + 1) * (order + 2) <= 2 * (window * window))%Z /\ (0 <= order)%Z /\ (window / 2 < rows m)%Z /\ (window / 2 < cols m)%Z.
Lemma sgolay_open m window order d : accepted m window order ->
  exists h n, window = Z.of_nat (2 * h + 1) /\ order = Z.of_nat n /\ 1 <= h /\ (Z.of_nat h < rows m)%Z /\ (Z.of_nat h < cols m)%Z /\ (window / 2 = Z.of_nat h)%Z /\
    let P := pinv (design n h (2 * h + 1)) in
    let out k := {| rows := rows m; cols := cols m; px := convolve (2 * h + 1) k (pad (Z.of_nat h) m) |} in
    let row i (f : list Qc -> result (list image)) := match nth_error P i with Some r => f r | None => IndexError end in
    sgolay2d pinv m window order d = match d with
      | DNone => row 0 (fun k => Val [out k])
      | DCol => row 1 (fun k => Val [out (map Qcopp k)])
      | DRow => row 2 (fun k => Val [out (map Qcopp k)])
      | DBoth => row 1 (fun c => row 2 (fun r => Val [out (map Qcopp r); out (map Qcopp c)]))
      | DOther => Val []
      end.
Proof.
  intros (O & W3 & T & P & R & C). exists (Z.to_nat (window / 2)), (Z.to_nat order).
  assert (D := Z.div_mod window 2 ltac:(lia)).
  assert (Ew : window = Z.of_nat (2 * Z.to_nat (window / 2) + 1)) by lia.
  split; [exact Ew|]. split; [lia|]. split; [lia|]. split; [lia|]. split; [lia|]. split; [lia|]. cbv zeta. unfold sgolay2d.
  rewrite O. cbn [Z.eqb]. destruct (Z.ltb_spec (2 * (window * window)) ((order + 1) * (order + 2))); [lia|]. destruct (Z.ltb_spec window 0); [lia|].
  destruct (Z.eqb_spec (window / 2) 0); [lia|]. destruct (Z.ltb_spec (rows m) (window / 2 + 1)); [lia|]. destruct (Z.ltb_spec (cols m) (window / 2 + 1)); [lia|]. cbn [orb].
  destruct (Z.ltb_spec order 0); [lia|]. replace (Z.to_nat window) with (2 * Z.to_nat (window / 2) + 1) by lia. rewrite Z2Nat.id by lia. reflexivity.
Qed.
Lemma convolve_row h P k r s i j : nth_error P k = Some r -> convolve (2 * h + 1) r s i j = conv_at h P k s i j.
Proof. intros E. unfold convolve, conv_at, ent. rewrite (nth_error_nth P k [] E). reflexivity. Qed.
Lemma convolve_opp h P k r s i j : nth_error P k = Some r -> convolve (2 * h + 1) (map Qcopp r) s i j = (- conv_at h P k s i j)%Qc.
Proof.
  intros E. rewrite <- (convolve_row h P k r s i j E). unfold convolve. set (w := 2 * h + 1). clearbody w.
  transitivity (- (1) * sumn w (fun a => sumn w (fun b => (nth (a * w + b) r 0 * get s (i + Z.of_nat (w - 1 - a)) (j + Z.of_nat (w - 1 - b)))%Qc)))%Qc; [|ring].
  rewrite <- sumn_scale. apply sumn_ext. intros a _. rewrite <- sumn_scale. apply sumn_ext. intros b _.
  replace (nth (a * w + b) (map Qcopp r) 0%Qc) with (- nth (a * w + b) r 0)%Qc; [ring|]. rewrite <- (map_nth Qcopp). reflexivity.
Qed.
(** the window around a pixel away from the border shows the image *)
Definition shows (m : image) (h : Z) (i j : Z) (T : list term) : Prop :=
  (h <= i < rows m - h)%Z /\ (h <= j < cols m - h)%Z /\
  forall i' j', (i - h <= i' <= i + h)%Z -> (j - h <= j' <= j + h)%Z -> px m i' j' = ev T i' j'.
Lemma shows_window m h i j T : shows m (Z.of_nat h) i j T -> window_is h (pad (Z.of_nat h) m) i j T.
Proof.
  intros (I & J & H) dx dy X Y. replace (i + Z.of_nat h + dx)%Z with ((i + dx) + Z.of_nat h)%Z by lia. replace (j + Z.of_nat h + dy)%Z with ((j + dy) + Z.of_nat h)%Z by lia.
  rewrite pad_inner by lia. apply H; lia.
Qed.
(** pinv is a generalised inverse of the design matrix *)
Definition pinv_ok (order : Z) (window : Z) : Prop :=
  let n := Z.to_nat order in let h := Z.to_nat (window / 2) in let w := Z.to_nat window in
  ginv (w * w) (length (exps n)) (design n h w) (pinv (design n h w)).
Lemma shape_nth P c r k : shape P c r -> k < c -> exists l, nth_error P k = Some l.
Proof. intros [L _] K. destruct (nth_error P k) as [l|] eqn:E; [eauto|]. apply nth_error_None in E. lia. Qed.
Lemma setup m window order : accepted m window order -> pinv_ok order window ->
  exists h n, window = Z.of_nat (2 * h + 1) /\ order = Z.of_nat n /\ (window / 2 = Z.of_nat h)%Z /\ 1 <= h /\ (Z.of_nat h < rows m)%Z /\ (Z.of_nat h < cols m)%Z /\
  ginv ((2 * h + 1) * (2 * h + 1)) (length (exps n)) (design n h (2 * h + 1)) (pinv (design n h (2 * h + 1))) /\
  exists r0, nth_error (pinv (design n h (2 * h + 1))) 0 = Some r0 /\
  (1 <= n -> exists r1 r2, nth_error (pinv (design n h (2 * h + 1))) 1 = Some r1 /\ nth_error (pinv (design n h (2 * h + 1))) 2 = Some r2).
Proof.
  intros Ac G. destruct (sgolay_open m window order DNone Ac) as (h & n & -> & -> & Hh & Hr & Hc & Hd & _). unfold pinv_ok in G. rewrite Hd, !Nat2Z.id in G. exists h, n.
  do 6 (split; [first [reflexivity|assumption|lia]|]). split; [exact G|]. destruct G as [Sh _].
  destruct (shape_nth _ _ _ 0 Sh) as [r0 E0]. { apply (ex_err n 0 (0, 0)). reflexivity. }
  exists r0. split; [exact E0|]. intros Hn. destruct (exps_12 n Hn) as [X1 X2]. apply ex_err in X1 as [L1 _], X2 as [L2 _].
  destruct (shape_nth _ _ _ 1 Sh L1) as [r1 E1]. destruct (shape_nth _ _ _ 2 Sh L2) as [r2 E2]. eauto.
Qed.
Theorem smooth_top m window order : accepted m window order -> pinv_ok order window ->
  exists o, sgolay2d pinv m window order DNone = Val [o] /\ rows o = rows m /\ cols o = cols m /\
    forall T i j, total_degree (Z.to_nat order) T -> shows m (window / 2) i j T -> px o i j = ev T i j.
Proof.
  intros Ac G. destruct (setup m window order Ac G) as (h & n & Ew & En & Hd & Hh & Hr & Hc & G' & r0 & E0 & _).
  destruct (sgolay_open m window order DNone Ac) as (h' & n' & Ew' & En' & _ & _ & _ & _ & E). assert (h' = h) as -> by lia. assert (n' = n) as -> by lia.
  cbv beta iota zeta in E. rewrite E0 in E. eexists. split; [exact E|]. split; [reflexivity|]. split; [reflexivity|]. intros T i j D Sw. cbn [px]. rewrite (convolve_row h _ 0 r0 _ i j E0).
  rewrite Hd in Sw. apply (smooth_core n h); [exact G'| |now apply shows_window]. now rewrite En, Nat2Z.id in D.
Qed.
(** the derivative by axis 0 ("col"), by axis 1 ("row"), and both *)
Theorem deriv_top m window order : accepted m window order -> pinv_ok order window -> (1 <= order < window)%Z ->
  exists ox oy, sgolay2d pinv m window order DCol = Val [ox] /\ sgolay2d pinv m window order DRow = Val [oy] /\ sgolay2d pinv m window order DBoth = Val [oy; ox] /\
    rows ox = rows m /\ cols ox = cols m /\ rows oy = rows m /\ cols oy = cols m /\
    forall T i j, total_degree (Z.to_nat order) T -> shows m (window / 2) i j T -> px ox i j = ev_x T i j /\ px oy i j = ev_y T i j.
Proof.
  intros Ac G [O1 O2]. destruct (setup m window order Ac G) as (h & n & Ew & En & Hd & Hh & Hr & Hc & G' & r0 & _ & E12). destruct (E12 ltac:(lia)) as (r1 & r2 & E1 & E2).
  assert (X : forall d, exists h' n', h' = h /\ n' = n /\ let P := pinv (design n h (2 * h + 1)) in
    let out k := {| rows := rows m; cols := cols m; px := convolve (2 * h + 1) k (pad (Z.of_nat h) m) |} in
    let row i (f : list Qc -> result (list image)) := match nth_error P i with Some r => f r | None => IndexError end in
    sgolay2d pinv m window order d = match d with
      | DNone => row 0 (fun k => Val [out k])
      | DCol => row 1 (fun k => Val [out (map Qcopp k)])
      | DRow => row 2 (fun k => Val [out (map Qcopp k)])
      | DBoth => row 1 (fun c => row 2 (fun r => Val [out (map Qcopp r); out (map Qcopp c)]))
      | DOther => Val []
      end).
  { intros d. destruct (sgolay_open m window order d Ac) as (h' & n' & Ew' & En' & _ & _ & _ & _ & E). assert (h' = h) as -> by lia. assert (n' = n) as -> by lia. exists h, n. auto. }
  destruct (X DCol) as (_ & _ & _ & _ & Ec), (X DRow) as (_ & _ & _ & _ & Er), (X DBoth) as (_ & _ & _ & _ & Eb). cbv beta iota zeta in Ec, Er, Eb. rewrite E1 in Ec, Eb. rewrite E2 in Er, Eb.
  do 2 eexists. split; [exact Ec|]. split; [exact Er|]. split; [exact Eb|]. do 4 (split; [reflexivity|]). intros T i j D Sw. cbn [px].
  rewrite (convolve_opp h _ 1 r1 _ i j E1), (convolve_opp h _ 2 r2 _ i j E2). rewrite Hd in Sw. rewrite En, Nat2Z.id in D.
  destruct (deriv_core n h ltac:(lia) _ _ i j T G' ltac:(lia) D (shows_window m h i j T Sw)) as [C1 C2]. rewrite C1, C2. split; ring.
Qed.
(** ramps that do not decrease along either axis come back unchanged, borders included *)
Theorem ramp_top m window order a b c : accepted m window order -> pinv_ok order window -> (0 <= b)%Qc -> (0 <= c)%Qc -> ((1 <= order)%Z \/ (b = 0 /\ c = 0)%Qc) ->
  (forall i j, (0 <= i < rows m)%Z -> (0 <= j < cols m)%Z -> px m i j = (a + b * qz i + c * qz j)%Qc) ->
  exists o, sgolay2d pinv m window order DNone = Val [o] /\ rows o = rows m /\ cols o = cols m /\
    forall i j, (0 <= i < rows m)%Z -> (0 <= j < cols m)%Z -> px o i j = px m i j.
Proof.
  intros Ac G Hb Hc HO Himg. destruct (setup m window order Ac G) as (h & n & Ew & En & Hd & Hh & Hr & Hcol & G' & r0 & E0 & _).
  destruct (sgolay_open m window order DNone Ac) as (h' & n' & Ew' & En' & _ & _ & _ & _ & E). assert (h' = h) as -> by lia. assert (n' = n) as -> by lia.
  cbv beta iota zeta in E. rewrite E0 in E. eexists. split; [exact E|]. split; [reflexivity|]. split; [reflexivity|]. intros i j Hi Hj. cbn [px]. rewrite (convolve_row h _ 0 r0 _ i j E0).
  assert (T : exists T, total_degree n T /\ forall x y, ev T x y = ramp a b c x y).
  { destruct HO as [HO|[-> ->]].
    - exists [(a, (0, 0)); (b, (1, 0)); (c, (0, 1))]. split; [repeat constructor; cbn; lia|]. intros x y. unfold ev, ramp. cbn. ring.
    - exists [(a, (0, 0))]. split; [repeat constructor; cbn; lia|]. intros x y. unfold ev, ramp. cbn. ring. }
  destruct T as (T & D & HT). rewrite (smooth_core n h _ _ i j T G' D).
  - rewrite HT, Himg by assumption. reflexivity.
  - intros dx dy X Y. rewrite HT. rewrite (pad_ramp m (Z.of_nat h) a b c Hb Hc) by (try lia; exact Himg). f_equal; lia.
Qed.
(** ** refusals *)
Theorem refusals m window order d : (1 <= rows m)%Z -> (1 <= cols m)%Z -> (0 <= order)%Z -> (window / 2 < rows m)%Z -> (window / 2 < cols m)%Z ->
  ((window mod 2 = 0 \/ window <= 1 \/ 2 * (window * window) < (order + 1) * (order + 2))%Z -> sgolay2d pinv m window order d = ValueError) /\
  ((window mod 2 = 1 /\ 3 <= window /\ (order + 1) * (order + 2) <= 2 * (window * window))%Z -> accepted m window order /\ sgolay2d pinv m window order d <> ValueError).
Proof.
  intros R C O Hr Hc. split.
  - intros H. unfold sgolay2d. destruct (Z.eqb_spec (window mod 2) 0); [reflexivity|]. destruct (Z.ltb_spec (2 * (window * window)) ((order + 1) * (order + 2))); [reflexivity|].
    destruct (Z.ltb_spec window 0); [reflexivity|]. destruct (Z.eqb_spec (window / 2) 0) as [|N]; [reflexivity|]. exfalso.
    destruct H as [H|[H|H]]; [contradiction| |lia]. assert (X : (window = 0 \/ window = 1)%Z) by lia. destruct X as [X|X]; subst window; apply N; reflexivity.
  - intros (W1 & W2 & W3). assert (Ac : accepted m window order) by (unfold accepted; repeat (split; [assumption|]); assumption). split; [exact Ac|].
    destruct (sgolay_open m window order d Ac) as (h & n & _ & _ & _ & _ & _ & _ & E). cbv beta iota zeta in E. rewrite E. destruct d; repeat destruct (nth_error _ _); discriminate.
Qed.
Theorem order_zero m window d : accepted m window 0 -> pinv_ok 0 window -> d = DCol \/ d = DRow \/ d = DBoth -> sgolay2d pinv m window 0 d = IndexError.
Proof.
  intros Ac G Hd. destruct (sgolay_open m window 0 d Ac) as (h & n & Ew & En & _ & _ & _ & Hh & E). assert (n = 0) as -> by lia.
  unfold pinv_ok in G. rewrite Hh in G. rewrite Ew, !Nat2Z.id in G. change (Z.to_nat 0) with 0 in G. destruct G as [[L _] _]. cbv beta iota zeta in E. rewrite E.
  assert (N1 : nth_error (pinv (design 0 h (2 * h + 1))) 1 = None) by (apply nth_error_None; rewrite L; cbn; lia).
  assert (N2 : nth_error (pinv (design 0 h (2 * h + 1))) 2 = None) by (apply nth_error_None; rewrite L; cbn; lia).
  destruct Hd as [->|[->| ->]]; rewrite ?N1, ?N2; reflexivity.
Qed.
End Top.
