(* dpc.recon with numpy's two-dimensional transforms: phases without components at or above the Nyquist frequency come back. *)
From Coq Require Import Reals List Lia.
From Coquelicot Require Import Coquelicot.
From Verif Require Import Common Cdi_RealModel Fourier Dpc_Model Dpc_Spec Dpc_Recon.
From Coq Require Import Lra.
Import ListNotations.
Local Open Scope R_scope.

(** np.fft.fft2 and ifft2 (dpc.py 273, 274, 291) *)
Definition sum2 (n m : nat) (f : nat -> nat -> Complex.C) : Complex.C := csum (map (fun i => csum (map (fun j => f i j) (seq 0 m))) (seq 0 n)).
Definition fft2 (n m : nat) (a : arr) : arr := fun k l => sum2 n m (fun i j => Cmult (a i j) (turn (- (INR k * INR i / INR n + INR l * INR j / INR m)))).
Definition ifft2 (n m : nat) (a : arr) : arr := fun k l => Cmult (RtoC (/ (INR n * INR m))) (sum2 n m (fun i j => Cmult (a i j) (turn (INR k * INR i / INR n + INR l * INR j / INR m)))).
(** a phase surface: a sum of plane waves with whole periods over the scanned area n ys by m xs; (amplitude, start phase, periods in y, in x) *)
Definition plane (n m : nat) (xs ys : R) (w : (R * R) * (Z * Z)) (y x : R) : R :=
  fst (fst w) * cos (2 * PI * (IZR (fst (snd w)) * y / (INR n * ys) + IZR (snd (snd w)) * x / (INR m * xs)) + snd (fst w)).
Definition surface (n m : nat) (xs ys : R) (ws : list ((R * R) * (Z * Z))) (y x : R) : R := rsum (map (fun w => plane n m xs ys w y x) ws).

Lemma sum2_ext n m f g : (forall i j, (i < n)%nat -> (j < m)%nat -> f i j = g i j) -> sum2 n m f = sum2 n m g.
Proof. intros H. unfold sum2. apply csum_ext. intros i Hi. apply csum_ext. intros j Hj. apply in_seq in Hi, Hj. apply H; lia. Qed.
Lemma sum2_add n m f g : sum2 n m (fun i j => Cplus (f i j) (g i j)) = Cplus (sum2 n m f) (sum2 n m g).
Proof. unfold sum2. rewrite <- csum_add. apply csum_ext. intros i _. apply csum_add. Qed.
Lemma sum2_mul n m c f : sum2 n m (fun i j => Cmult c (f i j)) = Cmult c (sum2 n m f).
Proof. unfold sum2. rewrite <- csum_mul. apply csum_ext. intros i _. apply csum_mul. Qed.
Lemma sum2_prod n m (f g : nat -> Complex.C) : sum2 n m (fun i j => Cmult (f i) (g j)) = Cmult (csum (map f (seq 0 n))) (csum (map g (seq 0 m))).
Proof.
  unfold sum2. transitivity (csum (map (fun i => Cmult (csum (map g (seq 0 m))) (f i)) (seq 0 n))); [|rewrite csum_mul; ring]. apply csum_ext. intros i _. rewrite csum_mul. ring.
Qed.
Lemma sum2_swap n m p q (f : nat -> nat -> nat -> nat -> Complex.C) : sum2 n m (fun i j => sum2 p q (f i j)) = sum2 p q (fun k l => sum2 n m (fun i j => f i j k l)).
Proof.
  unfold sum2. transitivity (csum (map (fun i => csum (map (fun k => csum (map (fun j => csum (map (f i j k) (seq 0 q))) (seq 0 m))) (seq 0 p))) (seq 0 n))); [apply csum_ext; intros i _; apply csum_swap|].
  rewrite csum_swap. apply csum_ext. intros k _. transitivity (csum (map (fun i => csum (map (fun l => csum (map (fun j => f i j k l) (seq 0 m))) (seq 0 q))) (seq 0 n))); [apply csum_ext; intros i _; apply csum_swap|]. apply csum_swap.
Qed.
Lemma pick1 (f : nat -> Complex.C) n i0 : (i0 < n)%nat -> csum (map (fun i => Cmult (f i) (RtoC (if Nat.eqb i i0 then INR n else 0))) (seq 0 n)) = Cmult (f i0) (RtoC (INR n)).
Proof.
  intros H. generalize (INR n) as N. intros N. assert (G : forall k s, (s <= i0)%nat -> (i0 < s + k)%nat -> csum (map (fun i => Cmult (f i) (RtoC (if Nat.eqb i i0 then N else 0))) (seq s k)) = Cmult (f i0) (RtoC N)).
  { induction k as [|k IH]; intros s H1 H2; [lia|]. cbn [seq map csum]. destruct (Nat.eqb_spec s i0) as [->|Ne].
    - rewrite csum_zero; [ring|]. intros i Hi. apply in_seq in Hi. destruct (Nat.eqb_spec i i0); [lia|]. ring.
    - rewrite IH by lia. ring. }
  apply G; lia.
Qed.
Lemma ifft2_fft2 n m (a : arr) i0 j0 : (i0 < n)%nat -> (j0 < m)%nat -> ifft2 n m (fft2 n m a) i0 j0 = a i0 j0.
Proof.
  intros Hi Hj. change (@eq Complex.C (ifft2 n m (fft2 n m a) i0 j0) (a i0 j0)). unfold ifft2, fft2. assert (Hn : 0 < INR n) by (apply lt_0_INR; lia). assert (Hm : 0 < INR m) by (apply lt_0_INR; lia).
  transitivity (Cmult (RtoC (/ (INR n * INR m))) (sum2 n m (fun k l => sum2 n m (fun i j => Cmult (a i j) (Cmult (Cmult (turn (1 * (INR k * INR i0 / INR n))) (turn (- (1) * (INR k * INR i / INR n)))) (Cmult (turn (1 * (INR l * INR j0 / INR m))) (turn (- (1) * (INR l * INR j / INR m)))))))) ).
  { f_equal. apply sum2_ext. intros k l _ _. rewrite Cmult_comm, <- sum2_mul. apply sum2_ext. intros i j _ _.
    replace (INR i0 * INR k / INR n + INR j0 * INR l / INR m) with (1 * (INR k * INR i0 / INR n) + 1 * (INR l * INR j0 / INR m)) by (field; lra).
    replace (- (INR k * INR i / INR n + INR l * INR j / INR m)) with (- (1) * (INR k * INR i / INR n) + - (1) * (INR l * INR j / INR m)) by (field; lra). rewrite !turn_add. ring. }
  rewrite sum2_swap.
  transitivity (Cmult (RtoC (/ (INR n * INR m))) (sum2 n m (fun i j => Cmult (Cmult (a i j) (RtoC (if Nat.eqb j j0 then INR m else 0))) (RtoC (if Nat.eqb i i0 then INR n else 0))))).
  { f_equal. apply sum2_ext. intros i j Hi' Hj'. rewrite sum2_mul, sum2_prod. rewrite (ortho1 1 n i0 i (or_introl eq_refl) Hi Hi'), (ortho1 1 m j0 j (or_introl eq_refl) Hj Hj'). rewrite (Nat.eqb_sym i0 i), (Nat.eqb_sym j0 j). ring. }
  unfold sum2. transitivity (Cmult (RtoC (/ (INR n * INR m))) (csum (map (fun i => Cmult (Cmult (a i j0) (RtoC (INR m))) (RtoC (if Nat.eqb i i0 then INR n else 0))) (seq 0 n)))).
  { f_equal. apply csum_ext. intros i _. transitivity (Cmult (RtoC (if Nat.eqb i i0 then INR n else 0)) (csum (map (fun j => Cmult (a i j) (RtoC (if Nat.eqb j j0 then INR m else 0))) (seq 0 m)))); [rewrite <- csum_mul; apply csum_ext; intros j _; ring|]. rewrite (pick1 (fun j => a i j) m j0 Hj). ring. }
  rewrite (pick1 (fun i => Cmult (a i j0) (RtoC (INR m))) n i0 Hi).
  transitivity (Cmult (a i0 j0) (RtoC (/ (INR n * INR m) * INR m * INR n))); [rewrite !RtoC_mult; ring|]. replace (/ (INR n * INR m) * INR m * INR n) with 1 by (field; lra). apply Cmult_1_r.
Qed.

(** ** One wave *)
Definition line (n : nat) (u : Z) (k : nat) : Complex.C := csum (map (fun i => turn ((IZR u - INR k) * INR i / INR n)) (seq 0 n)).
Lemma turn_int z : turn (IZR z) = RtoC 1.
Proof.
  destruct (Z_le_gt_dec 0 z) as [H|H].
  - rewrite <- (Z2Nat.id z H), <- INR_IZR_INZ. apply turn_nat.
  - pose proof (turn_opp (INR (Z.to_nat (- z)))) as E. rewrite turn_nat in E. rewrite INR_IZR_INZ, Z2Nat.id in E by lia. rewrite opp_IZR, Ropp_involutive in E. rewrite <- E. ring.
Qed.
Lemma line_zero n u k : (k < n)%nat -> (2 * Z.abs u < Z.of_nat n)%Z -> line n u k = RtoC 0 \/ freq n k = u.
Proof.
  intros Hk Hu. assert (Hn : 0 < INR n) by (apply lt_0_INR; lia). set (t := (IZR u - INR k) / INR n).
  assert (E : line n u k = csum (map (cpow (turn t)) (seq 0 n))). { apply csum_ext. intros i _. rewrite cpow_turn. f_equal. unfold t. field. lra. }
  pose proof (geo (turn t) n) as G. rewrite cpow_turn in G. replace (INR n * t) with (IZR (u - Z.of_nat k)) in G by (unfold t; rewrite minus_IZR, <- INR_IZR_INZ; field; lra). rewrite turn_int in G.
  destruct (Ceq_dec (turn t) (RtoC 1)) as [T|T].
  - right. assert (B : IZR u = t * INR n + INR k) by (unfold t; field; lra).
    assert (C1 : forall z : Z, t = IZR z -> u = (z * Z.of_nat n + Z.of_nat k)%Z). { intros z Hz. apply eq_IZR. rewrite plus_IZR, mult_IZR, <- !INR_IZR_INZ, B, Hz. reflexivity. }
    assert (T1 : -3 / 2 < t < 1 / 2).
    { assert (U : - INR n < 2 * IZR u < INR n). { rewrite INR_IZR_INZ, <- opp_IZR, <- mult_IZR. split; apply IZR_lt; lia. }
      assert (K : 0 <= INR k < INR n) by (split; [apply pos_INR|apply lt_INR; exact Hk]). assert (B2 : t * INR n = IZR u - INR k) by lra. split; apply Rmult_lt_reg_r with (INR n); try exact Hn; lra. }
    destruct (Rlt_dec (-1) t) as [L|L].
    + assert (Z0 : t = 0) by (apply turn_one; [lra|exact T]). pose proof (C1 0%Z Z0). unfold freq. destruct (2 * k <? n)%nat eqn:Eq; lia.
    + assert (Z1 : t + 1 = 0) by (apply turn_one; [lra|rewrite turn_add, T, (turn_nat 1 : turn 1 = RtoC 1); ring]). pose proof (C1 (-1)%Z ltac:(lra)). unfold freq. destruct (2 * k <? n)%nat eqn:Eq; lia.
  - left. rewrite E. assert (NZ : Cminus (turn t) (RtoC 1) <> RtoC 0). { intros Z. apply T. replace (turn t) with (Cplus (Cminus (turn t) 1) 1) by ring. rewrite Z. ring. }
    set (Sm := csum _) in *. replace Sm with (Cmult (Cinv (Cminus (turn t) 1)) (Cmult (Cminus (turn t) 1) Sm)); [rewrite G; ring|]. field. exact NZ.
Qed.
Definition carrier (A dl : R) : Complex.C := (A * cos dl, A * sin dl).
Lemma two_waves A dl s : RtoC (A * cos (2 * PI * s + dl)) = Cmult (RtoC (/ 2)) (Cplus (Cmult (carrier A dl) (turn s)) (Cmult (Cconj (carrier A dl)) (turn (- s)))).
Proof.
  unfold carrier, turn, Cconj, Cmult, Cplus, RtoC. cbn [fst snd]. replace (2 * PI * - s) with (- (2 * PI * s)) by ring. rewrite cos_neg, sin_neg, cos_plus. f_equal; field.
Qed.
Lemma wave_fft n m A dl u v k l : (0 < n)%nat -> (0 < m)%nat ->
  fft2 n m (fun i j => (A * cos (2 * PI * (IZR u * INR i / INR n + IZR v * INR j / INR m) + dl), 0)) k l =
  Cmult (RtoC (/ 2)) (Cplus (Cmult (carrier A dl) (Cmult (line n u k) (line m v l))) (Cmult (Cconj (carrier A dl)) (Cmult (line n (- u) k) (line m (- v) l)))).
Proof.
  intros Hn Hm. apply lt_0_INR in Hn. apply lt_0_INR in Hm. unfold fft2, line. rewrite <- !sum2_prod, <- !sum2_mul, <- sum2_add, <- sum2_mul. apply sum2_ext. intros i j _ _.
  change ((A * cos (2 * PI * (IZR u * INR i / INR n + IZR v * INR j / INR m) + dl), 0)) with (RtoC (A * cos (2 * PI * (IZR u * INR i / INR n + IZR v * INR j / INR m) + dl))). rewrite two_waves.
  replace (turn ((IZR u - INR k) * INR i / INR n)) with (Cmult (turn (IZR u * INR i / INR n)) (turn (- (INR k * INR i / INR n)))) by (rewrite <- turn_add; f_equal; field; lra).
  replace (turn ((IZR v - INR l) * INR j / INR m)) with (Cmult (turn (IZR v * INR j / INR m)) (turn (- (INR l * INR j / INR m)))) by (rewrite <- turn_add; f_equal; field; lra).
  replace (turn ((IZR (- u) - INR k) * INR i / INR n)) with (Cmult (turn (- (IZR u * INR i / INR n))) (turn (- (INR k * INR i / INR n)))) by (rewrite <- turn_add; f_equal; rewrite opp_IZR; field; lra).
  replace (turn ((IZR (- v) - INR l) * INR j / INR m)) with (Cmult (turn (- (IZR v * INR j / INR m))) (turn (- (INR l * INR j / INR m)))) by (rewrite <- turn_add; f_equal; rewrite opp_IZR; field; lra).
  rewrite !Ropp_plus_distr, !turn_add. ring.
Qed.
Definition real_arr (g : nat -> nat -> R) : arr := fun i j => (g i j, 0).
Definition der (n m : nat) (kap : nat -> nat -> R) (g phi : nat -> nat -> R) : Prop := forall k l, (k < n)%nat -> (l < m)%nat -> fft2 n m (real_arr g) k l = jmul (kap k l) (fft2 n m (real_arr phi) k l).
Lemma jmul_C r z : jmul r z = Cmult (Cmult (RtoC r) Ci) z.
Proof. destruct z as [a b]. unfold jmul, Cmult, RtoC, Ci. cbn [fst snd]. f_equal; ring. Qed.
Lemma carrier_shift A K dl : carrier (A * K) (dl + PI / 2) = Cmult (Cmult (RtoC K) Ci) (carrier A dl).
Proof. unfold carrier, Cmult, RtoC, Ci. cbn [fst snd]. rewrite cos_plus, sin_plus, cos_PI2, sin_PI2. f_equal; ring. Qed.
Lemma conj_shift K z : Cconj (Cmult (Cmult (RtoC K) Ci) z) = Cmult (Cmult (RtoC (- K)) Ci) (Cconj z).
Proof. destruct z as [a b]. unfold Cconj, Cmult, RtoC, Ci. cbn [fst snd]. f_equal; ring. Qed.
Lemma der_wave n m (kap : nat -> nat -> R) K A dl u v : (0 < n)%nat -> (0 < m)%nat ->
  (forall k l, (k < n)%nat -> (l < m)%nat -> (Cmult (line n u k) (line m v l) = RtoC 0 \/ kap k l = K) /\ (Cmult (line n (- u) k) (line m (- v) l) = RtoC 0 \/ kap k l = - K)) ->
  der n m kap (fun i j => A * K * cos (2 * PI * (IZR u * INR i / INR n + IZR v * INR j / INR m) + (dl + PI / 2))) (fun i j => A * cos (2 * PI * (IZR u * INR i / INR n + IZR v * INR j / INR m) + dl)).
Proof.
  intros Hn Hm HK k l Hk Hl. unfold real_arr. rewrite (wave_fft n m (A * K) (dl + PI / 2) u v k l Hn Hm), (wave_fft n m A dl u v k l Hn Hm), carrier_shift, conj_shift, jmul_C.
  destruct (HK k l Hk Hl) as [H1 H2]. set (P := Cmult (line n u k) (line m v l)) in *. set (Q := Cmult (line n (- u) k) (line m (- v) l)) in *. set (z := carrier A dl). clearbody P Q z.
  match goal with |- ?a = ?b => change (@eq Complex.C a b) end.
  assert (E1 : Cmult (RtoC K) P = Cmult (RtoC (kap k l)) P) by (destruct H1 as [-> | ->]; ring). assert (E2 : Cmult (RtoC (- K)) Q = Cmult (RtoC (kap k l)) Q) by (destruct H2 as [-> | ->]; ring).
  transitivity (Cmult (Cmult (RtoC (/ 2)) Ci) (Cplus (Cmult z (Cmult (RtoC K) P)) (Cmult (Cconj z) (Cmult (RtoC (- K)) Q)))); [ring|]. rewrite E1, E2. ring.
Qed.
Lemma der_add n m kap g1 p1 g2 p2 : der n m kap g1 p1 -> der n m kap g2 p2 -> der n m kap (fun i j => g1 i j + g2 i j) (fun i j => p1 i j + p2 i j).
Proof.
  assert (A : forall (a b : nat -> nat -> R) k l, fft2 n m (real_arr (fun i j => a i j + b i j)) k l = Cplus (fft2 n m (real_arr a) k l) (fft2 n m (real_arr b) k l)).
  { intros a b k l. unfold fft2, real_arr. rewrite <- sum2_add. apply sum2_ext. intros i j _ _. change ((a i j + b i j, 0)) with (RtoC (a i j + b i j)). rewrite RtoC_plus. change ((a i j, 0)) with (RtoC (a i j)). change ((b i j, 0)) with (RtoC (b i j)). ring. }
  intros H1 H2 k l Hk Hl. rewrite !A, (H1 k l Hk Hl), (H2 k l Hk Hl), !jmul_C. match goal with |- ?a = ?b => change (@eq Complex.C a b) end. ring.
Qed.
Lemma der_ext n m kap g1 p1 g2 p2 : (forall i j, (i < n)%nat -> (j < m)%nat -> g1 i j = g2 i j) -> (forall i j, (i < n)%nat -> (j < m)%nat -> p1 i j = p2 i j) -> der n m kap g1 p1 -> der n m kap g2 p2.
Proof.
  intros Eg Ep H k l Hk Hl. assert (A : forall (a b : nat -> nat -> R), (forall i j, (i < n)%nat -> (j < m)%nat -> a i j = b i j) -> fft2 n m (real_arr a) k l = fft2 n m (real_arr b) k l).
  { intros a b E. apply sum2_ext. intros i j Hi Hj. unfold real_arr. rewrite (E i j Hi Hj). reflexivity. }
  rewrite <- (A g1 g2 Eg), <- (A p1 p2 Ep). apply H; assumption.
Qed.
Lemma der_zero n m kap : der n m kap (fun _ _ => 0) (fun _ _ => 0).
Proof.
  assert (A : forall k l, fft2 n m (real_arr (fun _ _ => 0)) k l = RtoC 0). { intros k l. unfold fft2, sum2. apply csum_zero. intros i _. apply csum_zero. intros j _. change (real_arr (fun _ _ => 0) i j) with (RtoC 0). ring. }
  intros k l _ _. rewrite !A. unfold jmul, RtoC. cbn [fst snd]. f_equal; ring.
Qed.

Lemma dc_sum n m f : (0 < n)%nat -> (0 < m)%nat -> (forall i j, (0 < i)%nat \/ (0 < j)%nat -> f i j = RtoC 0) -> sum2 n m f = f 0%nat 0%nat.
Proof.
  intros Hn Hm H. destruct n as [|n], m as [|m]; try lia. unfold sum2. cbn [seq map csum]. rewrite !csum_zero; [ring| |].
  - intros i Hi. apply in_seq in Hi. rewrite H, csum_zero by lia || (intros; apply H; lia). ring.
  - intros j Hj. apply in_seq in Hj. apply H. lia.
Qed.
(** ** The surface *)
Definition below_nyquist (n m : nat) (w : (R * R) * (Z * Z)) : Prop := (2 * Z.abs (fst (snd w)) < Z.of_nat n)%Z /\ (2 * Z.abs (snd (snd w)) < Z.of_nat m)%Z.
Section Surface.
Variables (n m : nat) (xs ys : R).
Hypotheses (Hn : (0 < n)%nat) (Hm : (0 < m)%nat) (Hx : xs <> 0) (Hy : ys <> 0).
Lemma plane_grid w i j : plane n m xs ys w (INR i * ys) (INR j * xs) =
  fst (fst w) * cos (2 * PI * (IZR (fst (snd w)) * INR i / INR n + IZR (snd (snd w)) * INR j / INR m) + snd (fst w)).
Proof. unfold plane. do 3 f_equal. assert (0 < INR n) by (apply lt_0_INR; exact Hn). assert (0 < INR m) by (apply lt_0_INR; exact Hm). field. repeat split; lra || assumption. Qed.
Definition dplane_x (w : (R * R) * (Z * Z)) (y x : R) : R :=
  fst (fst w) * (2 * PI * IZR (snd (snd w)) / (INR m * xs)) * cos (2 * PI * (IZR (fst (snd w)) * y / (INR n * ys) + IZR (snd (snd w)) * x / (INR m * xs)) + (snd (fst w) + PI / 2)).
Definition dplane_y (w : (R * R) * (Z * Z)) (y x : R) : R :=
  fst (fst w) * (2 * PI * IZR (fst (snd w)) / (INR n * ys)) * cos (2 * PI * (IZR (fst (snd w)) * y / (INR n * ys) + IZR (snd (snd w)) * x / (INR m * xs)) + (snd (fst w) + PI / 2)).
Lemma cos_q a : cos (a + PI / 2) = - sin a. Proof. rewrite cos_plus, cos_PI2, sin_PI2. ring. Qed.
Lemma plane_dx w y (x : R) : is_derive (fun x => plane n m xs ys w y x) x (dplane_x w y x).
Proof. unfold plane, dplane_x. auto_derive; [trivial|]. rewrite <- Rplus_assoc, cos_q. unfold Rdiv. match goal with |- ?a = ?b => change (@eq R a b) end. ring. Qed.
Lemma plane_dy w x (y : R) : is_derive (fun y => plane n m xs ys w y x) y (dplane_y w y x).
Proof. unfold plane, dplane_y. auto_derive; [trivial|]. rewrite <- Rplus_assoc, cos_q. unfold Rdiv. match goal with |- ?a = ?b => change (@eq R a b) end. ring. Qed.
Lemma surface_dx ws y (x : R) : is_derive (fun x => surface n m xs ys ws y x) x (rsum (map (fun w => dplane_x w y x) ws)).
Proof.
  unfold surface. induction ws as [|w ws IH]; cbn [map rsum]; [apply (is_derive_const (V := R_NormedModule))|]. exact (is_derive_plus (V := R_NormedModule) _ _ x _ _ (plane_dx w y x) IH).
Qed.
Lemma surface_dy ws x (y : R) : is_derive (fun y => surface n m xs ys ws y x) y (rsum (map (fun w => dplane_y w y x) ws)).
Proof.
  unfold surface. induction ws as [|w ws IH]; cbn [map rsum]; [apply (is_derive_const (V := R_NormedModule))|]. exact (is_derive_plus (V := R_NormedModule) _ _ y _ _ (plane_dy w x y) IH).
Qed.
Lemma grid_x w i j : dplane_x w (INR i * ys) (INR j * xs) = fst (fst w) * (2 * PI * IZR (snd (snd w)) / (INR m * xs)) * cos (2 * PI * (IZR (fst (snd w)) * INR i / INR n + IZR (snd (snd w)) * INR j / INR m) + (snd (fst w) + PI / 2)).
Proof. unfold dplane_x. do 3 f_equal. assert (0 < INR n) by (apply lt_0_INR; exact Hn). assert (0 < INR m) by (apply lt_0_INR; exact Hm). field. repeat split; lra || assumption. Qed.
Lemma grid_y w i j : dplane_y w (INR i * ys) (INR j * xs) = fst (fst w) * (2 * PI * IZR (fst (snd w)) / (INR n * ys)) * cos (2 * PI * (IZR (fst (snd w)) * INR i / INR n + IZR (snd (snd w)) * INR j / INR m) + (snd (fst w) + PI / 2)).
Proof. unfold dplane_y. do 3 f_equal. assert (0 < INR n) by (apply lt_0_INR; exact Hn). assert (0 < INR m) by (apply lt_0_INR; exact Hm). field. repeat split; lra || assumption. Qed.
Lemma der_x ws : Forall (below_nyquist n m) ws -> der n m (fun _ l => wave m xs l) (fun i j => rsum (map (fun w => dplane_x w (INR i * ys) (INR j * xs)) ws)) (fun i j => surface n m xs ys ws (INR i * ys) (INR j * xs)).
Proof.
  unfold surface. induction 1 as [|w ws [B1 B2] _ IH]; [exact (der_zero n m _)|]. cbn [map rsum]. apply der_add; [|exact IH].
  eapply der_ext; [intros i j _ _; symmetry; apply grid_x|intros i j _ _; symmetry; apply plane_grid|]. apply der_wave; [exact Hn|exact Hm|]. intros k l Hk Hl. split.
  - destruct (line_zero m (snd (snd w)) l Hl B2) as [Z|E]; [left; rewrite Z; ring|right; unfold wave; rewrite E; reflexivity].
  - destruct (line_zero m (- snd (snd w)) l Hl) as [Z|E]; [lia|left; rewrite Z; ring|right; unfold wave; rewrite E, opp_IZR; unfold Rdiv; ring].
Qed.
Lemma der_y ws : Forall (below_nyquist n m) ws -> der n m (fun k _ => wave n ys k) (fun i j => rsum (map (fun w => dplane_y w (INR i * ys) (INR j * xs)) ws)) (fun i j => surface n m xs ys ws (INR i * ys) (INR j * xs)).
Proof.
  unfold surface. induction 1 as [|w ws [B1 B2] _ IH]; [exact (der_zero n m _)|]. cbn [map rsum]. apply der_add; [|exact IH].
  eapply der_ext; [intros i j _ _; symmetry; apply grid_y|intros i j _ _; symmetry; apply plane_grid|]. apply der_wave; [exact Hn|exact Hm|]. intros k l Hk Hl. split.
  - destruct (line_zero n (fst (snd w)) k Hk B1) as [Z|E]; [left; rewrite Z; ring|right; unfold wave; rewrite E; reflexivity].
  - destruct (line_zero n (- fst (snd w)) k Hk) as [Z|E]; [lia|left; rewrite Z; ring|right; unfold wave; rewrite E, opp_IZR; unfold Rdiv; ring].
Qed.
Theorem band_limited ws gx gy w : 0 < w < 1 -> Forall (below_nyquist n m) ws ->
  (forall i j, (i < n)%nat -> (j < m)%nat -> is_derive (fun x => surface n m xs ys ws (INR i * ys) x) (INR j * xs) (gx i j)) ->
  (forall i j, (i < n)%nat -> (j < m)%nat -> is_derive (fun y => surface n m xs ys ws y (INR j * xs)) (INR i * ys) (gy i j)) ->
  exists c, forall i j, (i < n)%nat -> (j < m)%nat -> recon fft2 ifft2 n m gx gy xs ys 0 w i j = surface n m xs ys ws (INR i * ys) (INR j * xs) - c.
Proof.
  intros Hw HB HGx HGy. set (phi := fun i j => surface n m xs ys ws (INR i * ys) (INR j * xs)).
  assert (Ex : forall i j, (i < n)%nat -> (j < m)%nat -> gx i j = rsum (map (fun w => dplane_x w (INR i * ys) (INR j * xs)) ws)).
  { intros i j Hi Hj. rewrite <- (is_derive_unique _ _ _ (HGx i j Hi Hj)). apply is_derive_unique, surface_dx. }
  assert (Ey : forall i j, (i < n)%nat -> (j < m)%nat -> gy i j = rsum (map (fun w => dplane_y w (INR i * ys) (INR j * xs)) ws)).
  { intros i j Hi Hj. rewrite <- (is_derive_unique _ _ _ (HGy i j Hi Hj)). apply is_derive_unique, surface_dy. }
  assert (PD : forall g i j, (i < n)%nat -> (j < m)%nat -> padded n m 0 g i j = (g i j, 0)).
  { intros g i j Hi Hj. unfold padded. cbn [Nat.mul Nat.add]. rewrite !Nat.add_0_r, !Nat.sub_0_r. cbn [Nat.leb andb]. rewrite (proj2 (Nat.ltb_lt _ _) Hi), (proj2 (Nat.ltb_lt _ _) Hj). reflexivity. }
  assert (PF : forall g k l, fft2 n m (padded n m 0 g) k l = fft2 n m (real_arr g) k l). { intros g k l. apply sum2_ext. intros i j Hi Hj. rewrite (PD g i j Hi Hj). reflexivity. }
  pose proof (recon_phase fft2 ifft2 n m gx gy xs ys 0 w phi) as H. cbv zeta in H. replace (n * (2 * 0 + 1))%nat with n in H by lia. replace (m * (2 * 0 + 1))%nat with m in H by lia.
  destruct H as [c Hc].
  - intros a b E i j Hi Hj. unfold ifft2. f_equal. apply sum2_ext. intros k l Hk Hl. rewrite (E k l Hk Hl). reflexivity.
  - intros a b i j Hi Hj. unfold ifft2. match goal with |- _ = cadd ?u ?v => change (cadd u v) with (Cplus u v) end. rewrite <- Cmult_plus_distr_l, <- sum2_add. f_equal. apply sum2_ext. intros k l _ _. change (cadd (a k l) (b k l)) with (Cplus (a k l) (b k l)). ring.
  - intros z. exists (Cmult (RtoC (/ (INR n * INR m))) z). intros i j Hi Hj. unfold ifft2. f_equal.
    rewrite dc_sum by first [assumption|intros k l [Hk|Hl]; destruct k as [|k], l as [|l]; try lia; cbn [Nat.eqb andb]; change (0, 0) with (RtoC 0); ring].
    cbn [Nat.eqb andb]. change (INR 0) with 0. rewrite !Rmult_0_r. unfold Rdiv. rewrite !Rmult_0_l, Rplus_0_r, turn_0. apply Cmult_1_r.
  - intros i j Hi Hj. exact (ifft2_fft2 n m (real_arr phi) i j Hi Hj).
  - intros k l Hk Hl. rewrite PF. exact (der_ext n m _ _ _ gx phi (fun i j Hi Hj => eq_sym (Ex i j Hi Hj)) (fun i j _ _ => eq_refl) (der_x ws HB) k l Hk Hl).
  - intros k l Hk Hl. rewrite PF. exact (der_ext n m _ _ _ gy phi (fun i j Hi Hj => eq_sym (Ey i j Hi Hj)) (fun i j _ _ => eq_refl) (der_y ws HB) k l Hk Hl).
  - exact Hx.
  - exact Hy.
  - exact Hw.
  - exists c. intros i j Hi Hj. rewrite (Hc i j Hi Hj). cbn [Nat.mul]. rewrite !Nat.add_0_r. reflexivity.
Qed.
End Surface.
