(* C72 with the discrete Fourier transform itself; C104: random phase start and the modulus step as a nearest point. *)
From Coq Require Import Reals List Lia.
From Coquelicot Require Import Coquelicot.
From Verif Require Import Common Cdi_RealModel Cdi_RealProofs Fourier CdiFft_Model.
From Coq Require Import Lra.
Import ListNotations.
Local Open Scope R_scope.

(** scaled Fourier moduli of an object *)
Definition moduli (dims : list nat) (x : list Complex.C) : list R := map (fun z => cabs z / sqrt (INR (length x))) (fftn dims x).
(** squared distance of two objects *)
Definition dist2 (a b : list Complex.C) : R := rsum (map (fun p => (fst (fst p) - fst (snd p)) ^ 2 + (snd (fst p) - snd (snd p)) ^ 2) (combine a b)).

Lemma cabs_mul c z : cabs (cmul c z) = Rabs c * cabs z.
Proof.
  unfold cabs, cmul. cbn [fst snd]. rewrite <- (sqrt_Rsqr_abs c), <- sqrt_mult by (try apply Rle_0_sqr; destruct z; cbn; nra). f_equal. unfold Rsqr. ring.
Qed.
Lemma fft_len dims x : length (fftn dims x) = length (indices dims). Proof. apply dft_length. Qed.
Lemma ifft_len dims x : length (ifftn dims x) = length (indices dims). Proof. unfold ifftn. rewrite map_length. apply dft_length. Qed.
Lemma fft_scal dims c x : fftn dims (map (cmul c) x) = map (cmul c) (fftn dims x). Proof. apply dft_scal. Qed.

(** C104: whatever phases are drawn, the start object has exactly the measured moduli. *)
Theorem C104_random_phase dims d phases : length d = length (indices dims) -> length phases = length d -> d <> [] ->
  moduli dims (random_phase_field dims d phases) = map Rabs d.
Proof.
  intros HD HP HN. unfold moduli, random_phase_field. rewrite fft_scal, fft_ifft by (rewrite map_length, combine_length; lia). rewrite !map_length, ifft_len, <- HD.
  assert (HQ : 0 < sqrt (INR (length d))) by (apply sqrt_lt_R0, lt_0_INR; destruct d; [contradiction|cbn; lia]). set (q := sqrt (INR (length d))) in *. clearbody q. clear HD HN.
  rewrite !map_map. revert phases HP. induction d as [|a d IH]; intros [|p ph] HP; try discriminate; [reflexivity|]. cbn [combine map fst snd]. rewrite IH by (cbn in HP; lia). f_equal.
  rewrite !cabs_mul. unfold cabs. cbn [fst snd]. pose proof (sin2_cos2 p) as H. unfold Rsqr in H. replace (cos p * cos p + sin p * sin p) with 1 by lra. rewrite sqrt_1, (Rabs_pos_eq q) by lra. field. lra.
Qed.
Print Assumptions C104_random_phase.
(** C104: so cal_diff_error of the start object is 0 if no measured modulus is negative, and positive otherwise. *)
Theorem C104_start_error dims d phases : length d = length (indices dims) -> length phases = length d -> ~ Forall (fun v => v = 0) d ->
  0 <= q_error dims (random_phase_field dims d phases) d /\
  (q_error dims (random_phase_field dims d phases) d = 0 <-> Forall (fun v => 0 <= v) d).
Proof.
  intros HD HP HZ. assert (HN : d <> []) by (intros ->; apply HZ; constructor). unfold q_error.
  destruct (diff_error_zero (fftn dims) (random_phase_field dims d phases) d) as [A B]; [rewrite fft_len; lia|exact HZ|]. split; [exact A|]. rewrite B.
  change (moduli dims (random_phase_field dims d phases) = d <-> Forall (fun v => 0 <= v) d). rewrite (C104_random_phase dims d phases HD HP HN). clear. induction d as [|a d IH]; cbn [map]; [split; [constructor|reflexivity]|]. split; intros H.
  - injection H as Ha H. constructor; [rewrite <- Ha; apply Rabs_pos|apply IH; exact H].
  - inversion H as [|? ? Ha Hd]; subst. f_equal; [apply Rabs_pos_eq; exact Ha|apply IH; exact Hd].
Qed.
Print Assumptions C104_start_error.
Example C104_ex1 : length [2; 0; 1; 3; 5; 0] = length (indices [2; 3]%nat) /\ length [1; 0; 2; 0; 0; 4] = 6%nat /\ ~ Forall (fun v => v = 0) [2; 0; 1; 3; 5; 0] /\ Forall (fun v => 0 <= v) [2; 0; 1; 3; 5; 0].
Proof.
  split; [reflexivity|]. split; [reflexivity|]. split; [intros H; inversion H; lra|]. apply Forall_forall. intros v Hv. cbn in Hv. intuition lra.
Qed.

(** ** C72 for numpy's transforms *)
Definition whole_fft (dims : list nat) (x : list Complex.C) := if Nat.eqb (length x) (length (indices dims)) then fftn dims x else x.
Definition whole_ifft (dims : list nat) (x : list Complex.C) := if Nat.eqb (length x) (length (indices dims)) then ifftn dims x else x.
Lemma whole_len dims x : length (whole_fft dims x) = length x.
Proof. unfold whole_fft. destruct (Nat.eqb_spec (length x) (length (indices dims))) as [E|]; [rewrite fft_len; lia|reflexivity]. Qed.
Lemma whole_ilen dims x : length (whole_ifft dims x) = length x.
Proof. unfold whole_ifft. destruct (Nat.eqb_spec (length x) (length (indices dims))) as [E|]; [rewrite ifft_len; lia|reflexivity]. Qed.
Lemma whole_inv dims x : whole_fft dims (whole_ifft dims x) = x.
Proof.
  unfold whole_ifft. destruct (Nat.eqb_spec (length x) (length (indices dims))) as [E|E].
  - unfold whole_fft. rewrite ifft_len, Nat.eqb_refl. apply fft_ifft. exact E.
  - unfold whole_fft. rewrite (proj2 (Nat.eqb_neq _ _) E). reflexivity.
Qed.
Lemma whole_hom dims c x : whole_fft dims (map (cmul c) x) = map (cmul c) (whole_fft dims x).
Proof. unfold whole_fft. rewrite map_length. destruct (Nat.eqb _ _); [apply fft_scal|reflexivity]. Qed.
Lemma step_whole dims offset (x : list Complex.C) d : length x = length (indices dims) -> length d = length x -> modulus_step dims offset x d = pi_modulus (whole_fft dims) (whole_ifft dims) offset x d.
Proof.
  intros HX HD. unfold modulus_step, pi_modulus. f_equal. assert (E : whole_fft dims x = fftn dims x) by (unfold whole_fft; rewrite HX, Nat.eqb_refl; reflexivity). rewrite E.
  unfold whole_ifft. rewrite (proj2 (Nat.eqb_eq _ _)); [reflexivity|]. rewrite map_length, combine_length, map_length, fft_len. lia.
Qed.
(** C72: pi_modulus with numpy's n-dimensional transforms, any shape: the hypotheses of C72_modulus_constraint discharged. *)
Theorem C72_modulus_fft dims offset (x : list Complex.C) d : length x = length (indices dims) -> length d = length x -> x <> [] -> 0 < offset ->
  let spectrum l := map (cmul (/ sqrt (INR (length x)))) (fftn dims l) in
  length (modulus_step dims offset x d) = length x /\
  forall i di y, nth_error d i = Some di -> nth_error (spectrum x) i = Some y ->
    exists y', nth_error (spectrum (modulus_step dims offset x d)) i = Some y' /\
      (di <= 0 -> y' = y) /\
      (0 < di -> cabs y' = di * cabs y / (cabs y + offset) /\ cabs y' < di /\ exists c, 0 < c /\ y' = cmul c y).
Proof.
  intros HX HD HN HO spectrum. pose proof (pi_modulus_ok (whole_fft dims) (whole_ifft dims) offset x d (whole_len dims) (whole_ilen dims) (whole_inv dims) (whole_hom dims) HD HN HO) as [A B].
  rewrite <- step_whole in * by assumption. split; [exact A|]. intros i di y Hd Hy.
  assert (E : forall l : list Complex.C, length l = length x -> Cdi_RealProofs.spectrum (whole_fft dims) x l = spectrum l).
  { intros l Hl. unfold Cdi_RealProofs.spectrum, spectrum. f_equal. unfold whole_fft. rewrite (proj2 (Nat.eqb_eq _ _)); [reflexivity|]. rewrite <- HX. exact Hl. }
  rewrite <- (E x eq_refl) in Hy. destruct (B i di y Hd Hy) as [y' [Y1 Y2]]. exists y'. split; [|exact Y2]. rewrite (E _ A) in Y1. exact Y1.
Qed.
Print Assumptions C72_modulus_fft.

(** ** C104: the modulus step moves an object to the nearest one with its new moduli *)
Lemma dist2_energy a : forall b, dist2 a b = energy (csub a b).
Proof.
  unfold dist2, energy, csub. induction a as [|[u v] a IH]; intros [|[u' v'] b]; cbn [combine map rsum]; try reflexivity. rewrite IH. f_equal. unfold cabs, Cminus, Cplus, Copp. cbn [fst snd].
  match goal with |- _ = sqrt ?a ^ 2 => replace (sqrt a ^ 2) with (sqrt a * sqrt a) by ring; rewrite sqrt_sqrt by (apply Rplus_le_le_0_compat; apply Rle_0_sqr) end. ring.
Qed.
Lemma dist2_fft dims a b : length a = length (indices dims) -> length b = length (indices dims) -> dist2 (fftn dims a) (fftn dims b) = INR (length (indices dims)) * dist2 a b.
Proof.
  intros Ha Hb. rewrite !dist2_energy. unfold fftn at 1 2. rewrite <- dft_sub by assumption. apply (parseval dims). unfold csub. rewrite map_length, combine_length. lia.
Qed.
Lemma near_point (y p z : Complex.C) c : 0 <= c -> p = cmul c y -> cabs z = cabs p ->
  (fst y - fst p) ^ 2 + (snd y - snd p) ^ 2 <= (fst y - fst z) ^ 2 + (snd y - snd z) ^ 2.
Proof.
  intros Hc -> Hz. destruct y as [y1 y2], z as [z1 z2]. rewrite cabs_mul, (Rabs_pos_eq c Hc) in Hz. unfold cabs in Hz. cbn [cmul fst snd] in *.
  set (m := y1 * y1 + y2 * y2) in *. assert (Hm : 0 <= m) by (unfold m; nra). assert (Hs := sqrt_pos m). assert (Hq : sqrt m * sqrt m = m) by (apply sqrt_sqrt; exact Hm).
  assert (Hz2 : z1 * z1 + z2 * z2 = c * c * m). { rewrite <- (sqrt_sqrt (z1 * z1 + z2 * z2)) by nra. rewrite Hz. rewrite <- Hq at 3. ring. }
  assert (CS : y1 * z1 + y2 * z2 <= c * m).
  { assert (Q : (y1 * z1 + y2 * z2) * (y1 * z1 + y2 * z2) <= (c * m) * (c * m)).
    { assert (L : 0 <= (y1 * z2 - y2 * z1) * (y1 * z2 - y2 * z1)) by (fold (Rsqr (y1 * z2 - y2 * z1)); apply Rle_0_sqr).
      replace ((c * m) * (c * m)) with (m * (c * c * m)) by ring. rewrite <- Hz2. unfold m. nra. }
    destruct (Rle_or_lt (y1 * z1 + y2 * z2) (c * m)) as [L|L]; [exact L|]. assert (0 <= c * m) by (apply Rmult_le_pos; assumption). nra. }
  assert (E1 : (y1 - c * y1) ^ 2 + (y2 - c * y2) ^ 2 = m - 2 * (c * m) + c * c * m) by (unfold m; ring).
  assert (E2 : (y1 - z1) ^ 2 + (y2 - z2) ^ 2 = m - 2 * (y1 * z1 + y2 * z2) + (z1 * z1 + z2 * z2)) by (unfold m; ring). rewrite E1, E2, Hz2. lra.
Qed.
Theorem C104_nearest dims offset (x : list Complex.C) d (z : list Complex.C) : length x = length (indices dims) -> length d = length x -> x <> [] -> 0 < offset ->
  length z = length x -> moduli dims z = moduli dims (modulus_step dims offset x d) ->
  dist2 x (modulus_step dims offset x d) <= dist2 x z.
Proof.
  intros HX HD HN HO HZ HM. destruct (C72_modulus_fft dims offset x d HX HD HN HO) as [HL HB]. change (R * R)%type with Complex.C in *. set (p := modulus_step dims offset x d : list Complex.C) in *.
  assert (HP : 0 < INR (length (indices dims))) by (rewrite <- HX; apply lt_0_INR; destruct x; [contradiction|cbn; lia]).
  apply Rmult_le_reg_l with (INR (length (indices dims))); [exact HP|]. assert (HL2 : @length Complex.C p = length (indices dims)) by (rewrite <- HX; exact HL). rewrite <- (dist2_fft dims x p HX HL2), <- (dist2_fft dims x z HX) by lia.
  set (q := / sqrt (INR (length x))) in *. assert (HQ : 0 < q) by (apply Rinv_0_lt_compat, sqrt_lt_R0; rewrite HX; exact HP).
  assert (Y : forall i y, nth_error (fftn dims x) i = Some y -> exists c p1 z1, 0 <= c /\ p1 = cmul c y /\ cabs z1 = cabs p1 /\ nth_error (fftn dims p) i = Some p1 /\ nth_error (fftn dims z) i = Some z1).
  { intros i y Hy. assert (Hi : (i < length (indices dims))%nat) by (rewrite <- (fft_len dims x); apply nth_error_Some; congruence).
    destruct (nth_error d i) as [di|] eqn:Ed; [|apply nth_error_None in Ed; lia].
    destruct (HB i di (cmul q y) Ed) as [y' [Y1 [Y2 Y3]]]; [rewrite nth_error_map, Hy; reflexivity|].
    rewrite nth_error_map in Y1. destruct (nth_error (fftn dims p) i) as [p1|] eqn:Ep; [|discriminate]. cbn [option_map] in Y1. injection Y1 as Y1.
    destruct (nth_error (fftn dims z) i) as [z1|] eqn:Ez; [|apply nth_error_None in Ez; rewrite fft_len in Ez; lia].
    assert (INJ : forall a b : Complex.C, cmul q a = cmul q b -> a = b).
    { intros [a1 a2] [b1 b2] E. unfold cmul in E. cbn [fst snd] in E. injection E as E1 E2. f_equal; apply Rmult_eq_reg_l with q; lra. }
    assert (CZ : cabs z1 = cabs p1).
    { assert (E := f_equal (fun l => nth_error l i) HM). unfold moduli in E. change (R * R)%type with Complex.C in *. rewrite !nth_error_map, Ez, Ep in E. cbn [option_map] in E. injection E as E. rewrite HZ, HL in E. unfold Rdiv in E. apply Rmult_eq_reg_r with q; [exact E|lra]. }
    destruct (Rle_or_lt di 0) as [N|P].
    - exists 1, p1, z1. split; [lra|]. split; [|tauto]. apply INJ. rewrite Y1, (Y2 N). unfold cmul. cbn [fst snd]. f_equal; ring.
    - destruct (Y3 P) as [_ [_ [c [Hc E]]]]. exists c, p1, z1. split; [lra|]. split; [|tauto]. apply INJ. rewrite Y1, E. unfold cmul. cbn [fst snd]. f_equal; ring. }
  unfold dist2. assert (L1 : length (fftn dims p) = length (fftn dims x)) by (rewrite !fft_len; reflexivity). assert (L2 : length (fftn dims z) = length (fftn dims x)) by (rewrite !fft_len; reflexivity).
  revert Y L1 L2. generalize (fftn dims x), (fftn dims p), (fftn dims z). clear. induction l as [|y l IH]; intros [|p1 lp] [|z1 lz] Y L1 L2; try discriminate; [apply Rle_refl|]. cbn [combine map rsum]. apply Rplus_le_compat.
  - destruct (Y 0%nat y eq_refl) as [c [p2 [z2 [Hc [Ep [Ez [E1 E2]]]]]]]. cbn in E1, E2. injection E1 as <-. injection E2 as <-. cbn [fst snd]. exact (near_point y p1 z1 c Hc Ep Ez).
  - apply IH; [|cbn in L1; lia|cbn in L2; lia]. intros i w Hw. exact (Y (S i) w Hw).
Qed.
Print Assumptions C104_nearest.
(** a 2 x 3 object; its own negative has the same moduli *)
Example C104_ex2 : let x := [(1, 0); (2, 0); (0, 1); (3, 0); (0, 0); (1, 1)] : list Complex.C in
  length x = length (indices [2; 3]%nat) /\ length [4; 1; 2; 0; 5; 1] = length x /\ x <> [] /\ moduli [2; 3]%nat (map (cmul (-1)) x) = moduli [2; 3]%nat x.
Proof.
  intros x. split; [reflexivity|]. split; [reflexivity|]. split; [discriminate|]. unfold moduli. rewrite fft_scal, !map_map, map_length. apply map_ext. intros z. rewrite cabs_mul. replace (Rabs (-1)) with 1 by (rewrite Rabs_left; lra). rewrite Rmult_1_l. reflexivity.
Qed.
