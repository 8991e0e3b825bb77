(* C74 with numpy's transforms themselves. *)
From Coq Require Import Reals List Lia.
From Coquelicot Require Import Coquelicot.
From Verif Require Import Common Cdi_RealModel Fourier Dpc_Model Dpc_Spec Dpc_Recon DpcFft.
From Coq Require Import Lra.
Import ListNotations.
Local Open Scope R_scope.

(** C74: a phase made of any number of plane waves below the Nyquist frequency of the scan comes back, up to a constant, from the values
    of its two partial derivatives at the scan points, for every weighting strictly between 0 and 1. *)
Theorem C74_band_limited n m xs ys ws gx gy w : (0 < n)%nat -> (0 < m)%nat -> xs <> 0 -> ys <> 0 -> 0 < w < 1 ->
  Forall (fun wave : (R * R) * (Z * Z) => (2 * Z.abs (fst (snd wave)) < Z.of_nat n)%Z /\ (2 * Z.abs (snd (snd wave)) < Z.of_nat m)%Z) ws ->
  (forall i j, (i < n)%nat -> (j < m)%nat -> is_derive (fun x => surface n m xs ys ws (INR i * ys) x) (INR j * xs) (gx i j)) ->
  (forall i j, (i < n)%nat -> (j < m)%nat -> is_derive (fun y => surface n m xs ys ws y (INR j * xs)) (INR i * ys) (gy i j)) ->
  exists c, forall i j, (i < n)%nat -> (j < m)%nat -> recon fft2 ifft2 n m gx gy xs ys 0 w i j = surface n m xs ys ws (INR i * ys) (INR j * xs) - c.
Proof. intros Hn Hm Hx Hy Hw HB. exact (band_limited n m xs ys Hn Hm Hx Hy ws gx gy w Hw HB). Qed.
Print Assumptions C74_band_limited.
(** 3 x 5 points, steps 1 and 2, two waves *)
Example C74_ex2 : Forall (fun wave : (R * R) * (Z * Z) => (2 * Z.abs (fst (snd wave)) < 3)%Z /\ (2 * Z.abs (snd (snd wave)) < 5)%Z) [((2, 0), (1, -2)%Z); ((1, 1), (0, 1)%Z)] /\
  surface 3 5 2 1 [((2, 0), (1, -2)%Z)] (INR 0 * 1) (INR 0 * 2) = 2 /\
  is_derive (fun x => surface 3 5 2 1 [((2, 0), (1, -2)%Z)] (INR 0 * 1) x) (INR 0 * 2) 0.
Proof.
  split; [repeat constructor|]. split.
  - unfold surface, plane. cbn [map rsum fst snd INR]. replace (2 * PI * (1 * (0 * 1) / ((1 + 1 + 1) * 1) + -2 * (0 * 2) / ((1 + 1 + 1 + 1 + 1) * 2)) + 0) with 0 by field. rewrite cos_0. ring.
  - eapply eq_rect; [exact (surface_dx 3 5 2 1 _ (INR 0 * 1) (INR 0 * 2))|]. cbn [map rsum]. unfold dplane_x. cbn [fst snd]. rewrite <- Rplus_assoc, cos_q. cbn [INR].
    replace (2 * PI * (1 * (0 * 1) / ((1 + 1 + 1) * 1) + -2 * (0 * 2) / ((1 + 1 + 1 + 1 + 1) * 2)) + 0) with 0 by field. rewrite sin_0. match goal with |- ?a = ?b => change (@eq R a b) end. ring.
Qed.
(** C74: the bound is sharp: a wave exactly at the Nyquist frequency of the columns has derivatives 0 at every scan point and is lost. *)
Theorem C74_nyquist_refuted n h xs ys A w : (0 < n)%nat -> (0 < h)%nat -> xs <> 0 -> ys <> 0 -> A <> 0 ->
  let m := (2 * h)%nat in let ws := [((A, 0), (0, Z.of_nat h)%Z)] in
  (forall i j, (i < n)%nat -> (j < m)%nat -> is_derive (fun x => surface n m xs ys ws (INR i * ys) x) (INR j * xs) 0) /\
  (forall i j, (i < n)%nat -> (j < m)%nat -> is_derive (fun y => surface n m xs ys ws y (INR j * xs)) (INR i * ys) 0) /\
  ~ exists c, forall i j, (i < n)%nat -> (j < m)%nat -> recon fft2 ifft2 n m (fun _ _ => 0) (fun _ _ => 0) xs ys 0 w i j = surface n m xs ys ws (INR i * ys) (INR j * xs) - c.
Proof.
  intros Hn Hh Hx Hy HA m ws. assert (Hm : (0 < m)%nat) by (unfold m; lia). assert (Ph : 0 < INR h) by (apply lt_0_INR; exact Hh).
  assert (G : forall i j, plane n m xs ys ((A, 0), (0, Z.of_nat h)%Z) (INR i * ys) (INR j * xs) = A * cos (INR j * PI)).
  { intros i j. rewrite (plane_grid n m xs ys Hn Hm Hx Hy). cbn [fst snd]. do 2 f_equal. rewrite <- INR_IZR_INZ. unfold m. rewrite mult_INR. cbn [INR]. assert (0 < INR n) by (apply lt_0_INR; exact Hn). field. lra. }
  assert (SZ : forall j, sin (INR j * PI) = 0) by (induction j as [|j IH]; [cbn [INR]; rewrite Rmult_0_l; apply sin_0|]; rewrite S_INR, Rmult_plus_distr_r, Rmult_1_l, neg_sin, IH; ring).
  split; [|split].
  - intros i j Hi Hj. eapply eq_rect; [exact (surface_dx n m xs ys ws (INR i * ys) (INR j * xs))|]. cbn [map rsum ws]. rewrite (grid_x n m xs ys Hn Hm Hx Hy). cbn [fst snd]. rewrite <- Rplus_assoc, cos_q.
    replace (2 * PI * (0 * INR i / INR n + IZR (Z.of_nat h) * INR j / INR m) + 0) with (INR j * PI).
    + rewrite SZ. match goal with |- ?a = ?b => change (@eq R a b) end. ring.
    + rewrite <- INR_IZR_INZ. unfold m. rewrite mult_INR. cbn [INR]. assert (0 < INR n) by (apply lt_0_INR; exact Hn). field. lra.
  - intros i j Hi Hj. eapply eq_rect; [exact (surface_dy n m xs ys ws (INR j * xs) (INR i * ys))|]. cbn [map rsum ws]. unfold dplane_y. cbn [fst snd]. unfold Rdiv. match goal with |- ?a = ?b => change (@eq R a b) end. ring.
  - intros [c Hc].
    assert (Z : forall i j, (i < n)%nat -> (j < m)%nat -> recon fft2 ifft2 n m (fun _ _ => 0) (fun _ _ => 0) xs ys 0 w i j = 0).
    { intros i j Hi Hj.
      assert (F0 : forall k l, fft2 n m (padded n m 0 (fun _ _ => 0)) k l = RtoC 0).
      { intros k l. unfold fft2, sum2. apply csum_zero. intros a _. apply csum_zero. intros b _. unfold padded, czero. destruct (_ && _)%bool; change (0, 0) with (RtoC 0); ring. }
      unfold recon. cbv zeta. replace (n * (2 * 0 + 1))%nat with n by lia. replace (m * (2 * 0 + 1))%nat with m by lia. unfold ifft2, sum2.
      rewrite csum_zero; [cbn [Cmult RtoC fst snd]; ring|]. intros a _. apply csum_zero. intros b _. unfold ifftshift, fftshift. destruct (Req_EM_T _ _); [change czero with (RtoC 0); ring|]. rewrite !F0.
      replace (cscale _ _) with (RtoC 0); [ring|]. unfold cscale, mjmul, cadd, RtoC. cbn [fst snd]. f_equal; ring. }
    pose proof (Hc 0%nat 0%nat Hn Hm) as H0. pose proof (Hc 0%nat 1%nat Hn ltac:(unfold m; lia)) as H1. rewrite Z in H0, H1 by (unfold m; lia). unfold surface, ws in H0, H1. cbn [map rsum] in H0, H1. rewrite !G in H0, H1.
    change (INR 0) with 0 in H0. change (INR 1) with 1 in H1. rewrite Rmult_0_l, cos_0 in H0. rewrite Rmult_1_l, cos_PI in H1. apply HA. lra.
Qed.
Print Assumptions C74_nyquist_refuted.
Example C74_ex3 : surface 1 2 1 1 [((3, 0), (0, 1)%Z)] (INR 0 * 1) (INR 1 * 1) = -3.
Proof. unfold surface. cbn [map rsum]. rewrite plane_grid by (lia || lra). cbn [fst snd INR]. replace (2 * PI * (0 * 0 / 1 + 1 * 1 / (1 + 1)) + 0) with PI by field. rewrite cos_PI. ring. Qed.
