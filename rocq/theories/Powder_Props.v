From Coq Require Import Permutation Sorted.
From Verif Require Import Common QSpace_Model Powder_Model Powder_Proofs.
From Coq Require Import Reals Lra.
Local Open Scope R_scope.

(** a standard holds its reflections, whole, sorted by q; reflections of equal q keep their order *)
Theorem C60_sorted l s : powder_standard l = Some s -> exists rs, Forall2 good_triple l rs /\ Permutation s rs /\ StronglySorted by_q s /\ forall v, at_q v s = at_q v rs.
Proof. exact (standard_ok l s). Qed.
Print Assumptions C60_sorted.
Example C60_sorted_ex : powder_standard [(1, [qz 1; qz 2; qz 3], 5); (2, [qz 4; qz 5; qz 6], 3)] = Some [{| d_ := 2; hkl_ := (4, 5, 6)%Z; q_ := 3 |}; {| d_ := 1; hkl_ := (1, 2, 3)%Z; q_ := 5 |}].
Proof. unfold powder_standard, sort_q. cbn. destruct (Rle_dec 5 3) as [H|_]; [lra|reflexivity]. Qed.
Theorem C60_wrong_index l : powder_standard l = None <-> exists d h q, In (d, h, q) l /\ length h <> 3%nat.
Proof. exact (standard_fails l). Qed.
Print Assumptions C60_wrong_index.
Example C60_wrong_index_ex : powder_standard [(1, [qz 1; qz 2], 5)] = None.
Proof. reflexivity. Qed.
(** Miller indices are cut to their whole part towards 0, so integral ones are kept *)
Theorem C60_cut x : let n := py_int x in ((0 <= x -> qz n <= x /\ x < qz n + 1) /\ (x <= 0 -> x <= qz n /\ qz n - 1 < x))%Qc.
Proof. exact (py_int_trunc x). Qed.
Print Assumptions C60_cut.
Theorem C60_indices z : py_int (qz z) = z.
Proof. exact (py_int_Z z). Qed.
Print Assumptions C60_indices.
(** built from angles: q, d and the indices of every angle *)
Theorem C60_from_angles wl tt h s : from_lambda_2theta_hkl wl tt h = Some s ->
  exists rs, length rs = used (length tt) h /\
  (forall i, (i < length rs)%nat -> exists r t a b c, nth_error rs i = Some r /\ nth_error tt i = Some t /\ labelled h i = Some [a; b; c] /\ q_ r = twotheta_to_q t wl /\ d_ r = q_to_d (q_ r) /\ hkl_ r = (py_int a, py_int b, py_int c)) /\
  Permutation s rs /\ StronglySorted by_q s /\ forall v, at_q v s = at_q v rs.
Proof. exact (from_angles wl tt h s). Qed.
Print Assumptions C60_from_angles.
(** at the wavelength of construction the sorted angles come back *)
Theorem C60_angles_back wl tt h s : 0 < wl -> Forall (fun t => 0 <= t <= PI) tt -> used (length tt) h = length tt -> from_lambda_2theta_hkl wl tt h = Some s ->
  Permutation (convert_2theta s wl) tt /\ StronglySorted Rle (convert_2theta s wl).
Proof. exact (angles_back wl tt h s). Qed.
Print Assumptions C60_angles_back.
Example C60_angles_back_ex : exists s, from_lambda_2theta_hkl 2 [PI; PI / 3] None = Some s /\ Permutation (convert_2theta s 2) [PI; PI / 3] /\ StronglySorted Rle (convert_2theta s 2).
Proof.
  destruct (from_lambda_2theta_hkl 2 [PI; PI / 3] None) as [s|] eqn:E; [|discriminate]. exists s. split; [reflexivity|]. pose proof PI_RGT_0. apply (C60_angles_back 2 [PI; PI / 3] None s); [lra|repeat constructor; lra|reflexivity|exact E].
Qed.
(** at any other wavelength that can reach the reflection the angle satisfies Bragg's law *)
Theorem C60_other_wavelength wl tt h s wl' : 0 < wl -> 0 < wl' -> Forall (fun t => 0 < t <= PI) tt -> from_lambda_2theta_hkl wl tt h = Some s ->
  forall r, In r s -> q_ r <= 4 * PI / wl' -> wl' = 2 * d_ r * sin (q_to_twotheta (q_ r) wl' / 2).
Proof. exact (other_wavelength wl tt h s wl'). Qed.
Print Assumptions C60_other_wavelength.
Example C60_other_wavelength_ex : exists s r, from_lambda_2theta_hkl 2 [PI] None = Some s /\ In r s /\ 1 = 2 * d_ r * sin (q_to_twotheta (q_ r) 1 / 2).
Proof.
  pose proof PI_RGT_0. destruct (from_lambda_2theta_hkl 2 [PI] None) as [s|] eqn:E; [|discriminate]. exists s.
  assert (I : In {| d_ := q_to_d (twotheta_to_q PI 2); hkl_ := (0, 0, 0)%Z; q_ := twotheta_to_q PI 2 |} s) by (injection E as <-; left; reflexivity).
  eexists. split; [reflexivity|]. split; [exact I|]. apply (C60_other_wavelength 2 [PI] None s 1); [lra|lra|repeat constructor; lra|exact E|exact I|].
  cbn [q_]. unfold twotheta_to_q. rewrite sin_PI2. lra.
Qed.
(** built from plane spacings *)
Theorem C60_from_d d h s : Forall (fun x => 0 < x) d -> from_d d h = Some s ->
  Permutation (map d_ s) (firstn (used (length d) h) d) /\ StronglySorted (fun a b => b <= a) (map d_ s) /\ Forall (fun r => q_ r * d_ r = 2 * PI) s.
Proof. exact (from_d_ok d h s). Qed.
Print Assumptions C60_from_d.
Example C60_from_d_ex : exists s, from_d [1; 3; 2] None = Some s /\ Permutation (map d_ s) [1; 3; 2].
Proof. destruct (from_d [1; 3; 2] None) as [s|] eqn:E; [|discriminate]. exists s. split; [reflexivity|]. apply (C60_from_d [1; 3; 2] None s); [repeat constructor; lra|exact E]. Qed.
(** fewer labels than angles: the rest of the angles is dropped without a word *)
Theorem C60_all_kept_refuted : exists s, from_lambda_2theta_hkl 1 [1; 2; 3] (Some [[qz 1; qz 1; qz 1]]) = Some s /\ length s = 1%nat.
Proof. eexists. split; reflexivity. Qed.
Print Assumptions C60_all_kept_refuted.
