From Verif Require Import Common QcArith Sums Sgolay_Model Sgolay_Spec Sgolay_Proofs Sgolay_Core Sgolay_Top.

(** the monomials are those of total degree up to the order, each once, (order + 1)(order + 2)/2 of them *)
Theorem C64_terms n : NoDup (exps n) /\ (forall a b, In (a, b) (exps n) <-> a + b <= n) /\ 2 * length (exps n) = (n + 1) * (n + 2).
Proof. split; [apply exps_nodup|]. split; [intros a b; apply (exps_in n (a, b))|apply exps_len]. Qed.
Print Assumptions C64_terms.
Example C64_terms_ex : exps 2 = [(0, 0); (1, 0); (0, 1); (2, 0); (1, 1); (0, 2)].
Proof. reflexivity. Qed.
(** what is refused *)
Theorem C64_refused pinv m window order d : (1 <= rows m)%Z -> (1 <= cols m)%Z -> (0 <= order)%Z -> (window / 2 < rows m)%Z -> (window / 2 < cols m)%Z ->
  ((window mod 2 = 0 \/ window <= 1 \/ 2 * (window * window) < (order + 1) * (order + 2))%Z -> sgolay2d pinv m window order d = ValueError) /\
  ((window mod 2 = 1 /\ 3 <= window /\ (order + 1) * (order + 2) <= 2 * (window * window))%Z -> accepted m window order /\ sgolay2d pinv m window order d <> ValueError).
Proof. exact (refusals pinv m window order d). Qed.
Print Assumptions C64_refused.

(** for the examples: the pseudo-inverse for window 3 and order 2 *)
Definition third : Qc := Q2Qc (1 # 3). Definition half : Qc := Q2Qc (1 # 2).
Definition row3 (f : Qc -> Qc -> Qc) : list Qc := map (fun p => f (qz (fst p)) (qz (snd p))) (combine (dxs 1 3) (dys 1 3)).
Definition P32 : list (list Qc) :=
  [row3 (fun x y => Q2Qc (5 # 9) - (x * x + y * y) * third)%Qc; row3 (fun x _ => x * Q2Qc (1 # 6))%Qc; row3 (fun _ y => y * Q2Qc (1 # 6))%Qc;
   row3 (fun x _ => (x * x - Q2Qc (2 # 3)) * half)%Qc; row3 (fun x y => x * y * Q2Qc (1 # 4))%Qc; row3 (fun _ y => (y * y - Q2Qc (2 # 3)) * half)%Qc].
Definition P31 : list (list Qc) := [row3 (fun _ _ => Q2Qc (1 # 9))%Qc; row3 (fun x _ => x * Q2Qc (1 # 6))%Qc; row3 (fun _ y => y * Q2Qc (1 # 6))%Qc].
Definition check (r c : nat) (A P : list (list Qc)) : bool :=
  ((length P =? c) && forallb (fun l => length l =? r) P &&
  forallb (fun i => forallb (fun j => Qc_eqb (sumn c (fun k => (ent A i k * sumn r (fun l => (ent P k l * ent A l j)%Qc))%Qc)) (ent A i j)) (seq 0 c)) (seq 0 r))%bool.
Lemma check_ok r c A P : check r c A P = true -> ginv r c A P.
Proof.
  unfold check. rewrite !andb_true_iff, !forallb_forall, Nat.eqb_eq. intros ((L & F) & G). split; [split; [exact L|]|].
  - apply Forall_forall. intros l I. apply Nat.eqb_eq. now apply F.
  - intros i j Hi Hj. specialize (G i ltac:(apply in_seq; lia)). rewrite forallb_forall in G. specialize (G j ltac:(apply in_seq; lia)). now destruct (Qc_eqb_spec (sumn c (fun k => (ent A i k * sumn r (fun l => (ent P k l * ent A l j)%Qc))%Qc)) (ent A i j)).
Qed.
Lemma P32_ok : pinv_ok (fun _ => P32) 2 3.
Proof. apply check_ok. vm_compute. reflexivity. Qed.
Lemma P31_ok : pinv_ok (fun _ => P31) 1 3.
Proof. apply check_ok. vm_compute. reflexivity. Qed.
Definition quad : list term := [(qz 7, (0, 0)); (qz 2, (2, 0)); (qz (-3), (1, 1))].
Definition quad_img : image := {| rows := 5; cols := 4; px := ev quad |}.
Lemma quad_accepted : accepted quad_img 3 2.
Proof. unfold accepted. cbn. lia. Qed.

(** whatever generalised inverse pinv returns, at a pixel whose window lies in the image and shows a polynomial of total degree up to the order, that polynomial's value comes back *)
Theorem C64_reproduces pinv m window order : accepted m window order -> pinv_ok pinv order window ->
  exists o, sgolay2d pinv m window order DNone = Val [o] /\ rows o = rows m /\ cols o = cols m /\
    forall T i j, total_degree (Z.to_nat order) T -> shows m (window / 2) i j T -> px o i j = ev T i j.
Proof. exact (smooth_top pinv m window order). Qed.
Print Assumptions C64_reproduces.
Example C64_reproduces_ex : exists o, sgolay2d (fun _ => P32) quad_img 3 2 DNone = Val [o] /\ px o 2 1 = qz 9 /\ shows quad_img (3 / 2) 2 1 quad.
Proof.
  destruct (C64_reproduces _ _ _ _ quad_accepted P32_ok) as (o & E & _ & _ & H). exists o. split; [exact E|]. assert (S : shows quad_img (3 / 2) 2 1 quad) by (split; [cbn; lia|]; split; [cbn; lia|]; intros; reflexivity).
  split; [|exact S]. rewrite (H quad 2 1 ltac:(repeat constructor))%Z by exact S. apply Qc_is_canon. reflexivity.
Qed.
(** with an order below the window size the derivatives are exact too: "col" along the first axis, "row" along the second, "both" the pair (row, col) *)
Theorem C64_derivatives pinv m window order : accepted m window order -> pinv_ok pinv order window -> (1 <= order < window)%Z ->
  exists ox oy, sgolay2d pinv m window order DCol = Val [ox] /\ sgolay2d pinv m window order DRow = Val [oy] /\ sgolay2d pinv m window order DBoth = Val [oy; ox] /\
    rows ox = rows m /\ cols ox = cols m /\ rows oy = rows m /\ cols oy = cols m /\
    forall T i j, total_degree (Z.to_nat order) T -> shows m (window / 2) i j T -> px ox i j = ev_x T i j /\ px oy i j = ev_y T i j.
Proof. exact (deriv_top pinv m window order). Qed.
Print Assumptions C64_derivatives.
Example C64_derivatives_ex : exists ox oy, sgolay2d (fun _ => P32) quad_img 3 2 DBoth = Val [oy; ox] /\ px ox 2 1 = qz 5 /\ px oy 2 1 = qz (-6).
Proof.
  destruct (C64_derivatives _ _ _ _ quad_accepted P32_ok ltac:(lia)) as (ox & oy & _ & _ & E & _ & _ & _ & _ & H). exists ox, oy. split; [exact E|].
  assert (S : shows quad_img (3 / 2) 2 1 quad) by (split; [cbn; lia|]; split; [cbn; lia|]; intros; reflexivity).
  destruct (H quad 2 1 ltac:(repeat constructor) S)%Z as [-> ->]. split; apply Qc_is_canon; reflexivity.
Qed.
(** with a higher order, accepted when the window has enough pixels, they are not, whatever pinv returns *)
Theorem C64_derivative_high_order_refuted pinv : (forall A, 2 <= length (pinv A)) ->
  exists m T o, accepted m 5 5 /\ total_degree 5 T /\ shows m 2 2 2 T /\ sgolay2d pinv m 5 5 DCol = Val [o] /\ px o 2 2 = 0%Qc /\ ev_x T 2 2 = qz 4.
Proof.
  intros L. set (T := [(qz 1, (5, 0)); (qz (-10), (4, 0)); (qz 35, (3, 0)); (qz (-50), (2, 0)); (qz 24, (1, 0))] : list term).
  assert (Z0 : forall x y, (0 <= x <= 4)%Z -> ev T x y = 0%Qc).
  { intros x y X. assert (C : (x = 0 \/ x = 1 \/ x = 2 \/ x = 3 \/ x = 4)%Z) by lia. unfold ev. cbn [map qsum fst snd T Qcpower].
    destruct C as [->|[->|[->|[->| ->]]]]; match goal with |- context [qz y] => generalize (qz y) | _ => idtac end; intros; rewrite ?Qcmult_1_r; apply Qc_is_canon; reflexivity. }
  exists {| rows := 5; cols := 5; px := ev T |}, T. assert (Ac : accepted {| rows := 5; cols := 5; px := ev T |} 5 5) by (unfold accepted; cbn; lia).
  destruct (sgolay_open pinv _ 5 5 DCol Ac) as (h & n & Ew & En & _ & _ & _ & _ & E). assert (h = 2) as -> by lia. assert (n = 5) as -> by lia. cbv beta iota zeta in E.
  destruct (nth_error (pinv (design 5 2 (2 * 2 + 1))) 1) as [r|] eqn:Er; [|apply nth_error_None in Er; specialize (L (design 5 2 (2 * 2 + 1))); lia].
  eexists. split; [exact Ac|]. split; [repeat constructor|]. split; [split; [cbn; lia|]; split; [cbn; lia|]; intros; reflexivity|]. split; [exact E|]. split; [|apply Qc_is_canon; reflexivity].
  cbn [px]. apply sumn_zero. intros a Ha. apply sumn_zero. intros b Hb. unfold get.
  replace (2 + Z.of_nat (2 * 2 + 1 - 1 - a))%Z with (Z.of_nat (4 - a) + Z.of_nat 2)%Z by lia. replace (2 + Z.of_nat (2 * 2 + 1 - 1 - b))%Z with (Z.of_nat (4 - b) + Z.of_nat 2)%Z by lia.
  rewrite pad_inner by (cbn [rows cols]; lia). cbn [px]. rewrite Z0 by lia. ring.
Qed.
Print Assumptions C64_derivative_high_order_refuted.
(** an affine image that does not decrease along either axis comes back unchanged, borders included *)
Theorem C64_ramp pinv m window order a b c : accepted m window order -> pinv_ok pinv order window -> (0 <= b)%Qc -> (0 <= c)%Qc -> ((1 <= order)%Z \/ (b = 0 /\ c = 0)%Qc) ->
  (forall i j, (0 <= i < rows m)%Z -> (0 <= j < cols m)%Z -> px m i j = (a + b * qz i + c * qz j)%Qc) ->
  exists o, sgolay2d pinv m window order DNone = Val [o] /\ rows o = rows m /\ cols o = cols m /\
    forall i j, (0 <= i < rows m)%Z -> (0 <= j < cols m)%Z -> px o i j = px m i j.
Proof. exact (ramp_top pinv m window order a b c). Qed.
Print Assumptions C64_ramp.
Example C64_ramp_ex : exists o, sgolay2d (fun _ => P31) {| rows := 3; cols := 3; px := fun i j => (1 + qz 2 * qz i + qz 5 * qz j)%Qc |} 3 1 DNone = Val [o] /\ px o 0 0 = 1%Qc.
Proof.
  destruct (C64_ramp (fun _ => P31) {| rows := 3; cols := 3; px := fun i j => (1 + qz 2 * qz i + qz 5 * qz j)%Qc |} 3 1 1 (qz 2) (qz 5)) as (o & E & _ & _ & H); [unfold accepted; cbn; lia|exact P31_ok|discriminate|discriminate|left; lia|reflexivity|].
  exists o. split; [exact E|]. rewrite H by (cbn; lia). apply Qc_is_canon. reflexivity.
Qed.
(** but one that decreases is changed at the border *)
Theorem C64_ramp_down_refuted : exists m o, accepted m 3 1 /\ pinv_ok (fun _ => P31) 1 3 /\ (forall i j, px m i j = (qz (-1) * qz i)%Qc) /\
  sgolay2d (fun _ => P31) m 3 1 DNone = Val [o] /\ px o 0 0 <> px m 0 0.
Proof.
  exists {| rows := 3; cols := 3; px := fun i j => (qz (-1) * qz i)%Qc |}. eexists. split; [unfold accepted; cbn; lia|]. split; [exact P31_ok|]. split; [reflexivity|]. split; [reflexivity|].
  intros H. apply (f_equal this) in H. vm_compute in H. discriminate.
Qed.
Print Assumptions C64_ramp_down_refuted.
(** order 0 has no derivative *)
Theorem C64_order_zero pinv m window d : accepted m window 0 -> pinv_ok pinv 0 window -> d = DCol \/ d = DRow \/ d = DBoth -> sgolay2d pinv m window 0 d = IndexError.
Proof. exact (order_zero pinv m window d). Qed.
Print Assumptions C64_order_zero.
Example C64_order_zero_ex : pinv_ok (fun _ => [repeat (Q2Qc (1 # 9)) 9]) 0 3.
Proof. apply check_ok. vm_compute. reflexivity. Qed.
