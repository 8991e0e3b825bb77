From Coq Require Import Sorted.
From Verif Require Import Common QcArith Integ_Model Integ_Spec Integ_Proofs.
Local Open Scope Qc_scope.

(** the value: the sum over the regions of the rule applied to the samples of the region *)
Theorem C55_value rule x y x_min x_max vals : (2 <= length x)%nat -> length x = length y -> ascending (combine x y) -> length x_min = length x_max -> good_bounds (combine x y) (combine x_min x_max) ->
  Forall2 (fun bd v => exists u, region (combine x y) (fst bd) (snd bd) u /\ v = applied rule u) (combine x_min x_max) vals ->
  integrate_ROI rule x y x_min x_max = inl (qsum vals).
Proof. exact (integrate_asc rule x y x_min x_max vals). Qed.
Print Assumptions C55_value.
(** the trapezoid rule, as an instance *)
Fixpoint trapz (y x : list Qc) : Qc := match y, x with u :: ((v :: _) as y'), a :: ((b :: _) as x') => (u + v) * (b - a) / qz 2 + trapz y' x' | _, _ => 0 end.
Definition shown (r : Qc + ierr) : Q + ierr := match r with inl v => inl (this v) | inr e => inr e end.
Example C55_value_ex : shown (integrate_ROI trapz (map qz [0; 1; 3; 4]%Z) (map qz [2; 4; 6; 5]%Z) (map qz [0; 1]%Z) (map qz [2; 4]%Z)) = inl (57#2)%Q.
Proof. reflexivity. Qed.
(** every region is defined *)
Theorem C55_region_exists x y a b : length x = length y -> ascending (combine x y) -> a < b -> (exists p, In p (combine x y) /\ b <= fst p) -> exists u, region (combine x y) a b u.
Proof. exact (region_exists x y a b). Qed.
Print Assumptions C55_region_exists.
Example C55_region_ex : region (combine (map qz [0; 1; 3; 4]%Z) (map qz [2; 4; 6; 5]%Z)) (qz 1) (qz 2) [(qz 1, qz 4); (qz 3, qz 6)].
Proof. exists [(qz 0, qz 2)], [(qz 1, qz 4)], (qz 3, qz 6), [(qz 4, qz 5)]. repeat split; repeat constructor; cbn; discriminate. Qed.
(** reversing the spectrum changes nothing, whatever the input *)
Theorem C55_reversed rule x y x_min x_max : integrate_ROI rule (rev x) (rev y) x_min x_max = integrate_ROI rule x y x_min x_max.
Proof. exact (reversed rule x y x_min x_max). Qed.
Print Assumptions C55_reversed.
Example C55_reversed_ex : shown (integrate_ROI trapz (map qz [4; 3; 1; 0]%Z) (map qz [5; 6; 4; 2]%Z) [qz 0] [qz 2]) = inl (13#1)%Q.
Proof. reflexivity. Qed.
(** a number is only returned for usable input *)
Theorem C55_rejects rule x y x_min x_max v : integrate_ROI rule x y x_min x_max = inl v -> x_min <> [] ->
  (2 <= length x)%nat /\ length x = length y /\ monotone x y /\ length x_min = length x_max /\ good_bounds (combine x y) (combine x_min x_max).
Proof. exact (integrate_rejects rule x y x_min x_max v). Qed.
Print Assumptions C55_rejects.
Example C55_rejects_ex : map shown [integrate_ROI trapz (map qz [0; 2; 1]%Z) (map qz [1; 1; 1]%Z) [qz 0] [qz 1]; integrate_ROI trapz [qz 1] [qz 1] [qz 0] [qz 1]; integrate_ROI trapz (map qz [0; 1]%Z) (map qz [1; 1]%Z) [qz 0] [qz 2]] =
  [inr ValueErr; inr IndexErr; inr ValueErr].
Proof. reflexivity. Qed.
(** a constant spectrum: the limits are moved up to the next sample *)
Theorem C55_constant rule x c a b : (forall xs f, hd_error xs = Some f -> rule (repeat c (length xs)) xs = c * (last xs f - f)) ->
  (2 <= length x)%nat -> ascending (combine x (repeat c (length x))) -> good_bounds (combine x (repeat c (length x))) [(a, b)] ->
  exists a' b', (In a' x /\ a <= a' /\ forall v, In v x -> a <= v -> a' <= v) /\ (In b' x /\ b <= b' /\ forall v, In v x -> b <= v -> b' <= v) /\
  integrate_ROI rule x (repeat c (length x)) [a] [b] = inl (c * (b' - a')).
Proof.
  intros R N AS G. set (y := repeat c (length x)) in *. assert (L : length x = length y) by (unfold y; now rewrite repeat_length). destruct (G a b (or_introl eq_refl)) as (AB & _ & B).
  destruct (region_exists x y a b L AS AB B) as [u U]. destruct (region_ends _ _ _ _ AS AB U) as (f & e & HF & HE & (If & FA & FM) & (Ie & EB & EM)).
  assert (INX : forall v, In v x -> exists w, In (v, w) (combine x y)).
  { intros v I. rewrite <- (map_combine_fst x y L) in I. apply in_map_iff in I as ([v' w] & <- & I). eauto. }
  exists (fst f), (fst e). split; [split; [|split; [exact FA|]]|split; [split; [|split; [exact EB|]]|]].
  - rewrite <- (map_combine_fst x y L). now apply in_map.
  - intros v I A. destruct (INX v I) as [w J]. exact (FM _ J A).
  - rewrite <- (map_combine_fst x y L). now apply in_map.
  - intros v I A. destruct (INX v I) as [w J]. exact (EM _ J A).
  - rewrite (integrate_asc rule x y [a] [b] [applied rule u] N L AS eq_refl G).
    + f_equal. unfold applied. assert (SN : map snd u = repeat c (length (map fst u))).
      { destruct U as (pre & mid & e' & post & E & E2 & _). assert (IU : forall p, In p u -> In p (combine x y)) by (intros p I; rewrite E, E2 in *; rewrite !in_app_iff in *; cbn in *; intuition).
        assert (CC : forall p, In p (combine x y) -> snd p = c). { intros p I. unfold y in I. destruct p as [v w]. apply in_combine_r, repeat_spec in I. exact I. }
        clear - IU CC. induction u as [|p u IH]; [reflexivity|]. cbn. rewrite (CC p) by (apply IU; now left). f_equal. apply IH. intros q I. apply IU. now right. }
      rewrite SN. rewrite (R (map fst u) (fst f)) by (destruct u; cbn in *; [discriminate|]; now injection HF as ->).
      unfold qsum. cbn. assert (LM : last (map fst u) (fst f) = fst e). { rewrite <- HE. clear. induction u as [|p u IH]; [reflexivity|]. destruct u; [reflexivity|]. exact IH. }
      rewrite LM. ring.
    + constructor; [|constructor]. exists u. split; [exact U|reflexivity].
Qed.
Print Assumptions C55_constant.
Lemma Qcmult_div_half c d : (c + c) * d / qz 2 = c * d.
Proof. replace ((c + c) * d) with (qz 2 * (c * d)); [unfold Qcdiv; rewrite <- Qcmult_assoc, (Qcmult_comm _ (/ _)), Qcmult_assoc, Qcmult_inv_r by discriminate; ring|]. change (qz 2) with (1 + 1). ring. Qed.
Example C55_trapz_const c : forall xs f, hd_error xs = Some f -> trapz (repeat c (length xs)) xs = c * (last xs f - f).
Proof.
  induction xs as [|a xs IH]; [discriminate|]. intros f [= <-]. destruct xs as [|b xs]; [cbn; ring|]. change (last (a :: b :: xs) a) with (last (b :: xs) a). assert (LB : last (b :: xs) a = last (b :: xs) b).
  { clear. revert b. generalize a at 1. intros d b. generalize b at 3. revert b. induction xs as [|e xs IH]; intros b b'; [reflexivity|]. exact (IH e b'). }
  rewrite LB. specialize (IH b eq_refl). cbn [length repeat] in *. change (trapz (c :: c :: repeat c (length xs)) (a :: b :: xs)) with ((c + c) * (b - a) / qz 2 + trapz (c :: repeat c (length xs)) (b :: xs)).
  rewrite IH. set (l := last (b :: xs) b). clearbody l. assert (H : (c + c) * (b - a) / qz 2 = c * (b - a)) by (apply Qcmult_div_half). rewrite H. ring.
Qed.
(** the integral of 1 from 0 to 1/2 comes out as 1 *)
Theorem C55_overshoot_refuted : integrate_ROI trapz (map qz [0; 1; 2]%Z) (map qz [1; 1; 1]%Z) [qz 0] [Q2Qc (1#2)] = inl (qz 1).
Proof. unfold integrate_ROI. cbn. f_equal; apply Qc_is_canon; reflexivity. Qed.
Print Assumptions C55_overshoot_refuted.
(** bins are placed at their right edges *)
Theorem C55_spectrum rule a edges counts x_min x_max : integrate_ROI_spectrum rule (a :: edges) counts x_min x_max = integrate_ROI rule edges counts x_min x_max.
Proof. exact (spectrum_right_edges rule a edges counts x_min x_max). Qed.
Print Assumptions C55_spectrum.
(** so a bin with centre 1/2 counts in the limits [1, 2], and the limits [1/2, 3/2], which are two
    bin centres, are refused *)
Theorem C55_centres_refuted : exists edges counts counts' : list Qc, edges = map qz [0; 1; 2; 3]%Z /\ skipn 1 counts = skipn 1 counts' /\ integrate_ROI_spectrum trapz edges counts [qz 1] [qz 2] <> integrate_ROI_spectrum trapz edges counts' [qz 1] [qz 2] /\ integrate_ROI_spectrum trapz edges counts [Q2Qc (1#2)] [Q2Qc (3#2)] = inr ValueErr.
Proof. exists (map qz [0; 1; 2; 3]%Z), (map qz [7; 2; 3]%Z), (map qz [9; 2; 3]%Z). repeat split. discriminate. Qed.
Print Assumptions C55_centres_refuted.
