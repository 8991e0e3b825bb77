(* C121: photon probabilities and their standard deviation in double precision. *)
From Coq Require Import Reals.
From Flocq Require Import Core BinarySingleNaN.
From Verif Require Import Common F64 XsvsF_Model XsvsF_Spec XsvsF_Proofs XsvsF_Acc.
From Coq Require Import Lra.
Local Open Scope R_scope.

(** Every reported probability is a number between 0 and 1, for any number of image sets. *)
Theorem C121_range sets : (Z.of_nat (length sets) <= 2 ^ 53)%Z ->
  (forall images, In images sets -> (Z.of_nat (length images) <= 2 ^ 53)%Z /\ forall c, In (Some c) images -> counted c) ->
  is_finite (fst (xsvs_entry sets)) = true /\ 0 <= B2R (fst (xsvs_entry sets)) <= 1.
Proof.
  intros HL H. destruct (sets_ok sets 0 fzero fzero ltac:(lia) unit0 unit0 H) as [U _]. unfold xsvs_entry.
  destruct (entry_sets 0 sets fzero fzero) as [a ap]. exact U.
Qed.
Print Assumptions C121_range.
(** One image set: the probability is the average share up to (n + 23) / 2 units of 2^-53 for n histograms. *)
Theorem C121_mean images : given images <> [] -> (Z.of_nat (length images) < 2 ^ 53)%Z -> (forall c, In (Some c) images -> counted c) ->
  Rabs (B2R (fst (xsvs_entry [images])) - average (map share (given images))) <= (INR (length (given images)) + 23) / 2 * bpow radix2 (-53).
Proof.
  intros N L H. rewrite (entry_one images). cbn [fst]. destruct (prob_err images N L H) as [E _]. refine (Rle_trans _ _ _ E _).
  apply Rmult_le_compat_r; [apply bpow_ge_0|lra].
Qed.
Print Assumptions C121_mean.
(** One image set: the standard deviation squared is the variance up to 2n + 50 units of 2^-53, or it is NaN, and that only
    when the variance is below 2n + 42 units. *)
Theorem C121_deviation images : given images <> [] -> (Z.of_nat (length images) < 2 ^ 53)%Z -> (forall c, In (Some c) images -> counted c) ->
  let n := INR (length (given images)) in let var := variance (map share (given images)) in let sd := snd (xsvs_entry [images]) in
  (sd = B754_nan /\ var < (2 * n + 42) * bpow radix2 (-53)) \/
  (is_finite sd = true /\ 0 <= B2R sd /\ Rabs (B2R sd * B2R sd - var) <= (2 * n + 50) * bpow radix2 (-53)).
Proof. intros N L H. exact (deviation_ok images N L H). Qed.
Print Assumptions C121_deviation.
(** Images that all have the same share of pixels in the bin: the nearest double to it with deviation 0, for any number of sets. *)
Theorem C121_equal c first rest : counted c -> first <> [] -> (Z.of_nat (length (first :: rest)) <= 2 ^ 53)%Z ->
  (forall images, In images (first :: rest) -> (Z.of_nat (length images) <= 2 ^ 53)%Z /\
     forall e, In e images -> exists c', e = Some c' /\ counted c' /\ share c' = share c) ->
  B2R (fst (xsvs_entry (first :: rest))) = round radix2 (FLT_exp (-1074) 53) ZnearestE (share c) /\
  is_finite (snd (xsvs_entry (first :: rest))) = true /\ B2R (snd (xsvs_entry (first :: rest))) = 0.
Proof. exact (equal_sets c first rest). Qed.
Print Assumptions C121_equal.
(** 80 images of 4 million pixels, with 3997189 pixels in the bin in the first and 3997190 in the others: the standard
    deviation is NaN although the shares differ. *)
Definition eighty : list (option (Z * Z)) := Some (3997189, 4000000)%Z :: repeat (Some (3997190, 4000000)%Z) 79.
Theorem C121_nan_refuted : exists images, length images = 80%nat /\ (forall e, In e images -> exists c, e = Some c /\ counted c) /\
  (exists a b, In (Some a) images /\ In (Some b) images /\ share a <> share b) /\ snd (xsvs_entry [images]) = B754_nan.
Proof.
  exists eighty. split; [reflexivity|]. split; [|split].
  - intros e He. destruct He as [<-|He]; [|apply repeat_spec in He; subst e]; eexists; (split; [reflexivity|]); unfold counted; cbn [fst snd]; lia.
  - exists (3997189, 4000000)%Z, (3997190, 4000000)%Z. split; [left; reflexivity|]. split; [right; left; reflexivity|]. unfold share. cbn [fst snd Z.eqb]. lra.
  - vm_compute. reflexivity.
Qed.
Print Assumptions C121_nan_refuted.

(** ** Concrete cases *)
Definition bits (x : f64) : Z * Z := match x with B754_finite false m e _ => (Zpos m, e) | B754_zero _ => (0, 0)%Z | _ => (-1, 0)%Z end.
(** shares 1/4, 3/4 and a bad image between: 1/2 with deviation 1/4 *)
Example C121_ex : let images := [Some (1, 4); None; Some (3, 4)]%Z in
  given images <> [] /\ (forall c, In (Some c) images -> counted c) /\
  (bits (fst (xsvs_entry [images])), bits (snd (xsvs_entry [images]))) = ((4503599627370496, -53), (4503599627370496, -54))%Z.
Proof.
  cbv zeta. split; [discriminate|]. split.
  - intros c [E|[E|[E|[]]]]; try discriminate; injection E as <-; unfold counted; cbn [fst snd]; lia.
  - vm_compute. reflexivity.
Qed.
Example C121_ex_variance : variance (map share (given [Some (1, 4); None; Some (3, 4)]%Z)) = / 16.
Proof. unfold variance, average, share. cbn [given flat_map app map length fold_right INR fst snd Z.eqb]. lra. Qed.
(** equal shares in two sets, and an empty histogram *)
Example C121_ex_equal : let sets := [[Some (1, 3); Some (2, 6)]; [Some (5, 15)]]%Z in
  (bits (fst (xsvs_entry sets)), bits (snd (xsvs_entry sets))) = ((6004799503160661, -54), (0, 0))%Z /\ bits (fst (xsvs_entry [[Some (0, 0)%Z]])) = (0, 0)%Z.
Proof. split; vm_compute; reflexivity. Qed.
