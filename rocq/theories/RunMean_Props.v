(* Property theorems on the running averages in double precision: C109. *)
From Coq Require Import List Permutation ZArith Reals Lia.
From Verif Require Import F64 RunMean_Model RunMean_Spec RunMean_Proofs.
From Flocq Require Import Core IEEE754.BinarySingleNaN.
From Coq Require Import Lra.
Import ListNotations.
Open Scope R_scope.

(** The average never leaves the range of the data, whatever is rounded on the way. *)
Theorem C109_range : forall data lo hi,
  data <> [] -> (Z.of_nat (length data) < 2 ^ 53)%Z -> - bpow radix2 1022 <= lo -> hi <= bpow radix2 1022 ->
  (forall x, In x data -> fin x /\ lo <= B2R x <= hi) ->
  fin (running_mean data) /\ lo <= B2R (running_mean data) <= hi.
Proof. exact mean_range. Qed.
Print Assumptions C109_range.

(** Data that are all the same are averaged without any error. *)
Theorem C109_constant : forall data c,
  data <> [] -> (Z.of_nat (length data) < 2 ^ 53)%Z -> Rabs c <= bpow radix2 1022 ->
  (forall x, In x data -> fin x /\ B2R x = c) -> B2R (running_mean data) = c.
Proof.
  intros data c N L B D. apply Rabs_le_inv in B. destruct (mean_range data c c N L ltac:(lra) ltac:(lra)) as [_ R].
  - intros x I. destruct (D x I) as [F E]. split; [exact F|lra].
  - lra.
Qed.
Print Assumptions C109_constant.

(** Distance from the exact average of the data: at most (n + 11) / 2 units of 2^-53 of the largest magnitude, plus an
    amount that matters only for subnormal numbers. *)
Theorem C109_error : forall data B,
  data <> [] -> (Z.of_nat (length data) < 2 ^ 53)%Z -> B <= bpow radix2 1022 ->
  (forall x, In x data -> fin x /\ Rabs (B2R x) <= B) ->
  Rabs (B2R (running_mean data) - exact_mean (map B2R data)) <=
    (INR (length data) + 11) / 2 * bpow radix2 (-53) * B + (INR (length data) + 1) / 4 * bpow radix2 (-1074).
Proof.
  intros data B N L HB D. pose proof (mean_error data B N L HB D) as H. cbn zeta in H. unfold exact_mean.
  replace (fold_right Rplus 0 (map B2R data)) with (rsum data); [rewrite map_length; exact H|].
  clear. induction data as [|x r IH]; [reflexivity|cbn [map fold_right]; rewrite <- IH; reflexivity].
Qed.
Print Assumptions C109_error.

(** What does not hold: the result depends on the order of the data and can miss the double nearest to the average.
    0, 0, 1 and 0, 1, 0 differ in the last place. *)
Theorem C109_order_refuted : exists a b,
  Permutation a b /\ (forall x, In x a -> fin x) /\
  B2R (running_mean a) = rnd (exact_mean (map B2R a)) /\ B2R (running_mean b) <> rnd (exact_mean (map B2R b)).
Proof.
  assert (M : B2R (fdiv fone (f64_of_Z 3)) = rnd (1 / 3)).
  { destruct (f64_of_Z_ok 3 ltac:(lia)) as [E3 _]. destruct (fdiv_ok fone (f64_of_Z 3) fone_fin) as [E _]; rewrite ?E3, ?fone_R in *; [lra| |exact E].
    apply bound1022. rewrite Rabs_pos_eq by lra. apply Rle_trans with 1; [lra|]. change 1 with (bpow radix2 0). apply bpow_le. lia. }
  assert (Q : forall x y : f64, fin x -> fin y -> B2R x = B2R y <-> Beqb x y = true).
  { intros x y Fx Fy. rewrite (Beqb_correct _ _ x y Fx Fy). destruct (Req_bool_spec (B2R x) (B2R y)) as [H|H]; split; congruence. }
  assert (A : forall l, Permutation [fzero; fzero; fone] l -> rnd (exact_mean (map B2R l)) = rnd (1 / 3)).
  { intros l P. unfold exact_mean. rewrite <- (Permutation_length (Permutation_map B2R P)).
    replace (fold_right Rplus 0 (map B2R l)) with 1; [f_equal; cbn [length map INR]; lra|].
    assert (forall a b, Permutation a b -> fold_right Rplus 0 a = fold_right Rplus 0 b) as R.
    { induction 1; cbn [fold_right]; lra. }
    rewrite <- (R _ _ (Permutation_map B2R P)). cbn [map fold_right]. rewrite fone_R. change (B2R fzero) with 0. lra. }
  assert (P : Permutation [fzero; fzero; fone] [fzero; fone; fzero]) by (apply perm_skip, perm_swap).
  exists [fzero; fzero; fone], [fzero; fone; fzero]. split; [exact P|split; [|split]].
  - intros x [<-|[<-|[<-|[]]]]; reflexivity.
  - rewrite (A _ (Permutation_refl _)), <- M. apply Q; vm_compute; reflexivity.
  - rewrite (A _ P), <- M. rewrite Q by (vm_compute; reflexivity). vm_compute. discriminate.
Qed.
Print Assumptions C109_order_refuted.

(** three measured values 2, 5, 11 meet the hypotheses of all of the above with bounds 2 and 11; their average 6 comes out exactly *)
Example C109_ex : let d := map f64_of_Z [2; 5; 11]%Z in
  (forall x, In x d -> fin x /\ 2 <= B2R x <= 11) /\ Beqb (running_mean d) (f64_of_Z 6) = true /\
  Beqb (running_mean (map f64_of_Z [0; 1; 0]%Z)) (running_mean (map f64_of_Z [0; 0; 1]%Z)) = false.
Proof.
  cbv zeta. split; [|vm_compute; split; reflexivity].
  intros x I. apply in_map_iff in I. destruct I as (z & <- & I). destruct (f64_of_Z_ok z) as [E F].
  - cbn in I. lia.
  - rewrite E. split; [exact F|]. destruct I as [<-|[<-|[<-|[]]]]; lra.
Qed.
