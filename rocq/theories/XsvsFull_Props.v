(* C121: the tables xsvs returns in double precision, all levels, regions and bins. *)
From Coq Require Import Reals.
From Flocq Require Import Core BinarySingleNaN.
From Verif Require Import Common F64 XsvsF_Model Xsvs_Model Xsvs_Spec XsvsFull_Model XsvsFull_Acc.
From Coq Require Import Lra.
Local Open Scope nat_scope.

(** [conv] is what the pixels' type stores: the identity, or reduction modulo a power of two. *)
Definition stores (conv : Z -> Z) : Prop := conv 0%Z = 0%Z /\ forall a b, conv (conv a + conv b)%Z = conv (a + b)%Z.
(** images of the right size, with pixels of their type *)
Definition fits (conv : Z -> Z) (labels : list Z) (images : list frame) : Prop :=
  forall x, In (Some x) images -> length x = length labels /\ Forall (fun v => conv v = v) x.

(** For any image sets xsvs returns tables, and every probability in them is a number between 0 and 1. *)
Theorem C121_table_range conv T num_times labels max_cts image_sets : stores conv -> 2 <= T -> 1 <= num_times ->
  (Z.of_nat (length labels) <= 2 ^ 53)%Z -> (Z.of_nat (length image_sets) <= 2 ^ 53)%Z ->
  (forall images, In images image_sets -> fits conv labels images /\ (Z.of_nat (length images) <= 2 ^ 53)%Z) ->
  exists p sd, xsvsF conv T num_times labels max_cts image_sets = Some (p, sd) /\
    forall l j b, l < num_times -> is_finite (p l j b) = true /\ (0 <= B2R (p l j b) <= 1)%R.
Proof.
  intros [C0 CA] HT Hn HL HS H. apply (table_range conv T num_times labels max_cts C0 CA HT Hn HL image_sets).
  - apply Forall_forall. intros images I. exact (proj1 (H images I)).
  - exact HS.
  - intros images I. exact (proj2 (H images I)).
Qed.
Print Assumptions C121_table_range.
(** One set of n images: next to the exact tables (C43), every probability is off by at most (n + 23)/2 units of 2^-53, and
    every squared standard deviation by at most 2n + 50, or it is NaN and the exact variance is below 2n + 42. *)
Theorem C121_table conv T num_times labels max_cts images : stores conv -> 2 <= T -> 1 <= num_times ->
  (Z.of_nat (length labels) <= 2 ^ 53)%Z -> fits conv labels images -> (Z.of_nat (length images) < 2 ^ 53)%Z ->
  exists p sd q v, xsvsF conv T num_times labels max_cts [images] = Some (p, sd) /\ xsvs conv T num_times labels max_cts [images] = Some (q, v) /\
  forall l j b, l < num_times -> let n := INR (length images) in
    (Rabs (B2R (p l j b) - real (q l j b)) <= (n + 23) / 2 * bpow radix2 (-53))%R /\
    (sd l j b = B754_nan /\ (real (v l j b) < (2 * n + 42) * bpow radix2 (-53))%R \/
     is_finite (sd l j b) = true /\ (0 <= B2R (sd l j b))%R /\ (Rabs (B2R (sd l j b) * B2R (sd l j b) - real (v l j b)) <= (2 * n + 50) * bpow radix2 (-53))%R).
Proof. intros [C0 CA] HT Hn HL W HI. exact (table_one_set conv T num_times labels max_cts C0 CA HT Hn HL images W HI). Qed.
Print Assumptions C121_table.

(** ** A concrete case: two regions, a bad image and two levels. *)
Definition bits (x : f64) : Z * Z := match x with B754_finite false m e _ => (Zpos m, e) | B754_zero _ => (0, 0)%Z | _ => (-1, 0)%Z end.
Example C121_table_ex : let images := [Some [0; 1; 2]; Some [1; 1; 1]; None; Some [2; 1; 0]]%Z in
  stores exactly /\ fits exactly [1; 1; 2]%Z images /\
  match xsvsF exactly 2 2 [1; 1; 2]%Z 4 [images], xsvs exactly 2 2 [1; 1; 2]%Z 4 [images] with
  | Some (p, sd), Some (q, v) =>
    map (fun b => bits (p 0 0 b)) [0; 1; 2] = [(6004799503160662, -55); (6004799503160661, -53); (6004799503160661, -55)]%Z /\
    map (fun b => this (q 0 0 b)) [0; 1; 2] = [1 # 6; 2 # 3; 1 # 6]%Q /\
    bits (p 1 0 1) = (4503599627370496, -53)%Z /\ this (q 1 0 1) = (1 # 2)%Q /\ bits (sd 0 0 1) = (8492068896701032, -55)%Z /\ this (v 0 0 1) = (1 # 18)%Q
  | _, _ => False
  end.
Proof.
  cbv zeta. split; [split; reflexivity|]. split.
  - intros x I. split; [|apply Forall_forall; reflexivity]. destruct I as [E|[E|[E|[E|[]]]]]; try discriminate; injection E as <-; reflexivity.
  - vm_compute. repeat split.
Qed.
