(* C59: logical operations with an out array. *)
From Verif Require Import Common Logic_Model Logic_Proofs.

(** C59: nand and nor are right whatever [out] is, the operands included *)
Theorem C59_nand : forall m x1 x2 out a b, args m x1 x2 out a b ->
  exists m' k r, logical_nand m x1 x2 out = Some (m', k) /\ nth_error m' k = Some r /\ result m m' out k /\ pointwise (fun u v => negb (u && v)) a b r.
Proof. exact nand_ok. Qed.
Print Assumptions C59_nand.
Theorem C59_nor : forall m x1 x2 out a b, args m x1 x2 out a b ->
  exists m' k r, logical_nor m x1 x2 out = Some (m', k) /\ nth_error m' k = Some r /\ result m m' out k /\ pointwise (fun u v => negb (u || v)) a b r.
Proof. exact nor_ok. Qed.
Print Assumptions C59_nor.
(** subtraction is right unless [out] is the minuend *)
Theorem C59_sub : forall m x1 x2 out a b, args m x1 x2 out a b -> out <> Some x1 ->
  exists m' k r, logical_sub m x1 x2 out = Some (m', k) /\ nth_error m' k = Some r /\ result m m' out k /\ pointwise (fun u v => u && negb v) a b r.
Proof. exact sub_ok. Qed.
Print Assumptions C59_sub.
Example C59_case : args [[0; 2; 2]; [1; 0; 5]]%Z 0 1 (Some 1) [0; 2; 2]%Z [1; 0; 5]%Z /\
  logical_sub [[0; 2; 2]; [1; 0; 5]]%Z 0 1 (Some 1) = Some ([[0; 2; 2]; [0; 1; 0]]%Z, 1) /\ logical_nand [[0; 2; 2]; [1; 0; 5]]%Z 0 1 (Some 0) = Some ([[1; 1; 0]; [1; 0; 5]]%Z, 0) /\
  logical_nor [[0; 2; 2]; [1; 0; 5]; [0; 0; 0]]%Z 0 2 None = Some ([[0; 2; 2]; [1; 0; 5]; [0; 0; 0]; [0; 1; 1]; [1; 0; 0]]%Z, 4).
Proof. repeat split; try reflexivity. intros o [= <-]. exists [1; 0; 5]%Z. split; reflexivity. Qed.
(** in place on the minuend it computes nand *)
Theorem C59_sub_in_place : forall m x1 x2 a b, args m x1 x2 (Some x1) a b ->
  exists m' r, logical_sub m x1 x2 (Some x1) = Some (m', x1) /\ nth_error m' x1 = Some r /\ pointwise (fun u v => negb (u && v)) a b r.
Proof. exact sub_in_place. Qed.
Print Assumptions C59_sub_in_place.
Theorem C59_sub_in_place_refuted : ~ (forall m x1 x2 out a b, args m x1 x2 out a b ->
  exists m' k r, logical_sub m x1 x2 out = Some (m', k) /\ nth_error m' k = Some r /\ pointwise (fun u v => u && negb v) a b r).
Proof.
  intros H. destruct (H [[0]; [0]]%Z 0 1 (Some 0) [0]%Z [0]%Z) as (m' & k & r & E & N & [_ P]).
  - repeat split. intros o [= <-]. exists [0]%Z. split; reflexivity.
  - cbn in E. injection E as <- <-. cbn in N. injection N as <-. destruct (P 0 0%Z 0%Z eq_refl eq_refl) as (v & V & T). injection V as <-. discriminate T.
Qed.
Print Assumptions C59_sub_in_place_refuted.
