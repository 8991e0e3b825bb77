From Verif Require Import Common Logic_Model.

(** true: not zero *)
Definition nz (z : Z) : bool := negb (z =? 0)%Z.
(** the pointwise connective of two arrays *)
Definition pointwise (f : bool -> bool -> bool) (x y r : list Z) : Prop :=
  length r = length x /\ forall i a b, nth_error x i = Some a -> nth_error y i = Some b -> exists v, nth_error r i = Some v /\ nz v = f (nz a) (nz b).
(** the arguments: arrays of one shape, out absent or of that shape *)
Definition args (m : memory) (x1 x2 : nat) (out : option nat) (a b : list Z) : Prop :=
  nth_error m x1 = Some a /\ nth_error m x2 = Some b /\ length a = length b /\ (forall o, out = Some o -> exists c, nth_error m o = Some c /\ length c = length a).
(** the result is in [out], or in a new array; nothing else changes *)
Definition result (m m' : memory) (out : option nat) (r : nat) : Prop :=
  (forall o, out = Some o -> r = o) /\ (out = None -> nth_error m r = None) /\ forall k c, k <> r -> nth_error m k = Some c -> nth_error m' k = Some c.

Lemma nz_z_of b : nz (z_of b) = b. Proof. now destruct b. Qed.
Lemma store_ok m r out n : (forall o, out = Some o -> exists c, nth_error m o = Some c /\ length c = n) -> length r = n ->
  exists m' k, store m r out = Some (m', k) /\ nth_error m' k = Some r /\ result m m' out k /\ length m <= length m'.
Proof.
  intros O L. destruct out as [o|]; cbn [store].
  - destruct (O o eq_refl) as (c & E & LC). rewrite E. cbn [bind]. rewrite LC, <- L, Nat.eqb_refl.
    assert (B : o < length m) by (apply nth_error_Some; congruence). destruct (upd_some m o r B) as [m' U]. rewrite U. cbn [bind]. exists m', o. split; [reflexivity|].
    split; [|split; [split; [|split]|]].
    + now apply (upd_nth_eq m o r m').
    + intros o' [= <-]. reflexivity.
    + discriminate.
    + intros k d N H. rewrite (upd_nth_ne m o k r m'); auto.
    + rewrite (upd_length _ _ _ _ U). lia.
  - exists (m ++ [r]), (length m). split; [reflexivity|]. split; [|split; [split; [|split]|]].
    + rewrite nth_error_app2, Nat.sub_diag by lia. reflexivity.
    + discriminate.
    + intros _. apply nth_error_None. lia.
    + intros k d N H. rewrite nth_error_app1; [exact H|]. apply nth_error_Some. congruence.
    + rewrite app_length. lia.
Qed.
Lemma ufunc2_ok f m x1 x2 out a b : args m x1 x2 out a b ->
  exists m' k r, ufunc2 f m x1 x2 out = Some (m', k) /\ nth_error m' k = Some r /\ result m m' out k /\ pointwise f a b r.
Proof.
  intros (E1 & E2 & L & O). unfold ufunc2. change truth with nz. rewrite E1, E2. cbn [bind]. rewrite L, Nat.eqb_refl.
  set (r := map _ (combine a b)). assert (LR : length r = length a) by (unfold r; rewrite map_length, combine_length; lia).
  destruct (store_ok m r out (length a) O LR) as (m' & k & S & N & R & _). exists m', k, r. repeat (split; [assumption|]).
  intros i u v Hu Hv. exists (z_of (f (nz u) (nz v))). split; [|apply nz_z_of]. unfold r. rewrite nth_error_map.
  assert (C : nth_error (combine a b) i = Some (u, v)).
  { clear - Hu Hv. revert b i Hu Hv. induction a as [|x a IH]; intros [|y b] [|i]; cbn; try discriminate; [congruence|apply IH]. }
  now rewrite C.
Qed.
Lemma not_ok m k out a : nth_error m k = Some a -> (forall o, out = Some o -> exists c, nth_error m o = Some c /\ length c = length a) ->
  exists m' j r, logical_not m k out = Some (m', j) /\ nth_error m' j = Some r /\ result m m' out j /\ length r = length a /\ forall i u, nth_error a i = Some u -> exists v, nth_error r i = Some v /\ nz v = negb (nz u).
Proof.
  intros E O. unfold logical_not. change truth with nz. rewrite E. cbn [bind]. set (r := map _ a). assert (LR : length r = length a) by (unfold r; now rewrite map_length).
  destruct (store_ok m r out (length a) O LR) as (m' & j & S & N & R & _). exists m', j, r. repeat (split; [assumption|]).
  intros i u Hu. exists (z_of (negb (nz u))). split; [|apply nz_z_of]. unfold r. now rewrite nth_error_map, Hu.
Qed.
(** out stays usable after a step *)
Lemma out_again m m' out k (r a : list Z) : result m m' out k -> nth_error m' k = Some r -> length r = length a ->
  (forall o, out = Some o -> exists c, nth_error m o = Some c /\ length c = length a) -> forall o, out = Some o -> exists c, nth_error m' o = Some c /\ length c = length r.
Proof. intros (R & _) N L _ o E. exists r. rewrite <- (R o E). auto. Qed.
Lemma result_trans m m1 m2 out k j : result m m1 out k -> result m1 m2 out j -> result m m2 out j.
Proof.
  intros (A & B & C) (A' & B' & C'). split; [exact A'|]. split.
  - intros E. specialize (B' E). destruct (nth_error m j) as [c|] eqn:H; [|reflexivity]. destruct (Nat.eq_dec j k) as [->|N]; [rewrite (B E) in H; discriminate|]. rewrite (C j c N H) in B'. discriminate.
  - intros i c N H. destruct (Nat.eq_dec i k) as [->|NK].
    + destruct out as [o|]; [specialize (A o eq_refl); specialize (A' o eq_refl); congruence|]. rewrite (B eq_refl) in H. discriminate.
    + apply C'; [exact N|]. now apply C.
Qed.
Lemma op_not_ok f m x1 x2 out a b : args m x1 x2 out a b ->
  exists m' k r, (r <- ufunc2 f m x1 x2 out ;; logical_not (fst r) (snd r) out) = Some (m', k) /\ nth_error m' k = Some r /\ result m m' out k /\ pointwise (fun u v => negb (f u v)) a b r.
Proof.
  intros H. pose proof H as (E1 & E2 & L & O). destruct (ufunc2_ok f m x1 x2 out a b H) as (m1 & k & r & U & N & R & [PL P]). rewrite U. cbn [bind fst snd].
  destruct (not_ok m1 k out r N) as (m2 & j & s & V & N2 & R2 & L2 & P2); [apply (out_again m m1 out k r a R N PL O)|].
  exists m2, j, s. split; [exact V|]. split; [exact N2|]. split; [eapply result_trans; eauto|]. split; [congruence|].
  intros i u v Hu Hv. destruct (P i u v Hu Hv) as (w & W & T). destruct (P2 i w W) as (z & Z & TZ). exists z. split; [exact Z|]. now rewrite TZ, T.
Qed.
Theorem nand_ok m x1 x2 out a b : args m x1 x2 out a b ->
  exists m' k r, logical_nand m x1 x2 out = Some (m', k) /\ nth_error m' k = Some r /\ result m m' out k /\ pointwise (fun u v => negb (u && v)) a b r.
Proof. apply op_not_ok. Qed.
Theorem nor_ok m x1 x2 out a b : args m x1 x2 out a b ->
  exists m' k r, logical_nor m x1 x2 out = Some (m', k) /\ nth_error m' k = Some r /\ result m m' out k /\ pointwise (fun u v => negb (u || v)) a b r.
Proof. apply op_not_ok. Qed.
Lemma sub_steps m x1 x2 out a b : args m x1 x2 out a b ->
  exists m' k r, logical_sub m x1 x2 out = Some (m', k) /\ nth_error m' k = Some r /\ result m m' out k /\
    pointwise (fun u v => (if match out with Some o => o =? x1 | None => false end then true else u) && negb (u && v)) a b r.
Proof.
  intros H. pose proof H as (E1 & E2 & L & O). destruct (op_not_ok andb m x1 x2 out a b H) as (m1 & k & r & U & N & R & [PL P]).
  unfold logical_sub, logical_and. destruct (ufunc2 andb m x1 x2 out) as [[m0 k0]|] eqn:E0; [|discriminate U]. cbn [bind fst snd] in *. rewrite U. cbn [bind fst snd].
  assert (X : exists a', nth_error m1 x1 = Some a' /\ length a' = length a /\ forall i u v, nth_error a i = Some u -> nth_error b i = Some v -> exists w, nth_error a' i = Some w /\
              nz w = if match out with Some o => o =? x1 | None => false end then negb (nz u && nz v) else nz u).
  { destruct R as (RO & RN & RK). destruct (Nat.eq_dec x1 k) as [->|NK].
    - exists r. split; [exact N|]. split; [exact PL|]. intros i u v Hu Hv. destruct out as [o|]; [|rewrite (RN eq_refl) in E1; discriminate].
      rewrite (RO o eq_refl), Nat.eqb_refl. apply (P i u v Hu Hv).
    - exists a. split; [now apply RK|]. split; [reflexivity|]. intros i u v Hu Hv. exists u. split; [exact Hu|]. destruct out as [o|]; [|reflexivity].
      destruct (Nat.eqb_spec o x1) as [->|_]; [|reflexivity]. exfalso. apply NK. symmetry. auto. }
  destruct X as (a' & EA & LA & PA).
  destruct (ufunc2_ok andb m1 x1 k out a' r) as (m2 & j & s & U2 & N2 & R2 & [L2 P2]).
  { split; [exact EA|]. split; [exact N|]. split; [congruence|]. intros o E. destruct R as (RO & _). exists r. rewrite <- (RO o E). split; [exact N|congruence]. }
  exists m2, j, s. split; [exact U2|]. split; [exact N2|]. split; [eapply result_trans; eauto|]. split; [congruence|].
  intros i u v Hu Hv. destruct (PA i u v Hu Hv) as (w & W & TW). destruct (P i u v Hu Hv) as (z & Z & TZ). destruct (P2 i w z W Z) as (q & Q & TQ). exists q. split; [exact Q|]. rewrite TQ, TW, TZ.
  destruct (match out with Some o => o =? x1 | None => false end); [|reflexivity]. now destruct (nz u), (nz v).
Qed.
Theorem sub_ok m x1 x2 out a b : args m x1 x2 out a b -> out <> Some x1 ->
  exists m' k r, logical_sub m x1 x2 out = Some (m', k) /\ nth_error m' k = Some r /\ result m m' out k /\ pointwise (fun u v => u && negb v) a b r.
Proof.
  intros H N. destruct (sub_steps m x1 x2 out a b H) as (m' & k & r & A & B & C & [D E]). exists m', k, r. repeat (split; [assumption|]).
  intros i u v Hu Hv. destruct (E i u v Hu Hv) as (w & W & T). exists w. split; [exact W|]. rewrite T.
  destruct out as [o|]; [destruct (Nat.eqb_spec o x1) as [->|_]; [congruence|]|]; now destruct (nz u), (nz v).
Qed.
Theorem sub_in_place m x1 x2 a b : args m x1 x2 (Some x1) a b ->
  exists m' r, logical_sub m x1 x2 (Some x1) = Some (m', x1) /\ nth_error m' x1 = Some r /\ pointwise (fun u v => negb (u && v)) a b r.
Proof.
  intros H. destruct (sub_steps m x1 x2 (Some x1) a b H) as (m' & k & r & A & B & (C & _) & P). specialize (C x1 eq_refl). subst k. exists m', r. repeat (split; [assumption|]).
  rewrite Nat.eqb_refl in P. exact P.
Qed.
