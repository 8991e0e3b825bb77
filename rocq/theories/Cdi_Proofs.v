From Verif Require Import Common QcArith Cdi_Model Cdi_Spec.

(** ** Box support *)
Lemma box_wrapped r shape idx : (0 <= r)%Z -> Forall2 lt idx shape -> (box_at r shape idx = true <-> in_wrapped r shape idx).
Proof.
  intros Hr H. unfold in_wrapped. induction H as [|i s is ss Hi H IH]; [split; [constructor|reflexivity]|].
  cbn [box_at]. rewrite andb_true_iff, IH. unfold in_slice, pybound.
  assert (HD : (0 <= Z.of_nat s / 2)%Z) by (apply Z.div_pos; lia). assert (HD' : (2 * (Z.of_nat s / 2) <= Z.of_nat s)%Z) by (apply Z.mul_div_le; lia).
  assert (HD2 : (Z.of_nat s < 2 * (Z.of_nat s / 2) + 2)%Z) by (pose proof (Z.mul_succ_div_gt (Z.of_nat s) 2 ltac:(lia)); lia).
  split.
  - intros [H1 H2]. constructor; [|exact H2]. cbv zeta. revert H1 HD HD' HD2. generalize (Z.of_nat s / 2)%Z. intros c H1 HD HD' HD2.
    destruct (Z.leb_spec r c), (Z.ltb_spec (c - r) 0), (Z.ltb_spec (c + r) 0); lia.
  - intros H1. inversion H1; subst. cbv zeta in *. split; [|assumption].
    match goal with H : if _ then _ else _ |- _ => revert H end. revert HD HD' HD2. generalize (Z.of_nat s / 2)%Z. intros c HD HD' HD2 H5.
    destruct (Z.leb_spec r c), (Z.ltb_spec (c - r) 0), (Z.ltb_spec (c + r) 0); lia.
Qed.
Theorem box_ok r shape idx : (0 <= r)%Z -> Forall (fun s => r <= Z.of_nat s / 2)%Z shape -> Forall2 lt idx shape ->
  (box_at r shape idx = true <-> in_box r shape idx).
Proof.
  intros Hr HF H. rewrite (box_wrapped r shape idx Hr H). unfold in_wrapped, in_box. clear H. revert idx.
  induction HF as [|s ss Hs HF IH]; intros idx; split; intros H; inversion H; subst; constructor; cbv zeta in *;
    rewrite ?(proj2 (Z.leb_le r _)) in * by exact Hs; try assumption; apply IH; assumption.
Qed.
Theorem box_too_large r s : (Z.of_nat s / 2 < r)%Z -> (r < Z.of_nat s + Z.of_nat s / 2)%Z -> 0 < s ->
  in_box r [s] [0] /\ box_at r [s] [0] = false.
Proof.
  intros H1 H2 Hs. assert (HD : (0 <= Z.of_nat s / 2)%Z) by (apply Z.div_pos; lia). split; [constructor; [lia|constructor]|].
  apply not_true_iff_false. rewrite (box_wrapped r [s] [0] ltac:(lia) ltac:(repeat constructor; exact Hs)).
  intros H. inversion H as [|? ? ? ? H' ?]; subst. cbv zeta in H'. destruct (Z.leb_spec r (Z.of_nat s / 2)); lia.
Qed.

(** ** The loop *)
Section Recon.
Context {V : Type} (O : ops V) (L : laws O).
Variables (pim : list V -> list V) (find : list V -> list bool) (P : params) (x0 : list V) (sup0 : list bool).
Hypotheses (Hpim : forall x, length (pim x) = length x) (Hfind : forall x, length (find x) = length x).
Hypothesis (Hsup : length sup0 = length x0) (Hbeta : beta P <> 0%Qc).

Lemma nth_mc {A B C} (f : A * B -> C) l l' i a b c : i < length l -> i < length l' ->
  nth i (map f (combine l l')) c = f (nth i l a, nth i l' b).
Proof.
  revert l' i. induction l as [|x l IH]; intros [|y l'] i H H'; cbn in *; try lia. destruct i; [reflexivity|]. apply IH; lia.
Qed.
Lemma restrict_ok inside x : length inside = length x -> masked O inside x (restrict O inside x).
Proof.
  intros HL. unfold restrict, masked, pixel. rewrite map_length, combine_length. split; [lia|]. intros i Hi.
  rewrite (nth_mc _ _ _ _ false (vzero O)) by lia. reflexivity.
Qed.
Lemma lin2_ok c d x y : length x = length y -> combination O c (- d)%Qc x y (lin2 O c d x y).
Proof.
  intros HL. unfold lin2, combination, pixel. rewrite map_length, combine_length. split; [lia|]. intros i Hi.
  rewrite (nth_mc _ _ _ _ (vzero O) (vzero O)) by lia. cbn [fst snd]. unfold vsub. rewrite (scale_mul O L).
  replace (- (1) * d)%Qc with (- d)%Qc by ring. reflexivity.
Qed.
Lemma lin2_len c d x y : length x = length y -> length (lin2 O c d x y) = length x.
Proof. intros. unfold lin2. rewrite map_length, combine_length. lia. Qed.
Lemma restrict_len inside x : length inside = length x -> length (restrict O inside x) = length x.
Proof. intros. unfold restrict. rewrite map_length, combine_length. lia. Qed.
Lemma dm_ok inside x : length inside = length x -> difference_map O pim (beta P) inside x (dm_update O pim (beta P) inside x).
Proof.
  intros HL. unfold difference_map, dm_update. set (b := beta P) in *.
  set (ps := restrict O inside x).
  set (fm := lin2 O (1 + 1 / b)%Qc (1 / b)%Qc (pim x) x).
  set (fs := lin2 O (1 + - (1) / b)%Qc (- (1) / b)%Qc ps x).
  assert (E1 : length ps = length x) by (apply restrict_len; exact HL).
  assert (E2 : length fm = length x) by (unfold fm; rewrite lin2_len; rewrite Hpim; reflexivity).
  assert (E3 : length fs = length x) by (unfold fs; rewrite lin2_len; lia).
  exists ps, fm, fs, (restrict O inside fm).
  split; [apply restrict_ok; exact HL|]. split; [apply lin2_ok; apply Hpim|].
  split; [apply restrict_ok; lia|]. split.
  { replace (1 - 1 / b)%Qc with (1 + - (1) / b)%Qc by (field; exact Hbeta).
    replace (1 / b)%Qc with (- (- (1) / b))%Qc at 1 by (field; exact Hbeta). apply lin2_ok. exact E1. }
  split. { rewrite map_length, !combine_length, restrict_len, Hpim by lia. lia. }
  intros i Hi. unfold pixel. rewrite (nth_mc _ _ _ _ (vzero O) (vzero O, vzero O)).
  2: exact Hi. 2: rewrite combine_length, restrict_len, Hpim by lia; lia.
  cbn [fst snd]. rewrite combine_nth by (rewrite restrict_len, Hpim by lia; lia). reflexivity.
Qed.
Lemma dm_len inside x : length inside = length x -> length (dm_update O pim (beta P) inside x) = length x.
Proof. intros H. pose proof (dm_ok inside x H) as [? [? [? [? [_ [_ [_ [_ [E _]]]]]]]]]. exact E. Qed.

Definition s0 : state := St x0 sup0 0 [] [] (map (fun _ => vzero O) x0) 0.
Definition st (t : nat) : state := fold_left (iteration O pim find P) (seq 0 t) s0.
Lemma st_S t : st (S t) = iteration O pim find P (st t) t.
Proof. unfold st. rewrite seq_S, fold_left_app. reflexivity. Qed.
Definition refines_b (n : nat) : bool :=
  sw_flag P && Qc_leb (sw_start P * qn (n_iter P))%Qc (qn n) && Qc_leb (qn n) (sw_end P * qn (n_iter P))%Qc && (n mod sw_step P =? 0).
Lemma refines_b_iff n : sw_step P <> 0 -> (refines_b n = true <-> refines P n).
Proof.
  intros Hs. unfold refines_b, refines. rewrite !andb_true_iff, Nat.eqb_eq, Nat.mod_divide by exact Hs.
  destruct (Qc_leb_spec (sw_start P * qn (n_iter P))%Qc (qn n)), (Qc_leb_spec (qn n) (sw_end P * qn (n_iter P))%Qc); intuition congruence.
Qed.
Lemma st_len t : length (cur (st t)) = length x0 /\ length (inside (st t)) = length x0 /\ length (avg (st t)) = length x0.
Proof.
  induction t as [|t [IH1 [IH2 IH3]]]; [cbn; rewrite map_length; auto|]. rewrite st_S. unfold iteration. cbn [cur inside avg].
  assert (E : length (dm_update O pim (beta P) (inside (st t)) (cur (st t))) = length x0) by (rewrite dm_len; lia).
  split; [exact E|]. split.
  - destruct (_ && _); [rewrite Hfind|]; assumption.
  - destruct (Qc_ltb _ _); [rewrite map_length, combine_length; lia|assumption].
Qed.
Lemma st_cur t : cur (st (S t)) = dm_update O pim (beta P) (inside (st t)) (cur (st t)).
Proof. rewrite st_S. reflexivity. Qed.
Lemma st_inside t : inside (st (S t)) = if refines_b t then find (cur (st (S t))) else inside (st t).
Proof. rewrite st_cur, st_S. reflexivity. Qed.
Lemma st_old t : old (st (S t)) = if refines_b t then size (inside (st (S t))) else old (st t).
Proof. rewrite st_inside, st_cur, st_S. unfold iteration. cbn [old]. fold (refines_b t). destruct (refines_b t); reflexivity. Qed.
Lemma st_err t : sup_error (st t) = map (fun n => if refines_b n then old (st n) else 0) (seq 0 t).
Proof. induction t as [|t IH]; [reflexivity|]. rewrite seq_S, map_app, <- IH, st_S. reflexivity. Qed.
Lemma st_calls t : calls (st t) = if has_cb P && (n_iter P mod cb_step P =? 0) then map (fun n => cur (st (S n))) (seq 0 t) else [].
Proof.
  induction t as [|t IH]; [destruct (_ && _); reflexivity|]. rewrite seq_S, map_app. rewrite st_S at 1. unfold iteration. cbn [calls].
  rewrite IH. destruct (has_cb P && _); [|reflexivity]. cbn [map]. rewrite st_cur. reflexivity.
Qed.
Definition late (t : nat) : list (list V) := map (fun n => cur (st (S n))) (filter (averaged P) (seq 0 t)).
Lemma st_avg t : avg_i (st t) = length (late t) /\ forall i, i < length x0 -> pixel O (avg (st t)) i = total O (late t) i.
Proof.
  induction t as [|t [IH1 IH2]].
  - split; [reflexivity|]. intros i Hi. unfold st, s0, pixel, late, total. cbn [seq fold_left avg filter map].
    clear. revert i. induction x0 as [|v l IH]; intros [|i]; cbn; auto.
  - unfold late in *. rewrite seq_S, filter_app, map_app. cbn [filter Nat.add]. rewrite st_S. unfold iteration. cbn [avg_i avg].
    unfold averaged at 2 4. destruct (Qc_ltb _ _); cbn [map].
    + rewrite app_length. cbn [length]. split; [lia|]. intros i Hi. unfold total. rewrite fold_left_app. cbn [fold_left].
      fold (total O (map (fun n => cur (st (S n))) (filter (averaged P) (seq 0 t))) i). rewrite <- IH2 by exact Hi.
      destruct (st_len t) as [E1 [E2 E3]]. unfold pixel. rewrite (nth_mc _ _ _ _ (vzero O) (vzero O)); [cbn [fst snd]; rewrite st_cur; reflexivity|lia|].
      rewrite dm_len by lia. lia.
    + rewrite app_nil_r. split; assumption.
Qed.
Lemma old_last n m : refines_b m = true -> m < n -> (forall k, m < k < n -> refines_b k = false) -> old (st n) = size (inside (st (S m))).
Proof.
  intros Hm Hmn. induction n as [|n IH]; intros H; [lia|]. rewrite st_old. destruct (Nat.eq_dec m n) as [->|Hne].
  - rewrite Hm. reflexivity.
  - rewrite (H n) by lia. apply IH; [lia|]. intros k Hk. apply H. lia.
Qed.
Lemma old_none n : (forall k, k < n -> refines_b k = false) -> old (st n) = 0.
Proof. induction n as [|n IH]; intros H; [reflexivity|]. rewrite st_old, (H n) by lia. apply IH. intros k Hk. apply H. lia. Qed.

Theorem recon_ok : sw_step P <> 0 -> (has_cb P = true -> cb_step P <> 0) ->
  exists (xs : nat -> list V) (sup : nat -> list bool) average errs calls,
    cdi_recon O pim find P x0 sup0 = Some (average, errs, calls, xs (n_iter P)) /\
    xs 0 = x0 /\ sup 0 = sup0 /\
    (forall n, n < n_iter P -> difference_map O pim (beta P) (sup n) (xs n) (xs (S n)) /\
       (refines P n -> sup (S n) = find (xs (S n))) /\ (~ refines P n -> sup (S n) = sup n)) /\
    ((has_cb P = true /\ Nat.divide (cb_step P) (n_iter P)) -> calls = map (fun n => xs (S n)) (seq 0 (n_iter P))) /\
    (~ (has_cb P = true /\ Nat.divide (cb_step P) (n_iter P)) -> calls = []) /\
    length errs = n_iter P /\
    (forall n, n < n_iter P ->
       (~ refines P n -> nth n errs 0 = 0) /\
       (refines P n -> (forall k, k < n -> ~ refines P k) -> nth n errs 0 = 0) /\
       (forall m, refines P n -> refines P m -> m < n -> (forall k, m < k < n -> ~ refines P k) ->
          nth n errs 0 = length (filter (fun b => b) (sup (S m))))) /\
    (let late := map (fun n => xs (S n)) (filter (averaged P) (seq 0 (n_iter P))) in
     (late = [] /\ average = None) \/
     (late <> [] /\ exists a, average = Some a /\ length a = length x0 /\
        forall i, i < length x0 -> pixel O a i = vscale O (1 / qn (length late))%Qc (total O late i))).
Proof.
  intros Hsw Hcb. unfold cdi_recon. destruct (Qc_eqb_spec (beta P) 0%Qc) as [E|_]; [contradiction|].
  assert (E : has_cb P && (cb_step P =? 0) = false).
  { destruct (has_cb P); [|reflexivity]. apply Nat.eqb_neq. auto. }
  rewrite E. cbn [orb andb]. fold s0. fold (st (n_iter P)).
  exists (fun t => cur (st t)), (fun t => inside (st t)). do 3 eexists. split; [reflexivity|].
  split; [reflexivity|]. split; [reflexivity|]. split.
  { intros n _. split; [|split].
    - rewrite st_cur. apply dm_ok. destruct (st_len n) as [E1 [E2 _]]. lia.
    - intros H. apply refines_b_iff in H; [|exact Hsw]. rewrite st_inside, H. reflexivity.
    - intros H. rewrite <- refines_b_iff in H by exact Hsw. apply not_true_iff_false in H. rewrite st_inside, H. reflexivity. }
  assert (Hd : has_cb P && (n_iter P mod cb_step P =? 0) = true <-> has_cb P = true /\ Nat.divide (cb_step P) (n_iter P)).
  { rewrite andb_true_iff, Nat.eqb_eq. split; intros [H1 H2]; (split; [exact H1|]); apply Nat.mod_divide; auto. }
  split. { intros H. apply Hd in H. rewrite st_calls, H. reflexivity. }
  split. { intros H. rewrite <- Hd in H. apply not_true_iff_false in H. rewrite st_calls, H. reflexivity. }
  split; [rewrite st_err, map_length, seq_length; reflexivity|]. split.
  { intros n Hn. rewrite st_err. rewrite (nth_error_nth (map _ _) n 0 (nth_error_map_seq _ _ _ Hn)). split; [|split].
    - intros H. rewrite <- refines_b_iff in H by exact Hsw. apply not_true_iff_false in H. rewrite H. reflexivity.
    - intros H Hk. apply refines_b_iff in H; [|exact Hsw]. rewrite H. apply old_none. intros k Hk'.
      apply not_true_iff_false. rewrite refines_b_iff by exact Hsw. auto.
    - intros m H Hm Hmn Hk. apply refines_b_iff in H; [|exact Hsw]. apply refines_b_iff in Hm; [|exact Hsw]. rewrite H.
      apply old_last; [exact Hm|exact Hmn|]. intros k Hk'. apply not_true_iff_false. rewrite refines_b_iff by exact Hsw. auto. }
  cbv zeta. destruct (st_avg (n_iter P)) as [A1 A2]. fold (late (n_iter P)). rewrite A1.
  destruct (late (n_iter P)) as [|l ls] eqn:EL; [left; split; reflexivity|right]. split; [discriminate|].
  eexists. split; [reflexivity|]. destruct (st_len (n_iter P)) as [_ [_ E3]]. split; [rewrite map_length; exact E3|].
  intros i Hi. rewrite <- A2 by exact Hi. unfold pixel at 1. set (g := vscale O _).
  rewrite (nth_indep _ _ (g (vzero O))) by (rewrite map_length; lia). rewrite map_nth. reflexivity.
Qed.

(** A solution of both constraints is a fixed point. *)
Lemma fixed_point inside : length inside = length x0 -> pim x0 = x0 ->
  (forall i, i < length x0 -> nth i inside false = false -> pixel O x0 i = vzero O) ->
  dm_update O pim (beta P) inside x0 = x0.
Proof.
  intros HL HM HS.
  assert (HR : restrict O inside x0 = x0).
  { apply nth_ext with (d := vzero O) (d' := vzero O); [apply restrict_len; exact HL|]. intros i Hi. rewrite restrict_len in Hi by exact HL.
    destruct (restrict_ok inside x0 HL) as [_ H]. specialize (H i Hi). unfold pixel in H. rewrite H.
    specialize (HS i Hi). unfold pixel in HS. destruct (nth i inside false); [reflexivity|]. symmetry. apply HS. reflexivity. }
  assert (HLin : forall c, lin2 O (1 + c)%Qc c x0 x0 = x0).
  { intros c. apply nth_ext with (d := vzero O) (d' := vzero O); [apply lin2_len; reflexivity|]. intros i Hi. rewrite lin2_len in Hi by reflexivity.
    destruct (lin2_ok (1 + c)%Qc c x0 x0 eq_refl) as [_ H]. specialize (H i Hi). unfold pixel in H. rewrite H.
    rewrite <- (scale_add O L). replace (1 + c + - c)%Qc with 1%Qc by ring. apply (scale_one O L). }
  unfold dm_update. rewrite HM, HR. rewrite (HLin (1 / beta P)%Qc). rewrite HR. rewrite (HLin (- (1) / beta P)%Qc), HM.
  apply nth_ext with (d := vzero O) (d' := vzero O); [rewrite map_length, !combine_length; lia|].
  intros i Hi. rewrite map_length, !combine_length in Hi. rewrite (nth_mc _ _ _ _ (vzero O) (vzero O, vzero O)); [|lia|rewrite combine_length; lia].
  rewrite combine_nth by reflexivity. cbn [fst snd]. unfold vsub.
  set (v := nth i x0 (vzero O)). rewrite <- (scale_one O L v) at 2. rewrite <- (scale_add O L).
  replace (1 + - (1))%Qc with 0%Qc by ring. rewrite (scale_null O L).
  replace (vscale O (beta P) (vzero O)) with (vzero O).
  2:{ rewrite <- (scale_null O L (vzero O)). rewrite (scale_mul O L). f_equal. ring. }
  apply (add_zero O L).
Qed.

Theorem solution_stays : sw_flag P = false -> (has_cb P = true -> cb_step P <> 0) -> pim x0 = x0 ->
  (forall i, i < length x0 -> nth i sup0 false = false -> pixel O x0 i = vzero O) ->
  exists average errs calls, cdi_recon O pim find P x0 sup0 = Some (average, errs, calls, x0) /\
    (average = None \/ average = Some x0) /\ (forall x, In x calls -> x = x0) /\ Forall (eq 0) errs.
Proof.
  intros Hsw Hcb HM HS.
  assert (HR : forall n, refines_b n = false) by (intros n; unfold refines_b; rewrite Hsw; reflexivity).
  assert (HX : forall t, cur (st t) = x0 /\ inside (st t) = sup0).
  { induction t as [|t [IH1 IH2]]; [split; reflexivity|]. split.
    - rewrite st_cur, IH1, IH2. apply fixed_point; assumption.
    - rewrite st_inside, HR. exact IH2. }
  unfold cdi_recon. destruct (Qc_eqb_spec (beta P) 0%Qc) as [E|_]; [contradiction|].
  assert (E : has_cb P && (cb_step P =? 0) = false).
  { destruct (has_cb P); [|reflexivity]. apply Nat.eqb_neq. auto. }
  rewrite E. cbn [orb andb]. fold s0. fold (st (n_iter P)). rewrite (proj1 (HX (n_iter P))).
  do 3 eexists. split; [reflexivity|]. split; [|split].
  - destruct (Nat.eqb_spec (avg_i (st (n_iter P))) 0) as [E0|E0]; [left; reflexivity|right]. f_equal.
    destruct (st_avg (n_iter P)) as [A1 A2]. destruct (st_len (n_iter P)) as [_ [_ E3]].
    assert (HLate : forall x, In x (late (n_iter P)) -> x = x0).
    { intros x Hx. unfold late in Hx. apply in_map_iff in Hx. destruct Hx as [n [<- _]]. apply HX. }
    assert (HT : forall xs v, (forall x, In x xs -> x = x0) -> forall i,
       fold_left (fun a x => vadd O a (pixel O x i)) xs v = vadd O v (vscale O (qn (length xs)) (pixel O x0 i))).
    { induction xs as [|x xs IH]; intros v Hx i.
      - cbn. change (qn 0) with 0%Qc. rewrite (scale_null O L), (add_zero O L). reflexivity.
      - cbn [fold_left length]. rewrite IH by (intros z Hz; apply Hx; right; exact Hz). rewrite (Hx x) by (left; reflexivity).
        rewrite <- (add_assoc O L). f_equal. rewrite <- (scale_one O L (pixel O x0 i)) at 1. rewrite <- (scale_add O L). f_equal.
        unfold qn. rewrite Nat2Z.inj_succ, <- Z.add_1_l, qz_add. reflexivity. }
    apply nth_ext with (d := vzero O) (d' := vzero O); [rewrite map_length; exact E3|]. intros i Hi. rewrite map_length in Hi.
    set (g := vscale O _). rewrite (nth_indep _ _ (g (vzero O))) by (rewrite map_length; exact Hi). rewrite map_nth.
    change (nth i (avg (st (n_iter P))) (vzero O)) with (pixel O (avg (st (n_iter P))) i). rewrite A2 by lia.
    unfold total. rewrite HT by exact HLate. rewrite <- A1. rewrite (add_comm O L), (add_zero O L). unfold g. rewrite (scale_mul O L).
    replace (1 / qn (avg_i (st (n_iter P))) * qn (avg_i (st (n_iter P))))%Qc with 1%Qc.
    + apply (scale_one O L).
    + field. apply Qc_neq_of_lt. apply qn_pos. exact E0.
  - intros x Hx. rewrite st_calls in Hx. destruct (has_cb P && (n_iter P mod cb_step P =? 0)); [|contradiction]. apply in_map_iff in Hx. destruct Hx as [n [<- _]]. apply HX.
  - rewrite st_err. apply Forall_forall. intros e He. apply in_map_iff in He. destruct He as [n [<- _]]. rewrite HR. reflexivity.
Qed.
End Recon.

(** Default start_avg: nothing is averaged up to five iterations. *)
Lemma default_average N : filter (fun n => Qc_ltb (Q2Qc (4 # 5) * qn N)%Qc (qn n)) (seq 0 N) = [] <-> N <= 5.
Proof.
  assert (HC : forall n, (Q2Qc (4 # 5) * qn N < qn n)%Qc <-> 4 * N < 5 * n).
  { intros n. assert (E5 : (qz 5 * Q2Qc (4 # 5) = qz 4)%Qc) by (apply Qc_is_canon; reflexivity).
    assert (H5 : (0 < qz 5)%Qc) by reflexivity. unfold qn.
    assert (G : (qz (4 * Z.of_nat N) < qz (5 * Z.of_nat n))%Qc <-> 4 * N < 5 * n) by (rewrite qz_lt; lia).
    rewrite <- G, !qz_mul, <- E5. set (a := qz 5) in *. set (c := Q2Qc (4 # 5)) in *. clearbody a c.
    set (u := qz (Z.of_nat N)) in *. set (v := qz (Z.of_nat n)) in *. clearbody u v.
    replace (a * c * u)%Qc with (a * (c * u))%Qc by ring. set (w := (c * u)%Qc). clearbody w. split; intros H; qcnra. }
  split.
  - intros E. destruct (Nat.le_gt_cases N 5) as [|H]; [assumption|exfalso].
    assert (Hin : In (N - 1) (filter (fun n => Qc_ltb (Q2Qc (4 # 5) * qn N)%Qc (qn n)) (seq 0 N))).
    { apply filter_In. split; [apply in_seq; lia|]. apply (reflect_iff _ _ (Qc_ltb_spec _ _)). apply HC. lia. }
    rewrite E in Hin. exact Hin.
  - intros H. destruct (filter _ _) as [|n l] eqn:E; [reflexivity|exfalso].
    assert (Hin : In n (filter (fun n => Qc_ltb (Q2Qc (4 # 5) * qn N)%Qc (qn n)) (seq 0 N))) by (rewrite E; left; reflexivity).
    apply filter_In in Hin. destruct Hin as [H1 H2]. apply in_seq in H1. apply (reflect_iff _ _ (Qc_ltb_spec _ _)) in H2. apply HC in H2. lia.
Qed.
Theorem default_nan {V} (O : ops V) (L : laws O) pim find P x0 sup0 average errs calls final :
  (forall x, length (pim x) = length x) -> (forall x, length (find x) = length x) -> length sup0 = length x0 ->
  start_avg P = Q2Qc (4 # 5) -> cdi_recon O pim find P x0 sup0 = Some (average, errs, calls, final) ->
  (average = None <-> n_iter P <= 5).
Proof.
  intros HP HF HL Hs E. unfold cdi_recon in E. destruct (Qc_eqb_spec (beta P) 0%Qc) as [|Hb]; [discriminate|].
  destruct (has_cb P && (cb_step P =? 0) && negb (n_iter P =? 0)); [discriminate|]. cbn [orb] in E.
  change (fold_left _ _ _) with (st O pim find P x0 sup0 (n_iter P)) in E. injection E as <- _ _ _.
  destruct (st_avg O L pim find P x0 sup0 HP HF HL Hb (n_iter P)) as [A1 _]. rewrite A1. rewrite <- default_average.
  unfold late, averaged. rewrite Hs, map_length. destruct (filter _ _); cbn; split; congruence.
Qed.
(** Rational pixels satisfy the laws. *)
Definition qops : ops Qc := Ops Qc 0%Qc Qcplus Qcmult.
Lemma qlaws : laws qops.
Proof. constructor; intros; cbn; ring. Qed.
