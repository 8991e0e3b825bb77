From Verif Require Import Common MultiTau_Model MultiTau_Spec.
From Coq Require Import ZifyBool ZifyNat.

(* ------------------------------------------------------------------ *)
(** * Means *)
Lemma mean_nil : mean [] = 0%Qc. Proof. reflexivity. Qed.

Lemma mean_eq l : mean l = (qsum l / qn (length l))%Qc.
Proof. destruct l; [unfold mean; cbn; reflexivity|reflexivity]. Qed.

(** Running mean: adding one element. *)
Lemma mean_snoc l x :
  mean (l ++ [x]) = (mean l + (x - mean l) / qz (Z.of_nat (length l) + 1))%Qc.
Proof.
  rewrite !mean_eq, qsum_app, app_length; cbn [length qsum].
  rewrite qn_add. change (qn 1) with 1%Qc.
  rewrite qz_add. change (qz (Z.of_nat (length l))) with (qn (length l)).
  change (qz 1) with 1%Qc.
  assert (Hne : (qn (length l) + 1)%Qc <> 0%Qc).
  { rewrite <- qn_S; apply qn_neq0; lia. }
  destruct l as [|y l].
  - cbn [length qsum]. change (qn 0) with 0%Qc. change (0 / 0)%Qc with 0%Qc.
    replace (0 + 1)%Qc with 1%Qc by ring. field. discriminate.
  - assert (qn (length (y :: l)) <> 0%Qc) by (apply qn_neq0; cbn; lia).
    set (n := qn _) in *. set (t := qsum _). field. split; assumption.
Qed.

Lemma filter_combine_length labels (w : list Qc) r :
  length w = length labels ->
  length (filter (fun p => fst p =? r) (combine labels w))
  = length (filter (fun l => l =? r) labels).
Proof.
  revert w; induction labels as [|a labels IH]; intros [|x w] H; cbn in *; try lia; auto.
  injection H as H. destruct (a =? r); cbn; rewrite IH by exact H; reflexivity.
Qed.

Lemma combine_map_same {A B C} (f : A -> B) (g : A -> C) l :
  combine (map f l) (map g l) = map (fun x => (f x, g x)) l.
Proof. induction l as [|a l IH]; cbn; [reflexivity|rewrite IH; reflexivity]. Qed.

Lemma vals_length v : length (vals v) = length v.
Proof. apply map_length. Qed.

Lemma vmap2_length f u v : length u = length v -> length (vmap2 f u v) = length u.
Proof. intros H; unfold vmap2; rewrite map_length, combine_length; lia. Qed.

(** ROI average in terms of compacted labels and gathered pixels. *)
Definition roi_mean (labels : list nat) (v : list Qc) (r : nat) : Qc :=
  mean (map snd (filter (fun p => fst p =? r) (combine labels v))).

Section Correlator.
Variable h L : nat.                     (* num_bufs = 2h *)
Variable labels : list nat.
Variable pl : list nat.
Variable lags : list nat.
Hypothesis Hh : 1 <= h.
Hypothesis HL : 1 <= L.

Let nb := 2 * h.
Definition mkcfg : cfg :=
  {| num_bufs := nb; num_levels := L; label_array := labels; pixel_list := pl;
     num_pixels := bincount_n labels; lag_steps := lags;
     lev_len := nb :: repeat h (L - 1) |}.
Let c := mkcfg.
Let K := max_label labels.
Let P := length labels.

Variable blk : nat -> nat -> vec.
Hypothesis blk_len : forall l k, length (blk l k) = P.
Hypothesis blk_S : forall l k,
  blk (S l) k = vmap2 pavg (blk l (2 * k)) (blk l (2 * k + 1)).

Definition imin (l : nat) : nat := if l =? 0 then 0 else h.
Definition gd l k := negb (has_nan (blk l k)).
Definition pairs l i m :=
  filter (fun k => gd l k && gd l (k + i)) (seq 0 (m - i)).
Definition rmean (v : vec) r := roi_mean labels (vals v) r.
Definition row (f : nat -> nat -> Qc) (ps : list nat) : list Qc :=
  map (fun r => mean (map (fun k => f k r) ps)) (seq 1 K).
Definition fG l i k r := rmean (vmap2 pmul (blk l k) (blk l (k + i))) r.
Definition fP l (i : nat) k r := rmean (blk l k) r.
Definition fF l i k r := rmean (blk l (k + i)) r.

Lemma acc_row_spec f ps k w :
  length w = P ->
  (forall r, f k r = rmean w r) ->
  acc_row (row f ps) (bincount_w labels (vals w)) (bincount_n labels)
          (Z.of_nat (length ps) + 1)
  = row f (ps ++ [k]).
Proof.
  intros Hw Hf. unfold acc_row, row, bincount_w, bincount_n. fold K.
  rewrite combine_map_same, combine_map_same, map_map.
  apply map_ext; intros r; cbn [fst snd].
  rewrite map_app; cbn [map]. rewrite mean_snoc, map_length, Hf.
  unfold rmean, roi_mean. rewrite (mean_eq (map snd _)), (map_length snd), filter_combine_length.
  - reflexivity.
  - rewrite vals_length; exact Hw.
Qed.

Lemma pairs_S l i m :
  i <= m ->
  pairs l i (m + 1) = pairs l i m ++ (if gd l (m - i) && gd l m then [m - i] else []).
Proof.
  intros Hi. unfold pairs. replace (m + 1 - i) with (S (m - i)) by lia.
  rewrite seq_S, filter_app. cbn [filter]. f_equal.
  replace (0 + (m - i)) with (m - i) by lia.
  replace (m - i + i) with m by lia. reflexivity.
Qed.

Lemma pairs_unreached l i m : m <= i -> pairs l i m = [].
Proof. intros H; unfold pairs; replace (m - i) with 0 by lia; reflexivity. Qed.

Lemma pairs_le l i m : length (pairs l i m) <= m - i.
Proof.
  unfold pairs.
  assert (H : forall (p : nat -> bool) s, length (filter p s) <= length s).
  { intros p s; induction s as [|a s IH]; cbn; [lia|destruct (p a); cbn; lia]. }
  specialize (H (fun k => gd l k && gd l (k + i)) (seq 0 (m - i))).
  rewrite seq_length in H; exact H.
Qed.

(** Number of skipped (bad) pairs. *)
Definition badn l i m : Z := (Z.of_nat (m - i) - Z.of_nat (length (pairs l i m)))%Z.

Definition curval (l m : nat) : Z :=
  if l =? 0 then ((Z.of_nat m + 1) mod Z.of_nat nb)%Z
  else (1 + Z.of_nat m mod Z.of_nat nb)%Z.

Lemma pyindex_slot l m :
  pyindex (Z.of_nat nb) (curval l m - 1) = Some (m mod nb).
Proof.
  assert (Hnb : (0 < Z.of_nat nb)%Z) by (unfold nb; lia).
  assert (Hm : (Z.of_nat m mod Z.of_nat nb = Z.of_nat (m mod nb))%Z)
    by (symmetry; apply Nat2Z.inj_mod).
  assert (Hr : m mod nb < nb) by (apply Nat.mod_upper_bound; unfold nb; lia).
  unfold curval; destruct (l =? 0).
  - rewrite <- Zplus_mod_idemp_l, Hm.
    set (r := m mod nb) in *.
    destruct (Nat.eq_dec r (nb - 1)) as [E|E].
    + replace ((Z.of_nat r + 1) mod Z.of_nat nb)%Z with 0%Z.
      2:{ replace (Z.of_nat r + 1)%Z with (Z.of_nat nb) by lia.
          symmetry; apply Z_mod_same_full. }
      unfold pyindex.
      replace ((0 <=? 0 - 1)%Z && (0 - 1 <? Z.of_nat nb)%Z) with false by lia.
      replace ((- Z.of_nat nb <=? 0 - 1)%Z && (0 - 1 <? 0)%Z) with true by lia.
      f_equal; lia.
    + rewrite Z.mod_small by lia.
      unfold pyindex.
      replace ((0 <=? Z.of_nat r + 1 - 1)%Z && (Z.of_nat r + 1 - 1 <? Z.of_nat nb)%Z)
        with true by lia.
      f_equal; lia.
  - rewrite Hm. set (r := m mod nb) in *. unfold pyindex.
    replace ((0 <=? 1 + Z.of_nat r - 1)%Z && (1 + Z.of_nat r - 1 <? Z.of_nat nb)%Z)
      with true by lia.
    f_equal; lia.
Qed.

(** The index [i] steps back from the newest of [m] blocks. *)
Lemma pyindex_delay l m i :
  i <= m -> i < nb ->
  pyindex (Z.of_nat nb) ((curval l m - 1 - Z.of_nat i) mod Z.of_nat nb)
  = Some ((m - i) mod nb).
Proof.
  intros Hi Hn.
  assert (Hnb : (0 < Z.of_nat nb)%Z) by lia.
  assert (E : ((curval l m - 1 - Z.of_nat i) mod Z.of_nat nb
               = Z.of_nat ((m - i) mod nb))%Z).
  { rewrite Nat2Z.inj_mod, Nat2Z.inj_sub by exact Hi.
    unfold curval; destruct (l =? 0).
    - replace ((Z.of_nat m + 1) mod Z.of_nat nb - 1 - Z.of_nat i)%Z
        with ((Z.of_nat m + 1) mod Z.of_nat nb + (- 1 - Z.of_nat i))%Z by lia.
      rewrite Zplus_mod_idemp_l. f_equal; lia.
    - replace (1 + Z.of_nat m mod Z.of_nat nb - 1 - Z.of_nat i)%Z
        with (Z.of_nat m mod Z.of_nat nb + (- Z.of_nat i))%Z by lia.
      rewrite Zplus_mod_idemp_l. f_equal; lia. }
  rewrite E.
  assert ((m - i) mod nb < nb) by (apply Nat.mod_upper_bound; lia).
  unfold pyindex.
  replace ((0 <=? Z.of_nat ((m - i) mod nb))%Z
           && (Z.of_nat ((m - i) mod nb) <? Z.of_nat nb)%Z) with true by lia.
  f_equal; lia.
Qed.

Lemma half_mul l : l * nb / 2 = l * h.
Proof.
  unfold nb. replace (l * (2 * h)) with (l * h * 2) by lia. apply Nat.div_mul; lia.
Qed.

Lemma lev_sum l : l < L ->
  list_sum (firstn l (nb :: repeat h (L - 1))) = if l =? 0 then 0 else (l + 1) * h.
Proof.
  intros Hl. destruct l as [|l]; [reflexivity|].
  cbn [firstn Nat.eqb list_sum fold_right].
  assert (E : forall n k, k <= n -> list_sum (firstn k (repeat h n)) = k * h).
  { clear; intros n; induction n as [|n IH]; intros [|k] Hk; cbn; try lia.
    specialize (IH k ltac:(lia)); unfold list_sum in *; lia. }
  specialize (E (L - 1) l ltac:(lia)). unfold list_sum in E; cbn. unfold nb. nia.
Qed.

(* ------------------------------------------------------------------ *)
(** * Level invariant *)
Definition accs (arr : list (list Qc)) (f : nat -> nat -> nat -> Qc) l (m : nat -> nat) :=
  forall i, imin l <= i < nb ->
    nth_error arr (l * h + i) = Some (row (f i) (pairs l i (m i))).

Definition norms (s : state) l (m : nat -> nat) :=
  exists nrow, nth_error (norm s) l = Some nrow /\ length nrow = nb - imin l /\
    forall i, imin l <= i < nb -> nth_error nrow (i - imin l) = Some (badn l i (m i)).

Definition accs3 s l m :=
  accs (G s) (fG l) l m /\ accs (past s) (fP l) l m /\ accs (fut s) (fF l) l m.

Definition bufs (s : state) l m :=
  exists brow, nth_error (buf s) l = Some brow /\ length brow = nb /\
    forall k, k < m -> m <= k + nb -> nth_error brow ((k + 1) mod nb) = Some (blk l k).

Definition LevInv (s : state) (l m : nat) : Prop :=
  nth_error (ipl s) l = Some m /\
  nth_error (cur s) l = Some (curval l m) /\
  bufs s l m /\ norms s l (fun _ => m) /\ accs3 s l (fun _ => m).

(** Everything that does not belong to level [l] is unchanged. *)
Definition region (l t : nat) : Prop := exists i, imin l <= i < nb /\ t = l * h + i.
Definition Frame (l : nat) (s s' : state) : Prop :=
  (forall l', l' <> l ->
     nth_error (ipl s') l' = nth_error (ipl s) l' /\
     nth_error (cur s') l' = nth_error (cur s) l' /\
     nth_error (buf s') l' = nth_error (buf s) l' /\
     nth_error (norm s') l' = nth_error (norm s) l' /\
     nth_error (track s') l' = nth_error (track s) l') /\
  (forall t, ~ region l t ->
     nth_error (G s') t = nth_error (G s) t /\
     nth_error (past s') t = nth_error (past s) t /\
     nth_error (fut s') t = nth_error (fut s) t).

Lemma region_disjoint l l' t : region l t -> region l' t -> l = l'.
Proof.
  intros [i [Hi E]] [i' [Hi' E']]. unfold imin, nb in *.
  destruct (Nat.eq_dec l l') as [|Hne]; auto. exfalso.
  destruct (Nat.eqb_spec l 0), (Nat.eqb_spec l' 0); subst; nia.
Qed.

Lemma Frame_refl l s : Frame l s s.
Proof. split; intros; repeat split; reflexivity. Qed.

Lemma Frame_trans l s1 s2 s3 : Frame l s1 s2 -> Frame l s2 s3 -> Frame l s1 s3.
Proof.
  intros [A1 B1] [A2 B2]; split.
  - intros l' Hl. destruct (A1 l' Hl) as (a & b & d & e & f).
    destruct (A2 l' Hl) as (a' & b' & d' & e' & f').
    repeat split; congruence.
  - intros t Ht. destruct (B1 t Ht) as (a & b & d), (B2 t Ht) as (a' & b' & d').
    repeat split; congruence.
Qed.

Lemma Frame_LevInv l s s' l' m :
  Frame l s s' -> l' <> l -> LevInv s l' m -> LevInv s' l' m.
Proof.
  intros [A B] Hne (H1 & H2 & (br & H3 & H3') & (nr & H4 & H4') & H5).
  destruct (A l' Hne) as (E1 & E2 & E3 & E4 & _).
  assert (Hreg : forall i, imin l' <= i < nb -> ~ region l (l' * h + i)).
  { intros i Hi Hr. apply Hne. eapply region_disjoint; [|exact Hr].
    exists i; split; auto. }
  split; [congruence|]. split; [congruence|].
  split; [exists br; split; [congruence|exact H3']|].
  split; [exists nr; split; [congruence|exact H4']|].
  destruct H5 as (HG & HP & HF).
  repeat split; intros i Hi; destruct (B _ (Hreg i Hi)) as (e1 & e2 & e3).
  - rewrite e1; auto.
  - rewrite e2; auto.
  - rewrite e3; auto.
Qed.

(* ------------------------------------------------------------------ *)
(** * The inner loop *)
(** [upto ic m i]: lag index [i] has seen block [m] iff [i < ic]. *)
Definition upto (ic m i : nat) : nat := if i <? ic then m + 1 else m.

Definition LoopInv (s0 s : state) (l m ic : nat) : Prop :=
  buf s = buf s0 /\ ipl s = ipl s0 /\ track s = track s0 /\ cur s = cur s0 /\
  norms s l (upto ic m) /\ accs3 s l (upto ic m) /\
  (forall l', l' <> l -> nth_error (norm s) l' = nth_error (norm s0) l') /\
  (forall t, ~ region l t ->
     nth_error (G s) t = nth_error (G s0) t /\
     nth_error (past s) t = nth_error (past s0) t /\
     nth_error (fut s) t = nth_error (fut s0) t).

Lemma acc_at_spec arr l i m f ic w s :
  accs arr f l (upto ic m) -> ic = i -> imin l <= i < nb -> i <= m ->
  length w = P -> (forall r, f i (m - i) r = rmean w r) ->
  gd l (m - i) && gd l m = true ->
  s = (Z.of_nat (length (pairs l i m)) + 1)%Z ->
  exists arr', acc_at c arr (l * h + i) w s = Some arr' /\
    accs arr' f l (upto (i + 1) m) /\
    (forall t, t <> l * h + i -> nth_error arr' t = nth_error arr t).
Proof.
  intros HA -> Hi Him Hw Hf Hg ->.
  pose proof (HA i Hi) as Hrow.
  unfold upto in Hrow. replace (i <? i) with false in Hrow by lia.
  unfold acc_at. rewrite Hrow. cbn [bind].
  change (label_array c) with labels. change (num_pixels c) with (bincount_n labels).
  rewrite acc_row_spec with (k := m - i) by auto.
  assert (Hlt : l * h + i < length arr)
    by (apply nth_error_Some; rewrite Hrow; discriminate).
  destruct (upd_some arr (l * h + i) (row (f i) (pairs l i m ++ [m - i])) Hlt)
    as [arr' E].
  exists arr'. rewrite E. split; [reflexivity|]. split.
  - intros j Hj. unfold upto. destruct (Nat.eq_dec j i) as [->|Hne].
    + rewrite (upd_nth_eq _ _ _ _ E). replace (i <? i + 1) with true by lia.
      rewrite pairs_S, Hg by lia. reflexivity.
    + rewrite (upd_nth_ne _ _ _ _ _ E) by lia.
      rewrite (HA j Hj). unfold upto.
      replace (j <? i + 1) with (j <? i) by lia. reflexivity.
  - intros t Ht. eapply upd_nth_ne; eauto.
Qed.

Lemma has_nan_pmul u v : length u = length v ->
  has_nan (vmap2 pmul u v) = has_nan u || has_nan v.
Proof.
  revert v; induction u as [|a u IH]; intros [|b v] H; cbn in *; try lia; auto.
  unfold has_nan, vmap2 in *; cbn in *. rewrite IH by lia.
  destruct a, b; cbn; try reflexivity.
  - rewrite orb_true_r; reflexivity.
Qed.

Lemma body_ok s0 s l m i :
  l < L -> imin l <= i < nb -> i <= m ->
  bufs s0 l (m + 1) ->
  LoopInv s0 s l m i ->
  exists s', otp_body c l (curval l (m + 1) - 1) (m + 1) s i = Some s' /\
             LoopInv s0 s' l m (i + 1).
Proof.
  intros Hl Hi Him (brow & Hb & Hblen & Hbk)
         (E1 & E2 & E3 & E4 & (nrow & Hn & Hnl & Hnv) & (HG & HP & HF) & Hfn & Hfr).
  unfold otp_body. change (num_bufs c) with nb.
  change (lev_len c) with (nb :: repeat h (L - 1)).
  rewrite E1, Hb. cbn [bind]. rewrite Hblen.
  rewrite pyindex_delay by lia. cbn [bind].
  replace (m + 1 - i) with (m - i + 1) by lia.
  rewrite Hbk by lia. cbn [bind].
  rewrite pyindex_slot. cbn [bind]. rewrite Hbk by lia. cbn [bind].
  rewrite half_mul, lev_sum by exact Hl.
  rewrite Hn. cbn [bind].
  assert (Hpi : pyindex (Z.of_nat (length nrow))
       (Z.of_nat (l * h + i) - Z.of_nat (if l =? 0 then 0 else (l + 1) * h))
       = Some (i - imin l)).
  { rewrite Hnl. unfold imin, nb in *. destruct (Nat.eqb_spec l 0) as [->|Hl0].
    - unfold pyindex.
      replace ((0 <=? Z.of_nat (0 * h + i) - Z.of_nat 0)%Z
        && (Z.of_nat (0 * h + i) - Z.of_nat 0 <? Z.of_nat (2 * h - 0))%Z)
        with true by lia. f_equal; lia.
    - replace (Z.of_nat (l * h + i) - Z.of_nat ((l + 1) * h))%Z
        with (Z.of_nat (i - h)) by nia.
      unfold pyindex.
      replace ((0 <=? Z.of_nat (i - h))%Z
        && (Z.of_nat (i - h) <? Z.of_nat (2 * h - h))%Z) with true by lia.
      f_equal; lia. }
  rewrite Hpi. cbn [bind]. rewrite (Hnv i Hi). cbn [bind].
  assert (Hup : upto i m i = m) by (unfold upto; replace (i <? i) with false by lia; reflexivity).
  rewrite Hup.
  assert (HNZ : (Z.of_nat (m + 1) - Z.of_nat i - badn l i m
                = Z.of_nat (length (pairs l i m)) + 1)%Z)
    by (unfold badn; lia).
  rewrite HNZ.
  pose proof (pairs_S l i m Him) as HPS.
  destruct (has_nan (blk l (m - i)) || has_nan (blk l m)) eqn:Hbad.
  - (* bad pair *)
    assert (Hg : gd l (m - i) && gd l m = false) by (unfold gd; lia).
    rewrite Hg, app_nil_r in HPS.
    destruct (upd_some nrow (i - imin l) (badn l i m + 1)%Z ltac:(lia)) as [nrow' En].
    rewrite En. cbn [bind].
    assert (Hll : l < length (norm s)) by (apply nth_error_Some; rewrite Hn; discriminate).
    destruct (upd_some (norm s) l nrow' Hll) as [norm' Enn].
    rewrite Enn. cbn [bind].
    eexists; split; [reflexivity|].
    unfold LoopInv, set_norm; cbn [buf ipl track cur norm G past fut].
    assert (Hacc : forall arr f, accs arr f l (upto i m) -> accs arr f l (upto (i + 1) m)).
    { intros arr f HA j Hj. rewrite (HA j Hj). unfold upto.
      destruct (Nat.eq_dec j i) as [->|Hne].
      - replace (i <? i) with false by lia. replace (i <? i + 1) with true by lia.
        rewrite HPS; reflexivity.
      - replace (j <? i + 1) with (j <? i) by lia. reflexivity. }
    split; [exact E1|]. split; [exact E2|]. split; [exact E3|]. split; [exact E4|].
    split.
    { exists nrow'. cbn [norm]. split; [eapply upd_nth_eq; eauto|].
      split; [rewrite (upd_length _ _ _ _ En); exact Hnl|].
      intros j Hj. destruct (Nat.eq_dec j i) as [->|Hne].
      - rewrite (upd_nth_eq _ _ _ _ En). f_equal.
        unfold upto. replace (i <? i + 1) with true by lia.
        unfold badn. rewrite HPS. pose proof (pairs_le l i m). lia.
      - rewrite (upd_nth_ne _ _ _ _ _ En) by lia.
        rewrite (Hnv j Hj). unfold upto.
        replace (j <? i + 1) with (j <? i) by lia. reflexivity. }
    split; [repeat split; apply Hacc; assumption|].
    split.
    { intros l' Hl'. rewrite (upd_nth_ne _ _ _ _ _ Enn) by exact Hl'. auto. }
    exact Hfr.
  - (* good pair *)
    assert (Hg : gd l (m - i) && gd l m = true) by (unfold gd; lia).
    replace (Z.of_nat (length (pairs l i m)) + 1 =? 0)%Z with false by lia.
    destruct (acc_at_spec (G s) l i m (fG l) i
                (vmap2 pmul (blk l (m - i)) (blk l m))
                (Z.of_nat (length (pairs l i m)) + 1)%Z HG)
      as (g' & Eg & HG' & HGf); auto.
    { rewrite vmap2_length; rewrite !blk_len; reflexivity. }
    { intros r; unfold fG. replace (m - i + i) with m by lia. reflexivity. }
    destruct (acc_at_spec (past s) l i m (fP l) i (blk l (m - i))
                (Z.of_nat (length (pairs l i m)) + 1)%Z HP)
      as (p' & Ep & HP' & HPf); auto.
    destruct (acc_at_spec (fut s) l i m (fF l) i (blk l m)
                (Z.of_nat (length (pairs l i m)) + 1)%Z HF)
      as (f' & Ef & HF' & HFf); auto.
    { intros r; unfold fF. replace (m - i + i) with m by lia. reflexivity. }
    rewrite Eg; cbn [bind]. rewrite Ep; cbn [bind]. rewrite Ef; cbn [bind].
    eexists; split; [reflexivity|].
    unfold LoopInv, set_acc; cbn [buf ipl track cur norm G past fut].
    split; [exact E1|]. split; [exact E2|]. split; [exact E3|]. split; [exact E4|].
    split.
    { exists nrow. cbn [norm]. split; [exact Hn|]. split; [exact Hnl|].
      intros j Hj. rewrite (Hnv j Hj). unfold upto.
      destruct (Nat.eq_dec j i) as [->|Hne].
      - replace (i <? i) with false by lia. replace (i <? i + 1) with true by lia.
        unfold badn. rewrite HPS, Hg, app_length; cbn [length].
        f_equal. pose proof (pairs_le l i m). lia.
      - replace (j <? i + 1) with (j <? i) by lia. reflexivity. }
    split; [repeat split; assumption|].
    split; [exact Hfn|].
    intros t Ht.
    assert (Hne : t <> l * h + i) by (intros ->; apply Ht; exists i; auto).
    destruct (Hfr t Ht) as (a & b & d).
    rewrite HGf, HPf, HFf by exact Hne. auto.
Qed.

Lemma loop_ok s0 l m n i s :
  l < L -> imin l <= i -> i + n <= nb -> i + n <= m + 1 ->
  bufs s0 l (m + 1) -> LoopInv s0 s l m i ->
  exists s', foldM (otp_body c l (curval l (m + 1) - 1) (m + 1)) (seq i n) s = Some s' /\
             LoopInv s0 s' l m (i + n).
Proof.
  revert i s; induction n as [|n IH]; intros i s Hl Hi H1 H2 Hb HI.
  - exists s; cbn. replace (i + 0) with i by lia. auto.
  - cbn [seq foldM].
    destruct (body_ok s0 s l m i Hl ltac:(lia) ltac:(lia) Hb HI) as (s1 & E1 & HI1).
    rewrite E1; cbn [bind].
    replace (i + 1) with (S i) in HI1 by lia.
    destruct (IH (S i) s1 Hl ltac:(lia) ltac:(lia) ltac:(lia) Hb HI1) as (s2 & E2 & HI2).
    exists s2. split; [exact E2|]. replace (i + S n) with (S i + n) by lia. exact HI2.
Qed.

(** Processing a level whose newest block has just been written. *)
Lemma process_ok s l m :
  l < L ->
  nth_error (ipl s) l = Some m ->
  nth_error (cur s) l = Some (curval l (m + 1)) ->
  bufs s l (m + 1) -> norms s l (fun _ => m) -> accs3 s l (fun _ => m) ->
  exists s', one_time_process c l (curval l (m + 1) - 1) s = Some s' /\
    LevInv s' l (m + 1) /\ Frame l s s' /\ track s' = track s.
Proof.
  intros Hl Hi Hc Hb Hn Ha.
  unfold one_time_process. rewrite Hi. cbn [bind].
  assert (Hll : l < length (ipl s)) by (apply nth_error_Some; rewrite Hi; discriminate).
  destruct (upd_some (ipl s) l (m + 1) Hll) as [ipl' Ei]. rewrite Ei. cbn [bind].
  change (num_bufs c) with nb.
  set (s0 := set_ipl s ipl').
  replace (if l =? 0 then 0 else nb / 2) with (imin l).
  2:{ unfold imin, nb. destruct (l =? 0); [reflexivity|].
      rewrite Nat.mul_comm, Nat.div_mul; lia. }
  assert (Hlow : forall i, imin l <= i -> upto (imin l) m i = m)
    by (intros i Hii; unfold upto; replace (i <? imin l) with false by lia; reflexivity).
  assert (HI0 : LoopInv s0 s0 l m (imin l)).
  { unfold LoopInv. repeat (split; [reflexivity|]).
    split.
    { destruct Hn as (nrow & A & B & D). exists nrow. split; [exact A|].
      split; [exact B|]. intros i Hii. rewrite Hlow by lia. auto. }
    split.
    { destruct Ha as (A & B & D). repeat split; intros i Hii; rewrite Hlow by lia; auto. }
    split; [reflexivity|]. intros; repeat split; reflexivity. }
  assert (Hb0 : bufs s0 l (m + 1)) by exact Hb.
  (* conclusion from a final loop invariant *)
  assert (Hfin : forall s' ic, LoopInv s0 s' l m ic ->
            (forall i, imin l <= i < nb -> ic <= i -> m + 1 <= i) ->
            LevInv s' l (m + 1) /\ Frame l s s' /\ track s' = track s).
  { intros s' ic (E1 & E2 & E3 & E4 & (nr & A1 & A2 & A3) & (HG & HP & HF) & Hfn & Hfr) Hic.
    assert (Hpairs : forall i, imin l <= i < nb ->
              pairs l i (upto ic m i) = pairs l i (m + 1)).
    { intros i Hii. unfold upto. destruct (i <? ic) eqn:Ei'; [reflexivity|].
      rewrite !pairs_unreached; auto; specialize (Hic i Hii); lia. }
    split; [|split].
    - split. { rewrite E2. cbn [s0 set_ipl ipl]. eapply upd_nth_eq; eauto. }
      split. { rewrite E4. exact Hc. }
      split. { destruct Hb as (br & B1 & B2 & B3). exists br. rewrite E1. auto. }
      split.
      { exists nr. split; [exact A1|]. split; [exact A2|].
        intros i Hii. rewrite (A3 i Hii). f_equal.
        unfold badn. rewrite Hpairs by exact Hii.
        unfold upto. destruct (i <? ic) eqn:Ei'; [reflexivity|].
        specialize (Hic i Hii). lia. }
      repeat split; intros i Hii.
      + rewrite (HG i Hii), Hpairs by exact Hii; reflexivity.
      + rewrite (HP i Hii), Hpairs by exact Hii; reflexivity.
      + rewrite (HF i Hii), Hpairs by exact Hii; reflexivity.
    - split.
      + intros l' Hl'. rewrite E2, E4, E1, E3. cbn [s0 set_ipl ipl cur buf track norm].
        rewrite (upd_nth_ne _ _ _ _ _ Ei) by exact Hl'.
        rewrite Hfn by exact Hl'. repeat split; reflexivity.
      + intros t Ht. apply Hfr; exact Ht.
    - rewrite E3; reflexivity. }
  destruct (Nat.le_gt_cases (Nat.min (m + 1) nb) (imin l)) as [Hsmall|Hbig].
  - replace (Nat.min (m + 1) nb - imin l) with 0 by lia. cbn [seq foldM].
    exists s0. split; [reflexivity|]. apply (Hfin s0 (imin l) HI0).
    intros i Hii _. assert (imin l < nb) by (unfold imin, nb; destruct (l =? 0); lia). lia.
  - destruct (loop_ok s0 l m (Nat.min (m + 1) nb - imin l) (imin l) s0 Hl
                ltac:(lia) ltac:(lia) ltac:(lia) Hb0 HI0) as (s' & E & HI).
    exists s'. split; [exact E|]. apply (Hfin s' _ HI). intros i Hii Hge. lia.
Qed.

(* ------------------------------------------------------------------ *)
(** * Writing a block, then processing *)
Lemma set_buf_ok s l m idx v :
  l < L -> bufs s l m -> pyindex (Z.of_nat nb) idx = Some ((m + 1) mod nb) ->
  v = blk l m ->
  exists s', set_buf_at s l idx v = Some s' /\ bufs s' l (m + 1) /\
    G s' = G s /\ past s' = past s /\ fut s' = fut s /\ ipl s' = ipl s /\
    track s' = track s /\ cur s' = cur s /\ norm s' = norm s /\
    (forall l', l' <> l -> nth_error (buf s') l' = nth_error (buf s) l').
Proof.
  intros Hl (br & Hb & Hlen & Hk) Hidx ->.
  unfold set_buf_at. rewrite Hb. cbn [bind]. rewrite Hlen, Hidx. cbn [bind].
  assert (Hr : (m + 1) mod nb < length br)
    by (rewrite Hlen; apply Nat.mod_upper_bound; unfold nb; lia).
  destruct (upd_some br _ (blk l m) Hr) as [br' E]. rewrite E. cbn [bind].
  assert (Hll : l < length (buf s)) by (apply nth_error_Some; rewrite Hb; discriminate).
  destruct (upd_some (buf s) l br' Hll) as [b' E']. rewrite E'. cbn [bind].
  eexists; split; [reflexivity|]. cbn [set_buf G past fut ipl track cur norm buf].
  split.
  - exists br'. cbn [buf]. split; [eapply upd_nth_eq; eauto|].
    split; [rewrite (upd_length _ _ _ _ E); exact Hlen|].
    intros k Hkm Hkn. destruct (Nat.eq_dec k m) as [->|Hne].
    + eapply upd_nth_eq; eauto.
    + rewrite (upd_nth_ne _ _ _ _ _ E).
      * apply Hk; lia.
      * intros Heq.
        (* k and m are less than nb apart, so slots differ *)
        assert (Hnb0 : nb <> 0) by (unfold nb; lia).
        pose proof (Nat.div_mod (k + 1) nb Hnb0) as D1.
        pose proof (Nat.div_mod (m + 1) nb Hnb0) as D2.
        rewrite Heq in D1.
        assert ((k + 1) / nb < (m + 1) / nb \/ (k+1)/nb >= (m+1)/nb) by lia.
        nia.
  - repeat split; try reflexivity.
    intros l' Hl'. eapply upd_nth_ne; eauto.
Qed.

Lemma level0_ok s m img :
  LevInv s 0 m -> img = blk 0 m ->
  exists s1 s2 cur',
    nth_error (cur s) 0 = Some (curval 0 m) /\
    upd (cur s) 0 (curval 0 (m + 1)) = Some cur' /\
    set_buf_at (set_cur s cur') 0 (curval 0 (m + 1) - 1) img = Some s1 /\
    one_time_process c 0 (curval 0 (m + 1) - 1) s1 = Some s2 /\
    LevInv s2 0 (m + 1) /\ Frame 0 s s2 /\ track s2 = track s.
Proof.
  intros (H1 & H2 & H3 & H4 & H5) ->.
  assert (Hll : 0 < length (cur s)) by (apply nth_error_Some; rewrite H2; discriminate).
  destruct (upd_some (cur s) 0 (curval 0 (m + 1)) Hll) as [cur' Ec].
  destruct (set_buf_ok (set_cur s cur') 0 m (curval 0 (m + 1) - 1) (blk 0 m))
    as (s1 & E1 & B1 & F1 & F2 & F3 & F4 & F5 & F6 & F7 & F8); auto.
  { apply pyindex_slot. }
  destruct (process_ok s1 0 m) as (s2 & E2 & I2 & Fr2 & T2); auto.
  { rewrite F4; exact H1. }
  { rewrite F6; cbn [set_cur cur]. eapply upd_nth_eq; eauto. }
  { destruct H4 as (nr & A & B). exists nr. rewrite F7. auto. }
  { destruct H5 as (A & B & D). repeat split; intros i Hi;
      [rewrite F1|rewrite F2|rewrite F3]; auto. }
  exists s1, s2, cur'. split; [exact H2|]. split; [exact Ec|]. split; [exact E1|].
  split; [exact E2|]. split; [exact I2|]. split.
  - eapply Frame_trans; [|exact Fr2]. split.
    + intros l' Hl'. rewrite F4, F6, F7, F5. cbn [set_cur cur ipl norm track].
      rewrite (upd_nth_ne _ _ _ _ _ Ec) by exact Hl'.
      rewrite F8 by exact Hl'. cbn. repeat split; reflexivity.
    + intros t Ht. rewrite F1, F2, F3. cbn. repeat split; reflexivity.
  - rewrite T2, F5. reflexivity.
Qed.

Lemma curval_S l m : l <> 0 ->
  (1 + curval l m mod Z.of_nat nb)%Z = curval l (m + 1).
Proof.
  intros Hl. unfold curval. destruct (Nat.eqb_spec l 0) as [|_]; [lia|].
  rewrite Zplus_mod_idemp_r. f_equal. f_equal. lia.
Qed.

Lemma curval_0S m :
  ((1 + curval 0 m) mod Z.of_nat nb)%Z = curval 0 (m + 1).
Proof.
  unfold curval; cbn [Nat.eqb]. rewrite Zplus_mod_idemp_r. f_equal. lia.
Qed.

Lemma get_buf_ok s l m k idx :
  bufs s l m -> k < m -> m <= k + nb ->
  pyindex (Z.of_nat nb) idx = Some ((k + 1) mod nb) ->
  get_buf_at s l idx = Some (blk l k).
Proof.
  intros (br & Hb & Hlen & Hk) H1 H2 Hi.
  unfold get_buf_at. rewrite Hb; cbn [bind]. rewrite Hlen, Hi; cbn [bind]. auto.
Qed.

(** One pass of the while loop at level [S l], when the level below has just
    completed an even number of blocks. *)
Lemma levelS_ok s l m :
  S l < L ->
  LevInv s (S l) m -> LevInv s l (2 * (m + 1)) ->
  nth_error (track s) (S l) = Some true ->
  exists a b cur' s1 t' s2,
    get_buf_at s l (1 + (curval l (2 * (m + 1)) - 2) mod Z.of_nat nb - 1)%Z = Some a /\
    get_buf_at s l (curval l (2 * (m + 1)) - 1)%Z = Some b /\
    upd (cur s) (S l) (curval (S l) (m + 1)) = Some cur' /\
    set_buf_at (set_cur s cur') (S l) (curval (S l) (m + 1) - 1) (vmap2 pavg a b) = Some s1 /\
    upd (track s1) (S l) false = Some t' /\
    one_time_process c (S l) (curval (S l) (m + 1) - 1) (set_track s1 t') = Some s2 /\
    LevInv s2 (S l) (m + 1) /\ Frame (S l) s s2 /\
    nth_error (track s2) (S l) = Some false.
Proof.
  intros HSl (H1 & H2 & H3 & H4 & H5) (_ & _ & P3 & _) Ht.
  exists (blk l (2 * m)), (blk l (2 * m + 1)).
  assert (Hll : S l < length (cur s)) by (apply nth_error_Some; rewrite H2; discriminate).
  destruct (upd_some (cur s) (S l) (curval (S l) (m + 1)) Hll) as [cur' Ec].
  exists cur'.
  destruct (set_buf_ok (set_cur s cur') (S l) m (curval (S l) (m + 1) - 1) (blk (S l) m))
    as (s1 & E1 & B1 & F1 & F2 & F3 & F4 & F5 & F6 & F7 & F8); auto.
  { apply pyindex_slot. }
  exists s1.
  assert (Htl : S l < length (track s1)).
  { rewrite F5. cbn [set_cur track]. apply nth_error_Some. rewrite Ht; discriminate. }
  destruct (upd_some (track s1) (S l) false Htl) as [t' Et]. exists t'.
  destruct (process_ok (set_track s1 t') (S l) m) as (s2 & E2 & I2 & Fr2 & T2); auto.
  { cbn [set_track ipl]. rewrite F4; exact H1. }
  { cbn [set_track cur]. rewrite F6; cbn [set_cur cur]. eapply upd_nth_eq; eauto. }
  { destruct H4 as (nr & A & B). exists nr. cbn [set_track norm]. rewrite F7. auto. }
  { destruct H5 as (A & B & D). repeat split; intros i Hi; cbn [set_track G past fut];
      [rewrite F1|rewrite F2|rewrite F3]; auto. }
  exists s2.
  split.
  { apply get_buf_ok with (m := 2 * (m + 1)); auto; try (unfold nb; lia).
    replace (1 + (curval l (2 * (m + 1)) - 2) mod Z.of_nat nb - 1)%Z
      with ((curval l (2 * (m + 1)) - 1 - Z.of_nat 1) mod Z.of_nat nb)%Z.
    2:{ replace (curval l (2 * (m + 1)) - 1 - Z.of_nat 1)%Z
          with (curval l (2 * (m + 1)) - 2)%Z by lia.
        ring. }
    rewrite pyindex_delay by (unfold nb; lia). f_equal. f_equal. lia. }
  split.
  { apply get_buf_ok with (m := 2 * (m + 1)); auto; try (unfold nb; lia).
    rewrite pyindex_slot. f_equal. f_equal. lia. }
  split; [exact Ec|].
  split; [rewrite <- blk_S; exact E1|].
  split; [exact Et|]. split; [exact E2|]. split; [exact I2|]. split.
  - eapply Frame_trans; [|exact Fr2]. split.
    + intros l' Hl'. cbn [set_track ipl cur buf norm track].
      rewrite F4, F6, F7. cbn [set_cur cur ipl norm track].
      rewrite (upd_nth_ne _ _ _ _ _ Ec) by exact Hl'.
      rewrite F8 by exact Hl'. cbn [set_cur buf].
      rewrite (upd_nth_ne _ _ _ _ _ Et) by exact Hl'. rewrite F5.
      repeat split; reflexivity.
    + intros t Htt. cbn [set_track G past fut]. rewrite F1, F2, F3.
      repeat split; reflexivity.
  - rewrite T2. cbn [set_track track]. eapply upd_nth_eq; eauto.
Qed.

(* ------------------------------------------------------------------ *)
(** * Whole-state invariant after [n] frames *)
Definition cnt (l n : nat) : nat := n / 2 ^ l.

Lemma cnt_0 n : cnt 0 n = n.
Proof. unfold cnt; cbn; apply Nat.div_1_r. Qed.
Lemma cnt_S l n : cnt (S l) n = cnt l n / 2.
Proof.
  unfold cnt. rewrite Nat.div_div by (try apply Nat.pow_nonzero; lia).
  f_equal. cbn. lia.
Qed.

Definition At (s : state) (l n : nat) : Prop :=
  LevInv s l (cnt l n) /\
  (forall l', l = S l' -> nth_error (track s) l = Some (Nat.odd (cnt l' n))).
Definition Inv (s : state) (n : nat) : Prop := forall l, l < L -> At s l n.

Lemma At_frame l s s' l' n :
  Frame l s s' -> l' <> l -> At s l' n -> At s' l' n.
Proof.
  intros HF Hne [A B]. split; [eapply Frame_LevInv; eauto|].
  intros l'' E. destruct HF as [HF _]. destruct (HF l' Hne) as (_ & _ & _ & _ & E').
  rewrite E'; auto.
Qed.

Lemma cnt_stay l n l' : l <= l' -> cnt l (n + 1) = cnt l n -> cnt l' (n + 1) = cnt l' n.
Proof.
  intros Hle E. induction Hle as [|l' Hle IH]; auto. rewrite !cnt_S, IH. reflexivity.
Qed.

Lemma level_loop_ok fuel : forall l n s,
  L <= S l + fuel -> S l < L ->
  cnt l (n + 1) = cnt l n + 1 ->
  (forall j, j < L -> j <= l -> At s j (n + 1)) ->
  (forall j, j < L -> l < j -> At s j n) ->
  exists s', level_loop fuel c (S l) s = Some s' /\ Inv s' (n + 1).
Proof.
  induction fuel as [|fuel IH]; intros l n s Hf Hl Hc Hlo Hhi; [lia|].
  cbn [level_loop].
  destruct (Hhi (S l) Hl ltac:(lia)) as [HI HT]. rewrite (HT l eq_refl). cbn [bind].
  destruct (Nat.odd (cnt l n)) eqn:Hodd; cbn [negb].
  - (* a complete pair: process level S l *)
    assert (Heven : cnt l (n + 1) = 2 * (cnt (S l) n + 1)).
    { rewrite Hc, cnt_S. apply Nat.odd_spec in Hodd. destruct Hodd as [q Hq]. lia. }
    destruct (Hlo l ltac:(lia) (le_n l)) as [HIl _]. rewrite Heven in HIl.
    destruct (levelS_ok s l (cnt (S l) n) Hl HI HIl (eq_trans (HT l eq_refl) (f_equal Some Hodd)))
      as (a & b & cur' & s1 & t' & s2 & Ea & Eb & Ec & E1 & Et & E2 & I2 & F2 & T2).
    replace (S l - 1) with l by lia.
    destruct HIl as (_ & Hcl & _). rewrite Hcl. cbn [bind].
    destruct HI as (_ & HcS & _). rewrite HcS. cbn [bind].
    change (num_bufs c) with nb. rewrite curval_S by lia.
    rewrite Ec. cbn [bind]. rewrite Ea; cbn [bind]. rewrite Eb; cbn [bind].
    rewrite E1; cbn [bind]. rewrite Et; cbn [bind]. rewrite E2; cbn [bind].
    change (num_levels c) with L.
    assert (HcS' : cnt (S l) (n + 1) = cnt (S l) n + 1).
    { rewrite (cnt_S l (n + 1)), Heven. rewrite Nat.mul_comm, Nat.div_mul; lia. }
    assert (Hlo2 : forall j, j < L -> j <= S l -> At s2 j (n + 1)).
    { intros j Hj Hjl. destruct (Nat.eq_dec j (S l)) as [->|Hne].
      - split; [rewrite HcS'; exact I2|].
        intros l' [= <-]. rewrite T2, Hc. f_equal.
        rewrite Nat.add_1_r, Nat.odd_succ, <- Nat.negb_odd, Hodd. reflexivity.
      - eapply At_frame; [exact F2|exact Hne|]. apply Hlo; lia. }
    assert (Hhi2 : forall j, j < L -> S l < j -> At s2 j n).
    { intros j Hj Hjl. eapply At_frame; [exact F2|lia|]. apply Hhi; lia. }
    destruct (Nat.ltb_spec (S (S l)) L) as [Hlt|Hge].
    + apply IH; auto; lia.
    + exists s2. split; [reflexivity|]. intros j Hj. apply Hlo2; lia.
  - (* remember an odd block *)
    assert (Hll : S l < length (track s)).
    { apply nth_error_Some. rewrite (HT l eq_refl); discriminate. }
    destruct (upd_some (track s) (S l) true Hll) as [t' Et]. rewrite Et. cbn [bind].
    eexists; split; [reflexivity|].
    assert (Hstay : cnt (S l) (n + 1) = cnt (S l) n).
    { rewrite !cnt_S, Hc. rewrite <- Nat.negb_even in Hodd.
      apply negb_false_iff in Hodd. apply Nat.even_spec in Hodd. destruct Hodd as [q Hq]. lia. }
    intros j Hj. destruct (Nat.le_gt_cases j l) as [Hjl|Hjl].
    + destruct (Hlo j Hj Hjl) as [A B]. split; [exact A|].
      intros l' E. cbn [set_track track]. rewrite (upd_nth_ne _ _ _ _ _ Et) by lia. auto.
    + destruct (Hhi j Hj Hjl) as [A B]. split.
      * rewrite (cnt_stay (S l)) by (auto; lia). exact A.
      * intros l' E. cbn [set_track track].
        destruct (Nat.eq_dec j (S l)) as [->|Hne].
        -- injection E as <-. rewrite (upd_nth_eq _ _ _ _ Et). f_equal.
           rewrite Hc, Nat.add_1_r, Nat.odd_succ, <- Nat.negb_odd, Hodd. reflexivity.
        -- rewrite (upd_nth_ne _ _ _ _ _ Et) by exact Hne.
           rewrite (B l' E). rewrite (cnt_stay (S l) n l') by (auto; lia). reflexivity.
Qed.

Lemma step_ok s n img :
  Inv s n -> img = blk 0 n ->
  exists s', step c s img = Some s' /\ Inv s' (n + 1).
Proof.
  intros HI Himg. destruct (HI 0 ltac:(lia)) as [HI0 _]. rewrite cnt_0 in HI0.
  destruct (level0_ok s n img HI0 Himg) as (s1 & s2 & cur' & E0 & Ec & E1 & E2 & I2 & F2 & _).
  unfold step. rewrite E0; cbn [bind].
  change (num_bufs c) with nb. rewrite curval_0S.
  rewrite Ec; cbn [bind]. rewrite E1; cbn [bind]. rewrite E2; cbn [bind].
  change (num_levels c) with L.
  assert (Hlo : forall j, j < L -> j <= 0 -> At s2 j (n + 1)).
  { intros j Hj Hj0. replace j with 0 by lia. split; [rewrite cnt_0; exact I2|].
    intros l' E; discriminate. }
  assert (Hhi : forall j, j < L -> 0 < j -> At s2 j n).
  { intros j Hj Hj0. eapply At_frame; [exact F2|lia|]. apply HI; exact Hj. }
  destruct (Nat.ltb_spec 1 L) as [Hlt|Hge].
  - apply level_loop_ok; auto; try lia. rewrite !cnt_0; reflexivity.
  - exists s2. split; [reflexivity|]. intros j Hj. apply Hlo; lia.
Qed.

Lemma nth_error_repeat' {A} (x : A) n k : k < n -> nth_error (repeat x n) k = Some x.
Proof. apply nth_error_repeat. Qed.

Lemma init_ok : Inv (init_state c) 0.
Proof.
  intros l Hl.
  assert (Hc0 : forall l', cnt l' 0 = 0).
  { intros l'. unfold cnt. apply Nat.div_0_l, Nat.pow_nonzero; lia. }
  split.
  2:{ intros l' ->. rewrite Hc0. unfold init_state; cbn [track].
      change (num_levels c) with L. rewrite nth_error_repeat' by exact Hl. reflexivity. }
  rewrite Hc0. unfold init_state. change (num_levels c) with L. change (num_bufs c) with nb.
  change (num_pixels c) with (bincount_n labels).
  replace (length (bincount_n labels)) with K
    by (unfold bincount_n; rewrite map_length, seq_length; reflexivity).
  assert (Hnb : 2 <= nb) by (unfold nb; lia).
  split; [cbn [ipl]; apply nth_error_repeat'; exact Hl|].
  split.
  { cbn [cur]. rewrite nth_error_repeat' by exact Hl. f_equal.
    unfold curval. destruct (l =? 0).
    - rewrite Z.mod_small; lia.
    - rewrite Z.mod_0_l; lia. }
  split.
  { eexists. cbn [buf]. split; [apply nth_error_repeat'; exact Hl|].
    split; [apply repeat_length|]. intros k Hk; lia. }
  split.
  { cbn [norm]. unfold norms. cbn [norm].
    exists (repeat 0%Z (nb - imin l)). split; [|split; [apply repeat_length|]].
    - change (lev_len c) with (nb :: repeat h (L - 1)).
      rewrite nth_error_map. unfold imin. destruct l as [|l].
      + cbn [nth_error option_map Nat.eqb]. f_equal. f_equal. lia.
      + cbn [nth_error Nat.eqb]. rewrite nth_error_repeat' by lia. cbn [option_map].
        f_equal. f_equal. unfold nb; lia.
    - intros i Hi. rewrite nth_error_repeat' by lia. reflexivity. }
  assert (Hrow : forall f i, row f (pairs l i 0) = repeat 0%Qc K).
  { intros f i. unfold pairs; cbn. unfold row; cbn.
    change (mean []) with 0%Qc. generalize 1.
    induction K as [|k IH]; intros a; cbn; [reflexivity|rewrite IH; reflexivity]. }
  assert (Hrange : forall i, imin l <= i < nb -> l * h + i < (L + 1) * nb / 2).
  { intros i Hi. rewrite half_mul. unfold imin, nb in *. nia. }
  repeat split; intros i Hi; cbn [G past fut];
    rewrite Hrow, nth_error_repeat' by auto; reflexivity.
Qed.

(** Running the frames [blk 0 a, .. , blk 0 (a+n-1)]. *)
Lemma run_ok n : forall a s, Inv s a ->
  exists s', foldM (step c) (map (blk 0) (seq a n)) s = Some s' /\ Inv s' (a + n).
Proof.
  induction n as [|n IH]; intros a s HI; cbn [seq map foldM].
  - exists s. rewrite Nat.add_0_r. auto.
  - destruct (step_ok s a (blk 0 a) HI eq_refl) as (s1 & E & HI1).
    rewrite E; cbn [bind]. destruct (IH (S a) s1) as (s2 & E2 & HI2).
    { replace (S a) with (a + 1) by lia; exact HI1. }
    exists s2. split; [exact E2|]. replace (a + S n) with (S a + n) by lia. exact HI2.
Qed.

End Correlator.
