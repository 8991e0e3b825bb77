From Verif Require Import Common MultiTau_Model MultiTau_Spec MultiTau_Labels MultiTau_Proofs
  MultiTau_Main TwoTime_Model.
From Coq Require Import ZifyBool ZifyNat.

(* ------------------------------------------------------------------ *)
(** * The square array *)
Definition cell (g : mat) (a b : nat) : option vec :=
  row <- nth_error g a ;; nth_error row b.
Definition sq (n : nat) (g : mat) : Prop :=
  length g = n /\ forall a row, nth_error g a = Some row -> length row = n.

Lemma pyindex_nat n a : a < n -> pyindex (Z.of_nat n) (Z.of_nat a) = Some a.
Proof.
  intros H. unfold pyindex.
  replace ((0 <=? Z.of_nat a)%Z && (Z.of_nat a <? Z.of_nat n)%Z) with true by lia.
  f_equal; lia.
Qed.
Lemma pyindex_big n a : n <= a -> pyindex (Z.of_nat n) (Z.of_nat a) = None.
Proof.
  intros H. unfold pyindex.
  replace ((0 <=? Z.of_nat a)%Z && (Z.of_nat a <? Z.of_nat n)%Z) with false by lia.
  replace ((- Z.of_nat n <=? Z.of_nat a)%Z && (Z.of_nat a <? 0)%Z) with false by lia.
  reflexivity.
Qed.

Lemma write_ok n g a b v : sq n g -> a < n -> b < n ->
  exists g', write g (Z.of_nat a) (Z.of_nat b) v = Some g' /\ sq n g' /\
    cell g' a b = Some v /\
    forall a' b', (a' <> a \/ b' <> b) -> cell g' a' b' = cell g a' b'.
Proof.
  intros [Hl Hr] Ha Hb. unfold write. rewrite Hl, pyindex_nat by exact Ha. cbn [bind].
  destruct (nth_error g a) as [row|] eqn:Er.
  2:{ apply nth_error_None in Er; lia. }
  cbn [bind]. rewrite (Hr _ _ Er), pyindex_nat by exact Hb. cbn [bind].
  destruct (upd_some row b v) as [row' E1]; [rewrite (Hr _ _ Er); exact Hb|].
  rewrite E1; cbn [bind].
  destruct (upd_some g a row') as [g' E2]; [lia|].
  exists g'. split; [exact E2|]. split; [|split].
  - split; [rewrite (upd_length _ _ _ _ E2); exact Hl|].
    intros a' row2 Hrow2. destruct (Nat.eq_dec a' a) as [->|Hne].
    + rewrite (upd_nth_eq _ _ _ _ E2) in Hrow2. injection Hrow2 as <-.
      rewrite (upd_length _ _ _ _ E1). eapply Hr; eauto.
    + rewrite (upd_nth_ne _ _ _ _ _ E2) in Hrow2 by exact Hne. eapply Hr; eauto.
  - unfold cell. rewrite (upd_nth_eq _ _ _ _ E2). cbn [bind]. eapply upd_nth_eq; eauto.
  - intros a' b' Hne. unfold cell. destruct (Nat.eq_dec a' a) as [->|Hna].
    + rewrite (upd_nth_eq _ _ _ _ E2), Er. cbn [bind].
      eapply upd_nth_ne; [exact E1|]. lia.
    + rewrite (upd_nth_ne _ _ _ _ _ E2) by exact Hna. reflexivity.
Qed.

Lemma write_out n g a b v : sq n g -> n <= a -> write g (Z.of_nat a) b v = None.
Proof. intros [Hl _] H. unfold write. rewrite Hl, pyindex_big by exact H. reflexivity. Qed.

(** Writing a diagonal run of cells. *)
Lemma writes_ok n v a0 b0 (A B : nat -> Z) : forall js g,
  sq n g ->
  (forall j, In j js -> A j = Z.of_nat (a0 + j) /\ B j = Z.of_nat (b0 + j) /\ a0 + j < n /\ b0 + j < n) ->
  exists g', foldM (fun g j => write g (A j) (B j) v) js g = Some g' /\ sq n g' /\
    (forall j, In j js -> cell g' (a0 + j) (b0 + j) = Some v) /\
    (forall a b, (forall j, In j js -> a = a0 + j -> b = b0 + j -> False) ->
       cell g' a b = cell g a b).
Proof.
  induction js as [|j js IH]; intros g Hg H; cbn [foldM].
  - exists g. split; [reflexivity|]. split; [exact Hg|]. split; [intros j []|]. auto.
  - destruct (H j (or_introl eq_refl)) as (EA & EB & H1 & H2). rewrite EA, EB.
    destruct (write_ok n g (a0 + j) (b0 + j) v Hg H1 H2) as (g1 & E1 & Hg1 & Hc & Ho).
    rewrite E1; cbn [bind].
    destruct (IH g1 Hg1 (fun j0 Hj => H j0 (or_intror Hj))) as (g2 & E2 & Hg2 & Hc2 & Ho2).
    exists g2. split; [exact E2|]. split; [exact Hg2|]. split.
    + intros j0 [<-|Hj]; [|apply Hc2; exact Hj].
      destruct (in_dec Nat.eq_dec j js) as [Hin|Hnin]; [apply Hc2; exact Hin|].
      rewrite Ho2; [exact Hc|]. intros j0 Hj Ha Hb. assert (j = j0) by lia. subst; auto.
    + intros a b Hno. rewrite Ho2.
      * apply Ho. destruct (Nat.eq_dec a (a0 + j)); [|lia].
        destruct (Nat.eq_dec b (b0 + j)); [|lia]. exfalso. eapply Hno; [left; reflexivity|auto|auto].
      * intros j0 Hj. apply Hno. right; exact Hj.
Qed.

Lemma cnt_S' l n : cnt (S l) n = cnt l n / 2.
Proof.
  unfold cnt. rewrite Nat.div_div by (try apply Nat.pow_nonzero; lia).
  f_equal. cbn. lia.
Qed.
Lemma cnt_stay' l n l' : l <= l' -> cnt l (n + 1) = cnt l n -> cnt l' (n + 1) = cnt l' n.
Proof.
  intros Hle E. induction Hle as [|l' Hle IH]; auto. rewrite !cnt_S', IH. reflexivity.
Qed.

Section TwoTime.
Variable h L nf : nat.
Variable labels : list nat.
Variable pl : list nat.
Hypothesis Hh : 1 <= h.
Hypothesis HL : 1 <= L.
Let nb := 2 * h.
Definition lags2 := seq 0 nb ++ concat (map (level_lags nb) (seq 2 (L - 1))).
Let c := mkcfg h L labels pl lags2.
Let P := length labels.
Variable blk : nat -> nat -> vec.
Hypothesis blk_len : forall l k, length (blk l k) = P.
Hypothesis blk_S : forall l k,
  blk (S l) k = vmap2 pavg (blk l (2 * k)) (blk l (2 * k + 1)).

Definition V l k i : vec :=
  cell_values labels (bincount_n labels) (blk l (k - i)) (blk l k).

(** Doubled time stamp of block k of level l. *)
Definition T l k : Z := (2 * Z.of_nat k * 2 ^ Z.of_nat l + 2 ^ Z.of_nat l + 1)%Z.

Lemma nb_even : nb mod 2 = 0.
Proof. unfold nb. rewrite Nat.mul_comm. apply Nat.mod_mul. lia. Qed.
Lemma nb_half : nb / 2 = h.
Proof. unfold nb. rewrite Nat.mul_comm. apply Nat.div_mul. lia. Qed.

Lemma is_lag_iff l i : is_lag nb L l i <-> l < L /\ imin h l <= i < nb.
Proof.
  unfold is_lag, imin. rewrite nb_half. destruct (Nat.eqb_spec l 0); split; intros; lia.
Qed.

Lemma pow2Z l : (2 ^ Z.of_nat l)%Z = Z.of_nat (2 ^ l).
Proof.
  induction l as [|l IH]; [reflexivity|].
  rewrite Nat2Z.inj_succ, Z.pow_succ_r by lia. rewrite IH. cbn [Nat.pow]. lia.
Qed.

Lemma quot_half z : (0 <= z)%Z -> Z.quot (2 * z + 1) 2 = z.
Proof. intros H. rewrite Z.quot_div_nonneg by lia. lia. Qed.
Lemma quot_dbl z : (0 <= z)%Z -> Z.quot (2 * z) 2 = z.
Proof. intros H. rewrite Z.quot_div_nonneg by lia. lia. Qed.

Lemma write_lag_ok l k i v g :
  sq nf g -> i <= k -> (k + 1) * 2 ^ l <= nf ->
  exists g', write_lag l (T l k) (Z.of_nat (i * 2 ^ l)) v g = Some g' /\ sq nf g' /\
    (forall s, s < 2 ^ l -> cell g' (k * 2 ^ l + s) ((k - i) * 2 ^ l + s) = Some v) /\
    (forall a b, (forall s, s < 2 ^ l -> a = k * 2 ^ l + s -> b = (k - i) * 2 ^ l + s -> False) ->
       cell g' a b = cell g a b).
Proof.
  intros Hg Hi Hn. unfold write_lag. destruct (Nat.eqb_spec l 0) as [->|Hl].
  - replace (Z.quot (T 0 k - 2) 2) with (Z.of_nat k).
    2:{ unfold T. cbn [Z.of_nat Z.pow]. replace (2 * Z.of_nat k * 1 + 1 + 1 - 2)%Z
          with (2 * Z.of_nat k)%Z by lia. symmetry; apply quot_dbl; lia. }
    replace (Z.quot (T 0 k - 2 * Z.of_nat (i * 2 ^ 0) - 2) 2) with (Z.of_nat (k - i)).
    2:{ unfold T. cbn [Z.of_nat Z.pow Nat.pow].
        replace (2 * Z.of_nat k * 1 + 1 + 1 - 2 * Z.of_nat (i * 1) - 2)%Z
          with (2 * Z.of_nat (k - i))%Z by lia. symmetry; apply quot_dbl; lia. }
    cbn [Nat.pow] in *.
    destruct (write_ok nf g k (k - i) v Hg ltac:(lia) ltac:(lia)) as (g' & E & Hg' & Hc & Ho).
    exists g'. split; [exact E|]. split; [exact Hg'|]. split.
    + intros s Hs. replace s with 0 by lia. rewrite !Nat.mul_1_r, !Nat.add_0_r. exact Hc.
    + intros a b Hno. apply Ho. specialize (Hno 0 ltac:(lia)). lia.
  - destruct (writes_ok nf v (k * 2 ^ l) ((k - i) * 2 ^ l)
      (fun j => Z.quot (T l k - 2 + 2 * (Z.of_nat j - Z.of_nat (2 ^ (l - 1)) + 1)) 2)
      (fun j => Z.quot (T l k - 2 * Z.of_nat (i * 2 ^ l) - 2
                        + 2 * (Z.of_nat j - Z.of_nat (2 ^ (l - 1)) + 1)) 2)
      (seq 0 (2 * 2 ^ (l - 1))) g Hg) as (g' & E & Hg' & Hc & Ho).
    + intros j Hj. apply in_seq in Hj.
      assert (Hp : 2 * 2 ^ (l - 1) = 2 ^ l).
      { replace l with (S (l - 1)) at 2 by lia. reflexivity. }
      assert (HA : (T l k - 2 + 2 * (Z.of_nat j - Z.of_nat (2 ^ (l - 1)) + 1)
                    = 2 * Z.of_nat (k * 2 ^ l + j) + 1)%Z).
      { unfold T. rewrite pow2Z. nia. }
      assert (HB : (T l k - 2 * Z.of_nat (i * 2 ^ l) - 2 + 2 * (Z.of_nat j - Z.of_nat (2 ^ (l - 1)) + 1)
                    = 2 * Z.of_nat ((k - i) * 2 ^ l + j) + 1)%Z).
      { unfold T. rewrite pow2Z. nia. }
      rewrite HA, HB, !quot_half by lia. repeat split; nia.
    + exists g'. split; [exact E|]. split; [exact Hg'|].
      assert (Hp : 2 * 2 ^ (l - 1) = 2 ^ l).
      { replace l with (S (l - 1)) at 2 by lia. reflexivity. }
      rewrite Hp in *. split.
      * intros s Hs. apply Hc. apply in_seq; lia.
      * intros a b Hno. apply Ho. intros j Hj. apply in_seq in Hj. apply Hno. lia.
Qed.

(** What the array contains when level [l] has processed [M l] blocks. *)
Definition GInv (g : mat) (M : nat -> nat) : Prop :=
  sq nf g /\
  (forall l i k s, is_lag nb L l i -> k < M l -> i <= k -> s < 2 ^ l ->
     cell g (k * 2 ^ l + s) ((k - i) * 2 ^ l + s) = Some (V l k i)) /\
  (forall a b, a < nf -> b < nf ->
     (forall l i k s, is_lag nb L l i -> k < M l -> i <= k -> s < 2 ^ l ->
        a = k * 2 ^ l + s -> b = (k - i) * 2 ^ l + s -> False) ->
     cell g a b = Some (repeat (Some 0%Qc) (max_label labels))).

(** A cell belongs to at most one (level, lag, block, offset). *)
Lemma coord_inj l i k s l' i' k' s' :
  is_lag nb L l i -> is_lag nb L l' i' -> i <= k -> i' <= k' -> s < 2 ^ l -> s' < 2 ^ l' ->
  k * 2 ^ l + s = k' * 2 ^ l' + s' ->
  (k - i) * 2 ^ l + s = (k' - i') * 2 ^ l' + s' -> l = l' /\ i = i' /\ k = k'.
Proof.
  intros Hi Hi' Hk Hk' Hs Hs' E1 E2.
  assert (Hlag : i * 2 ^ l = i' * 2 ^ l') by nia.
  assert (Hl : l = l').
  { apply is_lag_iff in Hi, Hi'. unfold imin, nb in *.
    pose proof (pow2_pos l). pose proof (pow2_pos l').
    destruct (Nat.lt_trichotomy l l') as [Hlt|[|Hgt]]; auto; exfalso.
    - assert (2 * 2 ^ l <= 2 ^ l').
      { replace (2 * 2 ^ l) with (2 ^ S l) by (cbn; lia). apply Nat.pow_le_mono_r; lia. }
      destruct (Nat.eqb_spec l' 0); [lia|]. nia.
    - assert (2 * 2 ^ l' <= 2 ^ l).
      { replace (2 * 2 ^ l') with (2 ^ S l') by (cbn; lia). apply Nat.pow_le_mono_r; lia. }
      destruct (Nat.eqb_spec l 0); [lia|]. nia. }
  subst l'. pose proof (pow2_pos l).
  assert (i = i') by nia. assert (k = k') by nia. auto.
Qed.

(** The loop over the lags of one level. *)
Lemma lag_loop_ok l m ring : l < L -> length ring = nb ->
  (forall k, k < m + 1 -> m + 1 <= k + nb -> nth_error ring ((k + 1) mod nb) = Some (blk l k)) ->
  (m + 1) * 2 ^ l <= nf ->
  forall n i0 g, sq nf g -> imin h l <= i0 -> i0 + n <= nb -> (n = 0 \/ i0 + n <= m + 1) ->
  exists g', foldM (ttp_body c l (curval h l (m + 1) - 1) (T l m) ring) (seq i0 n) g = Some g' /\
    sq nf g' /\
    (forall i s, i0 <= i < i0 + n -> s < 2 ^ l ->
       cell g' (m * 2 ^ l + s) ((m - i) * 2 ^ l + s) = Some (V l m i)) /\
    (forall a b, (forall i s, i0 <= i < i0 + n -> s < 2 ^ l ->
         a = m * 2 ^ l + s -> b = (m - i) * 2 ^ l + s -> False) ->
       cell g' a b = cell g a b).
Proof.
  intros Hl Hring Hk Hnf. induction n as [|n IH]; intros i0 g Hg H1 H2 H3; cbn [seq foldM].
  - exists g. split; [reflexivity|]. split; [exact Hg|]. split; [intros; lia|]. auto.
  - unfold ttp_body at 1. change (num_bufs c) with nb.
    rewrite Hring.
    unfold nb at 1 2.
    rewrite (pyindex_delay h L labels Hh HL blk blk_len blk_S) by (fold nb; lia).
    fold nb. cbn [bind].
    replace (m + 1 - i0) with (m - i0 + 1) by lia.
    rewrite Hk by lia. cbn [bind].
    unfold nb at 1.
    rewrite (pyindex_slot h L labels Hh HL blk blk_len blk_S). fold nb.
    cbn [bind]. rewrite Hk by lia. cbn [bind].
    replace (l * nb / 2 + i0) with (lag_pos nb l i0).
    2:{ unfold lag_pos. rewrite nb_half. f_equal. symmetry.
        unfold nb. replace (l * (2 * h)) with (l * h * 2) by lia. apply Nat.div_mul; lia. }
    change (lag_steps c) with lags2. unfold lags2.
    rewrite (lags_nth nb L l i0 nb_even) by (apply is_lag_iff; lia). cbn [bind].
    change (label_array c) with labels. change (num_pixels c) with (bincount_n labels).
    destruct (write_lag_ok l m i0 (V l m i0) g Hg ltac:(lia) Hnf) as (g1 & E1 & Hg1 & Hc1 & Ho1).
    unfold V at 1 in E1. rewrite E1. cbn [bind].
    destruct (IH (S i0) g1 Hg1 ltac:(lia) ltac:(lia) ltac:(lia)) as (g2 & E2 & Hg2 & Hc2 & Ho2).
    exists g2. split; [exact E2|]. split; [exact Hg2|].
    pose proof (pow2_pos l). split.
    + intros i s Hi Hs. destruct (Nat.eq_dec i i0) as [->|Hne].
      * rewrite Ho2; [apply Hc1; exact Hs|]. intros i s' Hi' Hs' Ea Eb.
        assert (s = s') by lia. subst s'. assert (m - i0 = m - i) by nia. lia.
      * apply Hc2; lia.
    + intros a b Hno. rewrite Ho2.
      * apply Ho1. intros s Hs Ea Eb. apply (Hno i0 s); auto; lia.
      * intros i s Hi Hs. apply (Hno i s); auto; lia.
Qed.

Definition bump (M : nat -> nat) l : nat -> nat := fun l' => if l' =? l then M l + 1 else M l'.

Lemma process2_ok s l (M : nat -> nat) :
  l < L -> nth_error (ipl (base s)) l = Some (M l) ->
  bufs h blk (base s) l (M l + 1) -> (M l + 1) * 2 ^ l <= nf ->
  GInv (g2 s) M ->
  exists ipl' g', two_time_process c l (curval h l (M l + 1) - 1) (T l (M l)) s
      = Some (set_g2 (set_base s (set_ipl (base s) ipl')) g') /\
    upd (ipl (base s)) l (M l + 1) = Some ipl' /\
    GInv g' (bump M l).
Proof.
  intros Hl Hi (ring & Hring & Hrl & Hk) Hnf (Hg & HA & HB).
  unfold two_time_process. rewrite Hi. cbn [bind].
  assert (Hll : l < length (ipl (base s))) by (apply nth_error_Some; rewrite Hi; discriminate).
  destruct (upd_some (ipl (base s)) l (M l + 1) Hll) as [ipl' Ei].
  rewrite Ei. cbn [bind]. rewrite Hring. cbn [bind].
  change (num_bufs c) with nb.
  replace (if l =? 0 then 0 else nb / 2) with (imin h l) by (unfold imin; rewrite nb_half; reflexivity).
  set (m := M l) in *.
  assert (Hmn : imin h l < nb) by (unfold imin, nb; destruct (l =? 0); lia).
  destruct (lag_loop_ok l m ring Hl Hrl Hk Hnf (Nat.min (m + 1) nb - imin h l) (imin h l) (g2 s) Hg)
    as (g' & E & Hg' & Hc & Ho); try lia.
  exists ipl', g'. rewrite E. cbn [bind]. split; [reflexivity|]. split; [reflexivity|].
  split; [exact Hg'|]. split.
  - intros l' i k s' Hlag Hkm Hik Hs'.
    unfold bump in Hkm. destruct (Nat.eqb_spec l' l) as [->|Hne].
    + fold m in Hkm. destruct (Nat.eq_dec k m) as [->|Hkm'].
      * apply Hc; auto. apply is_lag_iff in Hlag. lia.
      * rewrite Ho; [apply HA; auto; unfold m in *; lia|].
        intros i0 s0 Hi0 Hs0 Ea Eb.
        assert (Hlag0 : is_lag nb L l i0) by (apply is_lag_iff; lia).
        destruct (coord_inj l i k s' l i0 m s0) as (_ & _ & ?); auto; lia.
    + rewrite Ho; [apply HA; auto|].
      intros i0 s0 Hi0 Hs0 Ea Eb.
      assert (Hlag0 : is_lag nb L l i0) by (apply is_lag_iff; lia).
      destruct (coord_inj l' i k s' l i0 m s0) as (? & _ & _); auto; lia.
  - intros a b Ha Hb Hno. rewrite Ho.
    + apply HB; auto. intros l' i k s' Hlag Hkm Hik Hs'. apply (Hno l' i k s'); auto.
      unfold bump. destruct (Nat.eqb_spec l' l) as [->|]; [|exact Hkm]. unfold m in *; lia.
    + intros i s' Hi' Hs' Ea Eb. apply (Hno l i m s'); auto; try lia.
      * apply is_lag_iff; lia.
      * unfold bump. rewrite Nat.eqb_refl. unfold m; lia.
Qed.

Lemma GInv_ext g M M' : (forall l, l < L -> M l = M' l) -> GInv g M -> GInv g M'.
Proof.
  intros E (A & B & D). split; [exact A|]. split.
  - intros l i k s Hi Hk. apply B; auto. rewrite E; [exact Hk|]. apply is_lag_iff in Hi; lia.
  - intros a b Ha Hb Hno. apply D; auto. intros l i k s Hi Hk. apply Hno; auto.
    rewrite <- E; [exact Hk|]. apply is_lag_iff in Hi; lia.
Qed.

Definition TLev (s : state2) (l m : nat) : Prop :=
  nth_error (ipl (base s)) l = Some m /\
  nth_error (cur (base s)) l = Some (curval h l m) /\
  bufs h blk (base s) l m /\
  nth_error (count_level s) l = Some m /\
  nth_error (time_ind s) l = Some (map (T l) (seq 0 m)).
Definition At2 (s : state2) (l n : nat) : Prop :=
  TLev s l (cnt l n) /\
  (forall l', l = S l' -> nth_error (track (base s)) l = Some (Nat.odd (cnt l' n))).
Definition Inv2 (s : state2) (n : nat) : Prop :=
  (forall l, l < L -> At2 s l n) /\ GInv (g2 s) (fun l => cnt l n) /\
  img_time s = Z.of_nat n.

(** Everything not belonging to level [l] is unchanged. *)
Definition Fr (l : nat) (s s' : state2) : Prop :=
  forall l', l' <> l ->
    nth_error (ipl (base s')) l' = nth_error (ipl (base s)) l' /\
    nth_error (cur (base s')) l' = nth_error (cur (base s)) l' /\
    nth_error (buf (base s')) l' = nth_error (buf (base s)) l' /\
    nth_error (track (base s')) l' = nth_error (track (base s)) l' /\
    nth_error (count_level s') l' = nth_error (count_level s) l' /\
    nth_error (time_ind s') l' = nth_error (time_ind s) l'.

Lemma At2_frame l s s' l' n : Fr l s s' -> l' <> l -> At2 s l' n -> At2 s' l' n.
Proof.
  intros HF Hne [(A1 & A2 & (br & A3 & A4 & A5) & A6 & A7) B].
  destruct (HF l' Hne) as (E1 & E2 & E3 & E4 & E5 & E6). split.
  - split; [congruence|]. split; [congruence|]. split.
    + exists br. rewrite E3. auto.
    + split; congruence.
  - intros l'' E. rewrite E4. auto.
Qed.

Lemma cnt_mul l n : cnt l n * 2 ^ l <= n.
Proof.
  unfold cnt. pose proof (pow2_pos l).
  pose proof (Nat.mul_div_le n (2 ^ l) ltac:(lia)). lia.
Qed.

Lemma T_S l k : (T l (2 * k) + T l (2 * k + 1) = 2 * T (S l) k)%Z.
Proof.
  unfold T. rewrite !pow2Z. cbn [Nat.pow].
  nia.
Qed.

Lemma level_loop2_ok fuel : forall l n s,
  L <= S l + fuel -> S l < L -> n + 1 <= nf ->
  cnt l (n + 1) = cnt l n + 1 ->
  (forall j, j < L -> j <= l -> At2 s j (n + 1)) ->
  (forall j, j < L -> l < j -> At2 s j n) ->
  GInv (g2 s) (fun j => if j <=? l then cnt j (n + 1) else cnt j n) ->
  img_time s = Z.of_nat (n + 1) ->
  exists s', level_loop2 fuel c (S l) s = Some s' /\ Inv2 s' (n + 1).
Proof.
  induction fuel as [|fuel IH]; intros l n s Hf Hl Hnf Hc Hlo Hhi HG Htime; [lia|].
  cbn [level_loop2].
  destruct (Hhi (S l) Hl ltac:(lia)) as [HI HT]. rewrite (HT l eq_refl). cbn [bind].
  destruct (Nat.odd (cnt l n)) eqn:Hodd; cbn [negb].
  - set (m := cnt (S l) n) in *.
    assert (Heven : cnt l (n + 1) = 2 * (m + 1)).
    { unfold m. rewrite Hc, cnt_S'. apply Nat.odd_spec in Hodd. destruct Hodd as [q Hq]. lia. }
    destruct (Hlo l ltac:(lia) (le_n l)) as [HIl _]. rewrite Heven in HIl.
    replace (S l - 1) with l by lia.
    destruct HIl as (_ & Hcl & HBl & _ & Htl). rewrite Hcl. cbn [bind].
    destruct HI as (H1 & HcS & H3 & Hcount & Htind). rewrite HcS. cbn [bind].
    change (num_bufs c) with nb.
    assert (EcS : (1 + curval h (S l) m mod Z.of_nat nb)%Z = curval h (S l) (m + 1))
      by (apply (curval_S h L labels Hh HL blk blk_len blk_S); lia).
    rewrite EcS.
    assert (Hll : S l < length (cur (base s))) by (apply nth_error_Some; rewrite HcS; discriminate).
    destruct (upd_some (cur (base s)) (S l) (curval h (S l) (m + 1)) Hll) as [cur' Ec].
    rewrite Ec. cbn [bind]. rewrite Hcount. cbn [bind].
    assert (Hcl2 : S l < length (count_level s)) by (apply nth_error_Some; rewrite Hcount; discriminate).
    destruct (upd_some (count_level s) (S l) (1 + m) Hcl2) as [cnt' Ecn].
    rewrite Ecn. cbn [bind].
    assert (Ha : get_buf_at (base s) l
       (1 + (curval h l (2 * (m + 1)) - 2) mod Z.of_nat nb - 1)%Z = Some (blk l (2 * m))).
    { apply (get_buf_ok h blk) with (m := 2 * (m + 1)); auto; try lia.
      replace (1 + (curval h l (2 * (m + 1)) - 2) mod Z.of_nat nb - 1)%Z
        with ((curval h l (2 * (m + 1)) - 1 - Z.of_nat 1) mod Z.of_nat nb)%Z.
      2:{ replace (curval h l (2 * (m + 1)) - 1 - Z.of_nat 1)%Z
            with (curval h l (2 * (m + 1)) - 2)%Z by lia. ring. }
      unfold nb.
      rewrite (pyindex_delay h L labels Hh HL blk blk_len blk_S) by lia. f_equal. f_equal. lia. }
    assert (Hb : get_buf_at (base s) l (curval h l (2 * (m + 1)) - 1)%Z = Some (blk l (2 * m + 1))).
    { apply (get_buf_ok h blk) with (m := 2 * (m + 1)); auto; try lia.
      rewrite (pyindex_slot h L labels Hh HL blk blk_len blk_S). f_equal. f_equal. lia. }
    rewrite Ha; cbn [bind]. rewrite Hb; cbn [bind].
    destruct (set_buf_ok h L labels Hh HL blk blk_len blk_S
                (set_cur (base s) cur') (S l) m (curval h (S l) (m + 1) - 1) (blk (S l) m))
      as (s1 & E1 & B1 & _ & _ & _ & F4 & F5 & F6 & _ & F8); auto.
    { apply (pyindex_slot h L labels Hh HL blk blk_len blk_S). }
    rewrite <- blk_S, E1. cbn [bind].
    rewrite Htl. cbn [bind].
    replace ((1 + m - 1) * 2) with (2 * m) by lia.
    rewrite !nth_error_map_seq by lia. cbn [bind].
    rewrite ?Nat.add_0_l. rewrite T_S.
    replace (Z.even (2 * T (S l) m)) with true by (rewrite Z.even_mul; reflexivity).
    cbn [negb]. rewrite (Z.mul_comm 2), Z.div_mul by lia.
    rewrite Htind. cbn [bind].
    assert (Htl2 : S l < length (time_ind s)) by (apply nth_error_Some; rewrite Htind; discriminate).
    destruct (upd_some (time_ind s) (S l) (map (T (S l)) (seq 0 m) ++ [T (S l) m]) Htl2) as [ti' Eti].
    rewrite Eti. cbn [bind].
    assert (Htr : S l < length (track s1)).
    { rewrite F5. cbn [set_cur track]. apply nth_error_Some. rewrite (HT l eq_refl); discriminate. }
    destruct (upd_some (track s1) (S l) false Htr) as [t' Et]. rewrite Et. cbn [bind].
    set (M := fun j => if j <=? l then cnt j (n + 1) else cnt j n) in *.
    assert (HM : M (S l) = m).
    { unfold M. replace (S l <=? l) with false by lia. reflexivity. }
    assert (HcS' : cnt (S l) (n + 1) = m + 1).
    { rewrite (cnt_S' l (n + 1)), Heven. rewrite Nat.mul_comm, Nat.div_mul; lia. }
    destruct (process2_ok {| base := set_track s1 t'; g2 := g2 s; count_level := cnt';
                 img_time := img_time s; time_ind := ti' |} (S l) M) as (ipl' & g' & E2 & Ei & HG').
    { exact Hl. }
    { cbn [base set_track ipl]. rewrite F4, HM. exact H1. }
    { rewrite HM. exact B1. }
    { rewrite HM, <- HcS'. pose proof (cnt_mul (S l) (n + 1)). lia. }
    { exact HG. }
    rewrite HM in E2. rewrite E2. cbn [bind].
    cbn [base set_track ipl] in Ei. rewrite F4, HM in Ei. cbn [set_cur ipl] in Ei.
    set (s2 := set_g2 _ g').
    assert (HF : Fr (S l) s s2).
    { intros l' Hl'.
      cbn [s2 set_g2 set_base base set_ipl set_track ipl cur buf track count_level time_ind].
      rewrite (upd_nth_ne _ _ _ _ _ Ei) by exact Hl'.
      rewrite F6. cbn [set_cur cur].
      rewrite (upd_nth_ne _ _ _ _ _ Ec) by exact Hl'.
      rewrite F8 by exact Hl'. cbn [set_cur buf].
      rewrite (upd_nth_ne _ _ _ _ _ Et) by exact Hl'. rewrite F5. cbn [set_cur track].
      rewrite (upd_nth_ne _ _ _ _ _ Ecn) by exact Hl'.
      rewrite (upd_nth_ne _ _ _ _ _ Eti) by exact Hl'.
      repeat split; reflexivity. }
    assert (Hlo2 : forall j, j < L -> j <= S l -> At2 s2 j (n + 1)).
    { intros j Hj Hjl. destruct (Nat.eq_dec j (S l)) as [->|Hne].
      - split.
        + rewrite HcS'.
          split; [exact (upd_nth_eq _ _ _ _ Ei)|].
          split. { cbn [s2 set_g2 set_base base set_ipl set_track cur]. rewrite F6. exact (upd_nth_eq _ _ _ _ Ec). }
          split; [exact B1|].
          split. { cbn [s2 set_g2 set_base count_level]. rewrite (upd_nth_eq _ _ _ _ Ecn). f_equal. lia. }
          cbn [s2 set_g2 set_base time_ind]. rewrite (upd_nth_eq _ _ _ _ Eti).
          rewrite Nat.add_1_r, seq_S, map_app. reflexivity.
        + intros l' [= <-]. cbn [s2 set_g2 set_base base set_ipl set_track track].
          rewrite (upd_nth_eq _ _ _ _ Et), Hc. f_equal.
          rewrite Nat.add_1_r, Nat.odd_succ, <- Nat.negb_odd, Hodd. reflexivity.
      - eapply At2_frame; [exact HF|exact Hne|]. apply Hlo; lia. }
    assert (Hhi2 : forall j, j < L -> S l < j -> At2 s2 j n).
    { intros j Hj Hjl. eapply At2_frame; [exact HF|lia|]. apply Hhi; lia. }
    assert (HG2 : GInv (g2 s2) (fun j => if j <=? S l then cnt j (n + 1) else cnt j n)).
    { eapply GInv_ext; [|exact HG']. intros j Hj. unfold bump. rewrite HM.
      destruct (Nat.eqb_spec j (S l)) as [->|Hne].
      - rewrite Nat.leb_refl. lia.
      - unfold M. destruct (Nat.leb_spec j l), (Nat.leb_spec j (S l)); try lia. }
    change (num_levels c) with L.
    destruct (Nat.ltb_spec (S (S l)) L) as [Hlt|Hge].
    + apply IH; auto; lia.
    + exists s2. split; [reflexivity|]. split; [intros j Hj; apply Hlo2; lia|]. split.
      * eapply GInv_ext; [|exact HG2]. intros j Hj. cbn beta.
        destruct (Nat.leb_spec j (S l)); [reflexivity|lia].
      * exact Htime.
  - assert (Hll : S l < length (track (base s))).
    { apply nth_error_Some. rewrite (HT l eq_refl); discriminate. }
    destruct (upd_some (track (base s)) (S l) true Hll) as [t' Et]. rewrite Et. cbn [bind].
    eexists; split; [reflexivity|].
    assert (Hstay : cnt (S l) (n + 1) = cnt (S l) n).
    { rewrite !cnt_S', Hc. rewrite <- Nat.negb_even in Hodd.
      apply negb_false_iff in Hodd. apply Nat.even_spec in Hodd. destruct Hodd as [q Hq]. lia. }
    split; [|split].
    + intros j Hj. destruct (Nat.le_gt_cases j l) as [Hjl|Hjl].
      * destruct (Hlo j Hj Hjl) as [A B]. split; [exact A|].
        intros l' E. cbn [set_base base set_track track]. rewrite (upd_nth_ne _ _ _ _ _ Et) by lia. auto.
      * destruct (Hhi j Hj Hjl) as [A B]. split.
        -- rewrite (cnt_stay' (S l)) by (auto; lia). exact A.
        -- intros l' E. cbn [set_base base set_track track].
           destruct (Nat.eq_dec j (S l)) as [->|Hne].
           ++ injection E as <-. rewrite (upd_nth_eq _ _ _ _ Et). f_equal.
              rewrite Hc, Nat.add_1_r, Nat.odd_succ, <- Nat.negb_odd, Hodd. reflexivity.
           ++ rewrite (upd_nth_ne _ _ _ _ _ Et) by exact Hne.
              rewrite (B l' E). rewrite (cnt_stay' (S l) n l') by (auto; lia). reflexivity.
    + cbn [set_base g2]. eapply GInv_ext; [|exact HG]. intros j Hj. cbn beta.
      destruct (Nat.leb_spec j l); [reflexivity|].
      symmetry; apply (cnt_stay' (S l)); auto; lia.
    + exact Htime.
Qed.

Lemma T0 n : (2 * (Z.of_nat n + 1))%Z = T 0 n.
Proof. unfold T. rewrite pow2Z. cbn [Nat.pow]. lia. Qed.

(** The start of a step: frame number n put in the ring of level 0. *)
Lemma step2_ok s n img :
  Inv2 s n -> n + 1 <= nf -> img = blk 0 n ->
  exists s', step2 c s img = Some s' /\ Inv2 s' (n + 1).
Proof.
  intros (HI & HG & Htime) Hnf ->.
  destruct (HI 0 ltac:(lia)) as [(H1 & H2 & H3 & H4 & H5) _]. rewrite cnt_0 in *.
  unfold step2. rewrite H2. cbn [bind].
  change (num_bufs c) with nb.
  assert (Ec0 : ((1 + curval h 0 n) mod Z.of_nat nb)%Z = curval h 0 (n + 1))
    by (apply (curval_0S h L labels Hh HL blk blk_len blk_S)).
  rewrite Ec0.
  assert (Hll : 0 < length (cur (base s))) by (apply nth_error_Some; rewrite H2; discriminate).
  destruct (upd_some (cur (base s)) 0 (curval h 0 (n + 1)) Hll) as [cur' Ec].
  rewrite Ec. cbn [bind]. rewrite H4. cbn [bind].
  assert (Hcl2 : 0 < length (count_level s)) by (apply nth_error_Some; rewrite H4; discriminate).
  destruct (upd_some (count_level s) 0 (1 + n) Hcl2) as [cnt' Ecn].
  rewrite Ecn. cbn [bind].
  destruct (set_buf_ok h L labels Hh HL blk blk_len blk_S
              (set_cur (base s) cur') 0 n (curval h 0 (n + 1) - 1) (blk 0 n))
    as (s1 & E1 & B1 & _ & _ & _ & F4 & F5 & F6 & _ & F8); auto.
  { apply (pyindex_slot h L labels Hh HL blk blk_len blk_S). }
  rewrite E1. cbn [bind]. rewrite Htime, T0.
  set (M := fun l => cnt l n) in *.
  assert (HM : M 0 = n) by (unfold M; apply cnt_0).
  destruct (process2_ok {| base := s1; g2 := g2 s; count_level := cnt';
               img_time := Z.of_nat n + 1; time_ind := time_ind s |} 0 M) as (ipl' & g' & E2 & Ei & HG').
  { lia. }
  { cbn [base]. rewrite F4, HM. exact H1. }
  { rewrite HM. exact B1. }
  { rewrite HM. cbn [Nat.pow]. lia. }
  { exact HG. }
  rewrite HM in E2. rewrite E2. cbn [bind].
  cbn [set_g2 set_base time_ind].
  cbn [base] in Ei. rewrite F4, HM in Ei. cbn [set_cur ipl] in Ei.
  rewrite H5. cbn [bind].
  assert (Htl2 : 0 < length (time_ind s)) by (apply nth_error_Some; rewrite H5; discriminate).
  destruct (upd_some (time_ind s) 0 (map (T 0) (seq 0 n) ++ [T 0 n]) Htl2) as [ti' Eti].
  rewrite Eti. cbn [bind].
  set (s2 := set_tind _ ti').
  assert (HF : Fr 0 s s2).
  { intros l' Hl'.
    cbn [s2 set_tind set_g2 set_base base set_ipl ipl cur buf track count_level time_ind].
    rewrite (upd_nth_ne _ _ _ _ _ Ei) by exact Hl'.
    rewrite F6. cbn [set_cur cur].
    rewrite (upd_nth_ne _ _ _ _ _ Ec) by exact Hl'.
    rewrite F8 by exact Hl'. cbn [set_cur buf]. rewrite F5. cbn [set_cur track].
    rewrite (upd_nth_ne _ _ _ _ _ Ecn) by exact Hl'.
    rewrite (upd_nth_ne _ _ _ _ _ Eti) by exact Hl'.
    repeat split; reflexivity. }
  assert (H0 : At2 s2 0 (n + 1)).
  { split; [|intros l' E; discriminate]. rewrite cnt_0.
    split; [exact (upd_nth_eq _ _ _ _ Ei)|].
    split. { cbn [s2 set_tind set_g2 set_base base set_ipl cur]. rewrite F6. exact (upd_nth_eq _ _ _ _ Ec). }
    split; [exact B1|].
    split. { cbn [s2 set_tind set_g2 set_base count_level]. rewrite (upd_nth_eq _ _ _ _ Ecn). f_equal. lia. }
    cbn [s2 set_tind set_g2 set_base time_ind]. rewrite (upd_nth_eq _ _ _ _ Eti).
    rewrite Nat.add_1_r, seq_S, map_app. reflexivity. }
  assert (Hlo : forall j, j < L -> j <= 0 -> At2 s2 j (n + 1)).
  { intros j Hj Hj0. replace j with 0 by lia. exact H0. }
  assert (Hhi : forall j, j < L -> 0 < j -> At2 s2 j n).
  { intros j Hj Hj0. eapply At2_frame; [exact HF|lia|]. apply HI; exact Hj. }
  assert (HG2 : GInv (g2 s2) (fun j => if j <=? 0 then cnt j (n + 1) else cnt j n)).
  { eapply GInv_ext; [|exact HG']. intros j Hj. unfold bump. rewrite HM.
    destruct (Nat.eqb_spec j 0) as [->|Hne].
    - cbn [Nat.leb]. rewrite cnt_0. reflexivity.
    - unfold M. destruct (Nat.leb_spec j 0); [lia|reflexivity]. }
  assert (Ht2 : img_time s2 = Z.of_nat (n + 1)) by (cbn [s2 set_tind set_g2 set_base img_time]; lia).
  change (num_levels c) with L.
  destruct (Nat.ltb_spec 1 L) as [Hlt|Hge].
  - apply level_loop2_ok; auto; try lia. rewrite !cnt_0; reflexivity.
  - exists s2. split; [reflexivity|]. split; [intros j Hj; apply Hlo; lia|]. split; [|exact Ht2].
    eapply GInv_ext; [|exact HG2]. intros j Hj. cbn beta.
    destruct (Nat.leb_spec j 0); [reflexivity|lia].
Qed.

(** One frame too many: the write at (n, n) is out of range. *)
Lemma step2_overflow s n img : Inv2 s n -> nf <= n -> step2 c s img = None.
Proof.
  intros (HI & (Hsq & _) & Htime) Hnf.
  unfold step2.
  destruct (nth_error (cur (base s)) 0) as [c0|]; cbn [bind]; [|reflexivity].
  destruct (upd (cur (base s)) 0 _) as [cur'|]; cbn [bind]; [|reflexivity].
  destruct (nth_error (count_level s) 0) as [k|]; cbn [bind]; [|reflexivity].
  destruct (upd (count_level s) 0 _) as [cnt'|]; cbn [bind]; [|reflexivity].
  destruct (set_buf_at _ _ _ _) as [b1|] eqn:Eb; cbn [bind]; [|reflexivity].
  rewrite Htime, T0. unfold two_time_process at 1. cbn [base g2].
  destruct (nth_error (ipl b1) 0) as [n0|]; cbn [bind]; [|reflexivity].
  destruct (upd (ipl b1) 0 (n0 + 1)) as [ipl'|]; cbn [bind]; [|reflexivity].
  destruct (nth_error (buf b1) 0) as [ring|]; cbn [bind]; [|reflexivity].
  change (num_bufs c) with nb. cbn [Nat.eqb].
  replace (Nat.min (n0 + 1) nb - 0) with (S (Nat.min (n0 + 1) nb - 1)) by (unfold nb; lia).
  cbn [seq foldM]. unfold ttp_body at 1.
  destruct (pyindex _ _) as [di|]; cbn [bind]; [|reflexivity].
  destruct (nth_error ring di) as [pi|]; cbn [bind]; [|reflexivity].
  destruct (pyindex _ _) as [fi|]; cbn [bind]; [|reflexivity].
  destruct (nth_error ring fi) as [fu|]; cbn [bind]; [|reflexivity].
  destruct (nth_error (lag_steps c) _) as [lag|]; cbn [bind]; [|reflexivity].
  unfold write_lag. cbn [Nat.eqb].
  replace (Z.quot (T 0 n - 2) 2) with (Z.of_nat n).
  2:{ rewrite <- T0. replace (2 * (Z.of_nat n + 1) - 2)%Z with (2 * Z.of_nat n)%Z by lia.
      symmetry; apply quot_dbl; lia. }
  rewrite (write_out nf) by auto. reflexivity.
Qed.

Lemma init2_ok : Inv2 (init_state2 c nf) 0.
Proof.
  assert (Hc0 : forall l', cnt l' 0 = 0).
  { intros l'. unfold cnt. apply Nat.div_0_l, Nat.pow_nonzero; lia. }
  split; [|split; [|reflexivity]].
  - intros l Hl. split.
    + rewrite Hc0. unfold init_state2, init_state. cbn [base ipl cur buf count_level time_ind].
      change (num_levels c) with L. change (num_bufs c) with nb.
      split; [cbn [ipl base]; apply nth_error_repeat; exact Hl|].
      split. { cbn [cur base]. rewrite nth_error_repeat by exact Hl. f_equal.
        unfold curval. destruct (l =? 0).
        - rewrite Z.mod_small; lia.
        - rewrite Z.mod_0_l; lia. }
      split. { eexists. cbn [buf base]. split; [apply nth_error_repeat; exact Hl|].
        split; [apply repeat_length|]. intros k Hk; lia. }
      split; cbn [count_level time_ind]; rewrite nth_error_repeat by exact Hl; reflexivity.
    + intros l' ->. rewrite Hc0. unfold init_state2, init_state. cbn [base track].
      change (num_levels c) with L. rewrite nth_error_repeat by exact Hl. reflexivity.
  - unfold init_state2. cbn [g2].
    change (num_pixels c) with (bincount_n labels).
    replace (length (bincount_n labels)) with (max_label labels)
      by (unfold bincount_n; rewrite map_length, seq_length; reflexivity).
    split; [|split].
    + split; [apply repeat_length|]. intros a row Hrow.
      apply nth_error_In, repeat_spec in Hrow. subst row. apply repeat_length.
    + intros l i k s Hi Hk. rewrite Hc0 in Hk. lia.
    + intros a b Ha Hb _. unfold cell. rewrite nth_error_repeat by exact Ha. cbn [bind].
      apply nth_error_repeat; exact Hb.
Qed.

Lemma run2_ok n : forall a s, Inv2 s a -> a + n <= nf ->
  exists s', foldM (step2 c) (map (blk 0) (seq a n)) s = Some s' /\ Inv2 s' (a + n).
Proof.
  induction n as [|n IH]; intros a s HI Hn; cbn [seq map foldM].
  - exists s. rewrite Nat.add_0_r. auto.
  - destruct (step2_ok s a (blk 0 a) HI ltac:(lia) eq_refl) as (s1 & E & HI1).
    rewrite E; cbn [bind]. destruct (IH (S a) s1) as (s2 & E2 & HI2).
    { replace (S a) with (a + 1) by lia; exact HI1. }
    { lia. }
    exists s2. split; [exact E2|]. replace (a + S n) with (S a + n) by lia. exact HI2.
Qed.

Lemma run2_overflow n : forall a s, Inv2 s a -> a <= nf -> nf < a + n ->
  foldM (step2 c) (map (blk 0) (seq a n)) s = None.
Proof.
  induction n as [|n IH]; intros a s HI Ha Hn; cbn [seq map foldM]; [lia|].
  destruct (Nat.eq_dec a nf) as [->|Hne].
  - rewrite (step2_overflow s nf _ HI (le_n _)). reflexivity.
  - destruct (step2_ok s a (blk 0 a) HI ltac:(lia) eq_refl) as (s1 & E & HI1).
    rewrite E. cbn [bind]. apply IH; [|lia|lia].
    replace (S a) with (a + 1) by lia; exact HI1.
Qed.

End TwoTime.
