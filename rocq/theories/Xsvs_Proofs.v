From Coq Require Import Sorted.
From Verif Require Import Common QcArith Sums Roi_Model Roi_Spec Roi_Stats Xsvs_Model Xsvs_Spec.

(** ** Pascal *)
Lemma zsum_first n f : zsum (S n) f = (f 0%nat + zsum n (fun k => f (S k)))%Z.
Proof. induction n as [|n IH]; [cbn; lia|]. change (zsum (S (S n)) f) with (zsum (S n) f + f (S n))%Z. rewrite IH. cbn [zsum]. lia. Qed.
Lemma zsum_ext n f g : (forall k, k < n -> f k = g k) -> zsum n f = zsum n g.
Proof. induction n as [|n IH]; intros H; cbn; [reflexivity|]. rewrite IH, H by (intros; try apply H; lia). reflexivity. Qed.
Lemma zsum_add n f g : zsum n (fun k => (f k + g k)%Z) = (zsum n f + zsum n g)%Z.
Proof. induction n as [|n IH]; cbn; [reflexivity|]. rewrite IH. lia. Qed.
Lemma binom_over n : forall k, n < k -> binom n k = 0%Z.
Proof. induction n as [|n IH]; intros [|k] H; try lia; cbn; [reflexivity|]. rewrite !IH by lia. reflexivity. Qed.
Lemma binom_0 n : binom n 0 = 1%Z. Proof. destruct n; reflexivity. Qed.
Lemma pascal l (g : nat -> Z) : zsum (S l + 1) (fun k => (binom (S l) k * g k)%Z) =
  (zsum (l + 1) (fun k => (binom l k * g (S k))%Z) + zsum (l + 1) (fun k => (binom l k * g k)%Z))%Z.
Proof.
  replace (S l + 1) with (S (l + 1)) by lia. rewrite zsum_first, binom_0.
  rewrite (zsum_ext (l + 1) (fun k => binom (S l) (S k) * g (S k))%Z (fun k => (binom l k * g (S k) + binom l (S k) * g (S k))%Z)) by (intros k _; cbn [binom]; ring).
  rewrite zsum_add. pose proof (zsum_first (l + 1) (fun k => (binom l k * g k)%Z)) as E. cbv beta in E. rewrite binom_0 in E.
  cbn [zsum] in E. rewrite (binom_over l (l + 1)) in E by lia. lia.
Qed.
Lemma binom_total l : zsum (l + 1) (binom l) = (2 ^ Z.of_nat l)%Z.
Proof.
  induction l as [|l IH]; [reflexivity|]. pose proof (pascal l (fun _ => 1%Z)) as P. rewrite (zsum_ext (S l + 1) (binom (S l)) (fun k => (binom (S l) k * 1)%Z)) by (intros; lia).
  rewrite P. rewrite (zsum_ext (l + 1) (fun k => (binom l k * 1)%Z) (binom l)) by (intros; lia). rewrite IH. rewrite Nat2Z.inj_succ, Z.pow_succ_r by lia. lia.
Qed.

(** ** The image of a level *)
Section Mix.
Context (conv : Z -> Z) (npix : nat) (imgs : list frame).
Hypothesis conv_0 : conv 0%Z = 0%Z.
Hypothesis conv_add : forall a b, conv (conv a + conv b)%Z = conv (a + b)%Z.
Definition before (l : nat) (n : nat) : frame := match n with 0 => Some (repeat 0%Z npix) | S m => mixed_as conv npix imgs l m end.
Lemma existsb_seq_S (f : nat -> bool) n : forall s, existsb f (seq (S s) n) = existsb (fun k => f (S k)) (seq s n).
Proof. induction n as [|n IH]; intros s; cbn; [reflexivity|]. rewrite IH. reflexivity. Qed.
Lemma existsb_ext_in (f g : nat -> bool) l : (forall k, In k l -> f k = g k) -> existsb f l = existsb g l.
Proof. induction l as [|a l IH]; intros H; cbn; [reflexivity|]. rewrite H by (left; reflexivity). rewrite IH; [reflexivity|]. intros k Hk. apply H. right. exact Hk. Qed.
Lemma existsb_grow (f : nat -> bool) n : existsb f (seq 0 (S n + 1)) = existsb (fun k => f (S k)) (seq 0 (n + 1)) || existsb f (seq 0 (n + 1)).
Proof.
  replace (S n + 1) with (S (n + 1)) by lia. apply eq_true_iff_eq. rewrite orb_true_iff, !existsb_exists. split.
  - intros [k [Hk E]]. apply in_seq in Hk. destruct k as [|k].
    + right. exists 0. split; [apply in_seq; lia|exact E].
    + left. exists k. split; [apply in_seq; lia|exact E].
  - intros [[k [Hk E]]|[k [Hk E]]]; apply in_seq in Hk; [exists (S k)|exists k]; (split; [apply in_seq; lia|exact E]).
Qed.
Lemma nth_map_seq0 {A} (f : nat -> A) n : forall s, map f (seq s n) = map (fun i => f (s + i)) (seq 0 n).
Proof. induction n as [|n IH]; intros s; cbn; [reflexivity|]. rewrite Nat.add_0_r. f_equal. rewrite (IH (S s)), <- seq_shift, map_map. apply map_ext. intros i. f_equal. lia. Qed.
Lemma combine_map_seq {A B} (f : nat -> A) (g : nat -> B) n s : combine (map f (seq s n)) (map g (seq s n)) = map (fun i => (f i, g i)) (seq s n).
Proof. revert s. induction n as [|n IH]; intros s; cbn; [reflexivity|]. rewrite IH. reflexivity. Qed.
Lemma repeat_map_seq {A} (x : A) n : forall s, repeat x n = map (fun _ => x) (seq s n).
Proof. induction n as [|n IH]; intros s; cbn; [reflexivity|]. rewrite (IH (S s)). reflexivity. Qed.
Lemma zsum_zero n f : (forall k, k < n -> f k = 0%Z) -> zsum n f = 0%Z.
Proof. induction n as [|n IH]; intros H; cbn; [reflexivity|]. rewrite IH, H by (intros; try apply H; lia). reflexivity. Qed.
Lemma existsb_false_all (f : nat -> bool) l : (forall k, f k = false) -> existsb f l = false.
Proof. intros H. induction l as [|a l IH]; cbn; [reflexivity|]. rewrite H, IH. reflexivity. Qed.
Lemma mixed_step l n : mixed_as conv npix imgs (S l) n = fadd conv (before l n) (mixed_as conv npix imgs l n).
Proof.
  unfold mixed_as at 1. pose (B := fun k => (k <=? n) && broken imgs (n - k)).
  change (existsb (fun k => (k <=? n) && broken imgs (n - k))) with (existsb B). rewrite (existsb_grow B).
  set (G := fun p k => if k <=? n then pixel imgs (n - k) p else 0%Z).
  assert (EG : forall l' p, zsum (l' + 1) (fun k => if k <=? n then (binom l' k * pixel imgs (n - k) p)%Z else 0%Z) = zsum (l' + 1) (fun k => (binom l' k * G p k)%Z)).
  { intros l' p. apply zsum_ext. intros k _. unfold G. destruct (k <=? n); lia. }
  destruct n as [|m].
  - cbn [before]. rewrite (existsb_false_all (fun k => B (S k))) by reflexivity. cbn [orb].
    unfold mixed_as. change (existsb (fun k => (k <=? 0) && broken imgs (0 - k))) with (existsb B). destruct (existsb B (seq 0 (l + 1))); [reflexivity|]. cbn [fadd]. f_equal.
    rewrite (repeat_map_seq 0%Z npix 0), combine_map_seq, map_map. apply map_ext. intros p. cbn [fst snd]. rewrite !EG, pascal.
    rewrite (zsum_zero (l + 1) (fun k => (binom l k * G p (S k))%Z)); [rewrite <- (conv_add 0), conv_0; reflexivity|]. intros k _. unfold G. cbn. lia.
  - cbn [before]. unfold mixed_as at 1 2. change (existsb (fun k => (k <=? S m) && broken imgs (S m - k))) with (existsb B).
    rewrite (existsb_ext_in (fun k => B (S k)) (fun k => (k <=? m) && broken imgs (m - k)) (seq 0 (l + 1))) by (intros k _; unfold B; reflexivity).
    destruct (existsb (fun k => (k <=? m) && broken imgs (m - k)) (seq 0 (l + 1))); [reflexivity|]. cbn [orb].
    destruct (existsb B (seq 0 (l + 1))); [reflexivity|]. cbn [fadd]. f_equal. rewrite combine_map_seq, map_map. apply map_ext. intros p. cbn [fst snd].
    rewrite !EG, pascal, conv_add. f_equal. f_equal. apply zsum_ext. intros k _. unfold G. cbn [Nat.leb Nat.sub]. destruct (k <=? m); lia.
Qed.
Lemma mixed_0 n f : nth_error imgs n = Some f -> (forall x, f = Some x -> length x = npix /\ Forall (fun v => conv v = v) x) -> mixed_as conv npix imgs 0 n = f.
Proof.
  intros E L. unfold mixed_as. cbn [Nat.add seq existsb]. rewrite Nat.sub_0_r. cbn [Nat.leb andb]. rewrite orb_false_r.
  unfold broken. rewrite E. destruct f as [x|]; [|reflexivity]. f_equal. destruct (L x eq_refl) as [L' V]. clear L. rename L' into L.
  apply nth_error_ext_len; [rewrite map_length, seq_length; symmetry; exact L|]. intros p Hp. rewrite map_length, seq_length in Hp.
  rewrite nth_error_map_seq by exact Hp. rewrite (nth_error_nth_lt x p 0%Z) by lia. f_equal. cbn [zsum binom]. unfold pixel. rewrite Nat.sub_0_r, E. cbn [Nat.leb].
  rewrite Z.add_0_l, Z.mul_1_l. rewrite Forall_forall in V. apply V, nth_In. lia.
Qed.
End Mix.

(** ** Running means *)
Lemma filter_seq_S (p : nat -> bool) n : filter p (seq 0 (S n)) = filter p (seq 0 n) ++ (if p n then [n] else []).
Proof. replace (S n) with (n + 1) by lia. rewrite seq_app, filter_app. cbn. destruct (p n); reflexivity. Qed.
Definition goods (frames : nat -> frame) (n : nat) : nat := length (filter (fun m => is_good (frames m)) (seq 0 n)).
Lemma goods_le frames n : goods frames n <= n.
Proof. unfold goods. rewrite <- (seq_length n 0) at 2. generalize (seq 0 n). intros l. induction l as [|a l IH]; cbn; [lia|]. destruct (is_good (frames a)); cbn; lia. Qed.
Lemma mean_good_S_bad frames h n : frames n = None -> mean_good frames h (S n) = mean_good frames h n.
Proof. intros E. unfold mean_good. rewrite filter_seq_S, E. cbn [is_good]. rewrite app_nil_r. reflexivity. Qed.
Lemma goods_S frames n : goods frames (S n) = goods frames n + (if is_good (frames n) then 1 else 0).
Proof. unfold goods. rewrite filter_seq_S, app_length. destruct (is_good (frames n)); cbn; lia. Qed.
Lemma mean_good_S frames h n px : frames n = Some px ->
  mean_good frames h (S n) = (mean_good frames h n + (h px - mean_good frames h n) / qn (goods frames n + 1))%Qc.
Proof.
  intros E. unfold mean_good. rewrite filter_seq_S, E. cbn [is_good]. fold (goods frames n). set (g := filter _ (seq 0 n)).
  assert (Eg : goods frames n = length g) by reflexivity. rewrite app_length. cbn [length]. replace (length g + 1 =? 0) with false by lia.
  rewrite map_app, qsum_app. cbn [map qsum]. rewrite E, Eg. destruct (Nat.eqb_spec (length g) 0) as [Z|N].
  - apply length_zero_iff_nil in Z. rewrite Z. cbn [length map qsum Nat.add]. change (qn 1) with 1%Qc. field. discriminate.
  - rewrite qn_add. change (qn 1) with 1%Qc. pose proof (qn_neq0 _ N) as N0.
    assert (N1 : (qn (length g) + 1)%Qc <> 0%Qc) by (rewrite <- qn_S; apply qn_neq0; lia).
    set (S := qsum (map _ g)). field. split; assumption.
Qed.

(** ** The loop *)
Section Loop.
Context (conv : Z -> Z) (T num_times : nat) (labels : list Z) (max_cts : nat) (imgs : list frame).
Hypothesis conv_0 : conv 0%Z = 0%Z.
Hypothesis conv_add : forall a b, conv (conv a + conv b)%Z = conv (a + b)%Z.
Hypothesis HT : 2 <= T.
Hypothesis Hlen : forall x, In (Some x) imgs -> length x = length labels /\ Forall (fun v => conv v = v) x.
Notation np := (length labels).
Notation mix := (mixed_as conv np imgs).
Definition zslot (n : nat) : nat := n mod T.                         (* slot of frame n *)
Definition pslot (n : nat) : nat := (n + T - 1) mod T.               (* slot of frame n - 1 *)
Definition hd (l j b : nat) (px : list Z) : Qc := density max_cts l (roi_data labels px j) b.
(** level l after n frames *)
Definition counted (s : st) (l n : nat) : Prop :=
  ipl s l = n /\ bad s l = n - goods (mix l) n /\
  (forall j b, pk s l j b = mean_good (mix l) (hd l j b) n) /\ (forall j b, pw s l j b = mean_good (mix l) (fun px => (hd l j b px * hd l j b px)%Qc) n).
Definition waiting (s : st) (l n : nat) : Prop :=
  (cur s l mod Z.of_nat T = Z.of_nat n mod Z.of_nat T)%Z /\ trk s l = false /\ buf s l (pslot n) = before conv np imgs l n /\ counted s l n.
Definition done (s : st) (l n : nat) : Prop :=
  slot T (cur s l) = Some (zslot n) /\ (cur s l mod Z.of_nat T = Z.of_nat (n + 1) mod Z.of_nat T)%Z /\ trk s l = false /\
  buf s l (zslot n) = mix l n /\ buf s l (pslot n) = before conv np imgs l n /\ counted s l (n + 1).
Lemma slots_differ n : zslot n <> pslot n.
Proof.
  unfold zslot, pslot. intros E. pose proof (Nat.div_mod n T ltac:(lia)) as D. set (q := n / T) in *. set (r := n mod T) in *.
  assert (r < T) by (apply Nat.mod_upper_bound; lia). clearbody q r. subst n. destruct r as [|r].
  - assert (H0 : (T - 1) = (T * q + 0 + T - 1) mod T) by (apply (Nat.mod_unique _ _ q); lia). lia.
  - assert (H0 : r = (T * q + S r + T - 1) mod T) by (apply (Nat.mod_unique _ _ (q + 1)); lia). lia.
Qed.
Lemma pslot_S n : pslot (n + 1) = zslot n.
Proof. unfold pslot, zslot. replace (n + 1 + T - 1) with (n + 1 * T) by lia. apply Nat.mod_add. lia. Qed.
Lemma done_waiting s l n : done s l n -> waiting s l (n + 1).
Proof.
  intros [_ [H2 [H3 [H4 [_ H6]]]]]. split; [exact H2|]. split; [exact H3|]. split; [|exact H6]. rewrite pslot_S, H4, Nat.add_1_r. reflexivity.
Qed.
Lemma process_counted lvl sl s n : counted s lvl n -> buf s lvl sl = mix lvl n -> counted (process labels max_cts lvl sl s) lvl (n + 1).
Proof.
  intros [H1 [H2 [H3 H4]]] E. unfold process. rewrite E, (Nat.add_1_r n). pose proof (goods_le (mix lvl) n) as Hg.
  unfold counted. rewrite goods_S. destruct (mix lvl n) as [px|] eqn:Em; cbn [ipl bad pk pw is_good]; unfold set1; rewrite ?Nat.eqb_refl, H1.
  - split; [lia|]. split; [lia|].
    assert (Ec : (qn (n + 1) - qn (bad s lvl))%Qc = qn (goods (mix lvl) n + 1)).
    { rewrite H2. unfold qn. rewrite <- qz_sub. f_equal. lia. }
    rewrite Ec. split; intros j b; rewrite ?Nat.eqb_refl; [rewrite H3, (mean_good_S _ _ n px Em)|rewrite H4, (mean_good_S _ _ n px Em)]; unfold hd; reflexivity.
  - split; [lia|]. split; [lia|]. split; intros j b; [rewrite H3, (mean_good_S_bad _ _ n Em)|rewrite H4, (mean_good_S_bad _ _ n Em)]; reflexivity.
Qed.
Lemma process_keeps lvl sl s : let s' := process labels max_cts lvl sl s in buf s' = buf s /\ cur s' = cur s /\ trk s' = trk s.
Proof. cbv zeta. unfold process. destruct (buf s lvl sl); auto. Qed.
Lemma process_other lvl sl s l n : l <> lvl -> counted s l n -> counted (process labels max_cts lvl sl s) l n.
Proof.
  intros N H. unfold process. assert (E : (l =? lvl) = false) by (apply Nat.eqb_neq; exact N).
  destruct (buf s lvl sl); unfold counted in *; cbn [ipl bad pk pw]; unfold set1; rewrite ?E; [|exact H].
  destruct H as [H1 [H2 [H3 H4]]]. split; [exact H1|]. split; [exact H2|]. split; intros j b; rewrite ?E; [apply H3|apply H4].
Qed.
Lemma slot_of c n : (c mod Z.of_nat T = Z.of_nat (n + 1) mod Z.of_nat T)%Z -> (0 <= c <= Z.of_nat T)%Z -> slot T c = Some (zslot n).
Proof.
  intros E B. unfold slot, pyindex, zslot.
  assert (Ec : ((c - 1) mod Z.of_nat T = Z.of_nat n mod Z.of_nat T)%Z).
  { rewrite Zminus_mod, E, <- Zminus_mod. f_equal. lia. }
  rewrite <- Nat2Z.inj_mod in Ec.
  destruct ((0 <=? c - 1)%Z && (c - 1 <? Z.of_nat T)%Z) eqn:E1.
  - rewrite Z.mod_small in Ec by lia. f_equal. lia.
  - replace ((- Z.of_nat T <=? c - 1)%Z && (c - 1 <? 0)%Z) with true by lia. f_equal.
    assert (c = 0)%Z by lia. subst c. replace ((0 - 1) mod Z.of_nat T)%Z with (Z.of_nat T - 1)%Z in Ec by (apply (Z.mod_unique _ _ (-1)); lia). lia.
Qed.
Lemma slot_prev c n : (c mod Z.of_nat T = Z.of_nat (n + 1) mod Z.of_nat T)%Z -> slot T (1 + (c - 2) mod Z.of_nat T) = Some (pslot n).
Proof.
  intros E. unfold slot, pyindex, pslot. replace (1 + (c - 2) mod Z.of_nat T - 1)%Z with ((c - 2) mod Z.of_nat T)%Z by lia.
  pose proof (Z.mod_pos_bound (c - 2) (Z.of_nat T) ltac:(lia)) as B.
  assert (Ec : ((c - 2) mod Z.of_nat T = Z.of_nat (n + T - 1) mod Z.of_nat T)%Z).
  { rewrite Zminus_mod, E, <- Zminus_mod. replace (Z.of_nat (n + T - 1)) with (Z.of_nat (n + 1) - 2 + 1 * Z.of_nat T)%Z by lia. rewrite Z.mod_add by lia. reflexivity. }
  rewrite <- Nat2Z.inj_mod in Ec. set (r := ((c - 2) mod Z.of_nat T)%Z) in *. clearbody r. set (m := (n + T - 1) mod T) in *. clearbody m.
  replace ((0 <=? r)%Z && (r <? Z.of_nat T)%Z) with true by lia. f_equal. lia.
Qed.
Definition cur_ok (s : st) : Prop := forall l, (0 <= cur s l <= Z.of_nat T)%Z.
Lemma levels_ok n : forall m lvl s fuel, 1 <= lvl -> lvl + m = num_times \/ (m = 0 /\ num_times <= lvl) -> 2 * m < fuel -> cur_ok s ->
  (forall l, l < lvl -> done s l n) -> (forall l, lvl <= l -> l < num_times -> waiting s l n) ->
  exists s', levels conv T num_times labels max_cts fuel lvl s = Some s' /\ cur_ok s' /\ forall l, l < Nat.max lvl num_times -> done s' l n.
Proof.
  induction m as [|m IH]; intros lvl s fuel Hl Hm Hf HC HD HW.
  - destruct fuel as [|fuel]; [lia|]. cbn [levels]. replace (lvl <? num_times) with false by lia. exists s. split; [reflexivity|]. split; [exact HC|].
    intros l Hl'. apply HD. lia.
  - destruct Hm as [Hm|Hm]; [|lia]. destruct fuel as [|[|fuel]]; [lia|lia|]. cbn [levels]. replace (lvl <? num_times) with true by lia.
    destruct (HW lvl ltac:(lia) ltac:(lia)) as [W1 [W2 [W3 W4]]]. rewrite W2. cbn [negb trk cur buf]. unfold set1 at 1. rewrite Nat.eqb_refl. cbn [negb].
    destruct (HD (lvl - 1) ltac:(lia)) as [D1 [D2 [D3 [D4 [D5 D6]]]]].
    rewrite (slot_prev _ n D2). cbn [bind]. rewrite D1. cbn [bind].
    set (c := (1 + cur s lvl mod Z.of_nat T)%Z).
    assert (Bc : (0 <= c <= Z.of_nat T)%Z) by (unfold c; pose proof (Z.mod_pos_bound (cur s lvl) (Z.of_nat T) ltac:(lia)); lia).
    assert (Ec : (c mod Z.of_nat T = Z.of_nat (n + 1) mod Z.of_nat T)%Z).
    { unfold c. rewrite W1. rewrite Zplus_mod_idemp_r. f_equal. lia. }
    rewrite (slot_of c n Ec Bc). cbn [bind]. rewrite D4, D5.
    assert (Em : fadd conv (before conv np imgs (lvl - 1) n) (mix (lvl - 1) n) = mix lvl n) by (rewrite <- mixed_step by assumption; f_equal; lia). rewrite Em.
    set (s1 := St (set2 (buf s) lvl (zslot n) (mix lvl n)) (set1 (cur s) lvl c) (set1 (set1 (trk s) lvl true) lvl false) (ipl s) (bad s) (pk s) (pw s)).
    destruct (process_keeps lvl (zslot n) s1) as [P1 [P2 P3]].
    assert (B1 : buf s1 lvl (zslot n) = mix lvl n). { unfold s1, set2, set1. cbn [buf]. rewrite !Nat.eqb_refl. reflexivity. }
    destruct (IH (lvl + 1) (process labels max_cts lvl (zslot n) s1) fuel) as [s' [E [C' D']]].
    + lia.
    + lia.
    + lia.
    + intros l. rewrite P2. unfold s1, set1. cbn [cur]. destruct (l =? lvl); [exact Bc|apply HC].
    + intros l Hl'. unfold done. rewrite P1, P2, P3. destruct (Nat.eq_dec l lvl) as [->|Ne].
      * unfold s1 at 1 2 3. cbn [cur trk]. unfold set1. rewrite Nat.eqb_refl. split; [apply slot_of; assumption|]. split; [exact Ec|]. split; [reflexivity|].
        split; [exact B1|]. split.
        -- unfold s1, set2, set1. cbn [buf]. rewrite Nat.eqb_refl. replace (pslot n =? zslot n) with false; [exact W3|]. symmetry. apply Nat.eqb_neq. intros X. symmetry in X. exact (slots_differ n X).
        -- apply process_counted; [exact W4|exact B1].
      * destruct (HD l ltac:(lia)) as [G1 [G2 [G3 [G4 [G5 G6]]]]]. assert (Ef : (l =? lvl) = false) by (apply Nat.eqb_neq; exact Ne).
        unfold s1 at 1 2 3 4 5. cbn [cur trk buf]. unfold set2, set1. rewrite Ef. repeat (split; [assumption|]). apply process_other; [exact Ne|exact G6].
    + intros l Hl1 Hl2. unfold waiting. rewrite P1, P2, P3. destruct (HW l ltac:(lia) Hl2) as [G1 [G2 [G3 G4]]].
      assert (Ne : l <> lvl) by lia. assert (Ef : (l =? lvl) = false) by (apply Nat.eqb_neq; exact Ne).
      unfold s1 at 1 2 3. cbn [cur trk buf]. unfold set2, set1. rewrite Ef. repeat (split; [assumption|]). apply process_other; [exact Ne|exact G4].
    + exists s'. split; [exact E|]. split; [exact C'|]. intros l Hl'. apply D'. lia.
Qed.
Lemma image_ok n s img : 1 <= num_times -> nth_error imgs n = Some img -> cur_ok s -> (forall l, l < num_times -> waiting s l n) ->
  exists s', one_image conv T num_times labels max_cts s img = Some s' /\ cur_ok s' /\ forall l, l < num_times -> done s' l n.
Proof.
  intros Hn Ei HC HW. unfold one_image. destruct (HW 0 ltac:(lia)) as [W1 [W2 [W3 W4]]].
  set (c := ((1 + cur s 0) mod Z.of_nat T)%Z).
  assert (Bc : (0 <= c <= Z.of_nat T)%Z) by (unfold c; pose proof (Z.mod_pos_bound (1 + cur s 0) (Z.of_nat T) ltac:(lia)); lia).
  assert (Ec : (c mod Z.of_nat T = Z.of_nat (n + 1) mod Z.of_nat T)%Z).
  { unfold c. rewrite Z.mod_mod by lia. rewrite <- Zplus_mod_idemp_r, W1, Zplus_mod_idemp_r. f_equal. lia. }
  rewrite (slot_of c n Ec Bc). cbn [bind].
  assert (Em : img = mix 0 n). { symmetry. apply mixed_0; [exact Ei|]. intros x ->. apply Hlen. eapply nth_error_In; exact Ei. }
  set (s1 := St (set2 (buf s) 0 (zslot n) img) (set1 (cur s) 0 c) (trk s) (ipl s) (bad s) (pk s) (pw s)).
  destruct (process_keeps 0 (zslot n) s1) as [P1 [P2 P3]].
  assert (B1 : buf s1 0 (zslot n) = mix 0 n). { unfold s1, set2, set1. cbn [buf]. rewrite !Nat.eqb_refl. exact Em. }
  destruct (levels_ok n (num_times - 1) 1 (process labels max_cts 0 (zslot n) s1) (2 * num_times + 1)) as [s' [E [C' D']]].
  - lia.
  - lia.
  - lia.
  - intros l. rewrite P2. unfold s1, set1. cbn [cur]. destruct (l =? 0); [exact Bc|apply HC].
  - intros l Hl. assert (l = 0) by lia. subst l. unfold done. rewrite P1, P2, P3. unfold s1 at 1 2 3. cbn [cur trk]. unfold set1. rewrite Nat.eqb_refl.
    split; [apply slot_of; assumption|]. split; [exact Ec|]. split; [exact W2|]. split; [exact B1|]. split.
    + unfold s1, set2, set1. cbn [buf]. rewrite Nat.eqb_refl. replace (pslot n =? zslot n) with false; [exact W3|]. symmetry. apply Nat.eqb_neq. intros X. symmetry in X. exact (slots_differ n X).
    + apply process_counted; [exact W4|exact B1].
  - intros l Hl1 Hl2. unfold waiting. rewrite P1, P2, P3. destruct (HW l Hl2) as [G1 [G2 [G3 G4]]]. assert (Ne : l <> 0) by lia.
    assert (Ef : (l =? 0) = false) by (apply Nat.eqb_neq; exact Ne).
    unfold s1 at 1 2 3. cbn [cur trk buf]. unfold set2, set1. rewrite Ef. repeat (split; [assumption|]). apply process_other; [exact Ne|exact G4].
  - exists s'. split; [exact E|]. split; [exact C'|]. intros l Hl. apply D'. lia.
Qed.
Lemma start_waiting l : waiting (start T labels) l 0.
Proof.
  unfold waiting, start. cbn [cur trk buf]. split; [change (Z.of_nat 0) with 0%Z; rewrite Z_mod_same_full, Zmod_0_l; reflexivity|]. split; [reflexivity|]. split; [reflexivity|].
  unfold counted, goods. cbn. split; [reflexivity|]. split; [reflexivity|]. split; intros; reflexivity.
Qed.
Lemma start_cur : cur_ok (start T labels). Proof. intros l. unfold start. cbn [cur]. lia. Qed.

(** The densities of the set so far. *)
Definition set_mean (n l j b : nat) : Qc := mean_good (mix l) (hd l j b) n.
Definition set_mean2 (n l j b : nat) : Qc := mean_good (mix l) (fun px => (hd l j b px * hd l j b px)%Qc) n.
(** prob_k_all after the images n, n+1, ... *)
Fixpoint blended (i : nat) (p : nat -> Qc) (a : Qc) (ns : list nat) : Qc :=
  match ns with [] => a | n :: r => blended i p (a + (p n - a) / qn (i + 1))%Qc r end.
Lemma images_ok i : 1 <= num_times -> forall rest n s all allp, imgs = firstn n imgs ++ rest -> n <= length imgs -> cur_ok s -> (forall l, l < num_times -> waiting s l n) ->
  exists s' all' allp', foldM (image_body conv T num_times labels max_cts i) rest (s, all, allp) = Some (s', all', allp') /\
    forall l j b, l < num_times -> all' l j b = blended i (fun m => set_mean (m + 1) l j b) (all l j b) (seq n (length rest)) /\
                            allp' l j b = blended i (fun m => set_mean2 (m + 1) l j b) (allp l j b) (seq n (length rest)).
Proof.
  intros Hn. induction rest as [|img rest IH]; intros n s all allp Hi Hl HC HW.
  - exists s, all, allp. split; [reflexivity|]. intros l j b _. split; reflexivity.
  - assert (Lf : length (firstn n imgs) = n) by (rewrite firstn_length; lia).
    assert (Ei : nth_error imgs n = Some img). { rewrite Hi, nth_error_app2 by lia. rewrite Lf, Nat.sub_diag. reflexivity. }
    assert (Bn : n < length imgs) by (apply nth_error_Some; congruence).
    cbn [foldM]. unfold image_body at 1. destruct (image_ok n s img Hn Ei HC HW) as [s1 [E1 [C1 D1]]]. rewrite E1. cbn [bind].
    destruct (IH (n + 1) s1 (blend i all (pk s1)) (blend i allp (pw s1))) as [s' [all' [allp' [E' H']]]].
    + rewrite Nat.add_1_r. rewrite (firstn_skipn (S n) imgs) at 1 || idtac.
      assert (Es : firstn (S n) imgs = firstn n imgs ++ [img]).
      { clear -Ei. revert n Ei. induction imgs as [|a l IH]; intros [|n] E; cbn in E; try discriminate; [injection E as ->; reflexivity|]. cbn [firstn app]. f_equal. apply IH. exact E. }
      rewrite Es, <- app_assoc. exact Hi.
    + lia.
    + exact C1.
    + intros l Hl'. apply done_waiting, D1, Hl'.
    + exists s', all', allp'. split; [exact E'|]. intros l j b Hl'. destruct (H' l j b Hl') as [H1 H2]. cbn [length seq blended].
      destruct (D1 l Hl') as [_ [_ [_ [_ [_ [_ [_ [Hp Hq]]]]]]]].
      rewrite H1, H2. unfold blend. rewrite Hp, Hq. rewrite Nat.add_1_r. split; reflexivity.
Qed.
End Loop.

(** ** xsvs *)
Definition well_sized (conv : Z -> Z) (labels : list Z) (imgs : list frame) : Prop :=
  forall x, In (Some x) imgs -> length x = length labels /\ Forall (fun v => conv v = v) x.
Section Sets.
Context (conv : Z -> Z) (T num_times : nat) (labels : list Z) (max_cts : nat).
Hypothesis conv_0 : conv 0%Z = 0%Z.
Hypothesis conv_add : forall a b, conv (conv a + conv b)%Z = conv (a + b)%Z.
Hypothesis HT : 2 <= T.
Hypothesis Hn : 1 <= num_times.
Fixpoint all_sets (i : nat) (m : list frame -> nat -> nat -> nat -> nat -> Qc) (l j b : nat) (a : Qc) (image_sets : list (list frame)) : Qc :=
  match image_sets with
  | [] => a
  | imgs :: rest => all_sets (i + 1) m l j b (blended i (fun k => m imgs (k + 1) l j b) a (seq 0 (length imgs))) rest
  end.
Lemma sets_ok : forall image_sets i all allp, Forall (well_sized conv labels) image_sets ->
  exists r, sets conv T num_times labels max_cts i image_sets all allp = Some r /\ forall l j b, l < num_times ->
    fst r l j b = all_sets i (set_mean conv labels max_cts) l j b (all l j b) image_sets /\
    snd r l j b = all_sets i (set_mean2 conv labels max_cts) l j b (allp l j b) image_sets.
Proof.
  induction image_sets as [|imgs rest IH]; intros i all allp HF.
  - exists (all, allp). split; [reflexivity|]. intros. split; reflexivity.
  - inversion HF as [|? ? Hw HR]; subst. cbn [sets].
    destruct (images_ok conv T num_times labels max_cts imgs conv_0 conv_add HT Hw i Hn imgs 0 (start T labels) all allp) as [s' [all' [allp' [E H]]]].
    + reflexivity.
    + lia.
    + eapply start_cur; eassumption.
    + intros l _. eapply start_waiting; eassumption.
    + rewrite E. cbn [bind fst snd]. destruct (IH (i + 1) all' allp' HR) as [r [Er Hr]]. exists r. split; [exact Er|]. intros l j b Hl.
      destruct (Hr l j b Hl) as [H1 H2]. destruct (H l j b Hl) as [G1 G2]. rewrite H1, H2, G1, G2. split; reflexivity.
Qed.
Theorem xsvs_ok image_sets : Forall (well_sized conv labels) image_sets ->
  exists p v, xsvs conv T num_times labels max_cts image_sets = Some (p, v) /\ forall l j b, l < num_times ->
    p l j b = all_sets 0 (set_mean conv labels max_cts) l j b 0%Qc image_sets /\
    v l j b = (all_sets 0 (set_mean2 conv labels max_cts) l j b 0 image_sets - p l j b * p l j b)%Qc.
Proof.
  intros HF. unfold xsvs. destruct (sets_ok image_sets 0 (fun _ _ _ => 0%Qc) (fun _ _ _ => 0%Qc) HF) as [r [E H]]. rewrite E. cbn [bind].
  eexists _, _. split; [reflexivity|]. intros l j b Hl. cbv beta. destruct (H l j b Hl) as [H1 H2]. rewrite H1, H2. split; reflexivity.
Qed.
(** One image set: the mean over the good frames. *)
Lemma blended_0 p : forall ns a, ns <> [] -> blended 0 p a ns = p (last ns 0).
Proof.
  induction ns as [|n ns IH]; intros a H; [contradiction|]. cbn [blended]. assert (E : (a + (p n - a) / qn (0 + 1) = p n)%Qc).
  { change (qn (0 + 1)) with 1%Qc. field. discriminate. }
  rewrite E. destruct ns as [|m ns]; [reflexivity|]. rewrite IH by discriminate. reflexivity.
Qed.
Lemma last_seq n : last (seq 0 (S n)) 0 = n.
Proof. rewrite seq_S. apply last_last. Qed.
Theorem xsvs_one_set imgs : well_sized conv labels imgs ->
  exists p v, xsvs conv T num_times labels max_cts [imgs] = Some (p, v) /\ forall l j b, l < num_times ->
    p l j b = set_mean conv labels max_cts imgs (length imgs) l j b /\
    v l j b = (set_mean2 conv labels max_cts imgs (length imgs) l j b - p l j b * p l j b)%Qc.
Proof.
  intros Hw. destruct (xsvs_ok [imgs]) as [p [v [E H]]]; [constructor; [exact Hw|constructor]|]. exists p, v. split; [exact E|].
  intros l j b Hl. destruct (H l j b Hl) as [H1 H2]. cbn [all_sets] in H1, H2. destruct imgs as [|f imgs'] eqn:Ei.
  - cbn in H1, H2. rewrite H1. split; [reflexivity|]. rewrite H2, H1. reflexivity.
  - rewrite <- Ei in *. assert (Ns : seq 0 (length imgs) <> []) by (rewrite Ei; discriminate).
    rewrite blended_0 in H1, H2 by exact Ns. assert (El : length imgs = S (length imgs')) by (rewrite Ei; reflexivity).
    assert (Lst : last (seq 0 (length imgs)) 0 + 1 = length imgs) by (rewrite El, last_seq; lia). rewrite Lst in H1, H2. split; [exact H1|exact H2].
Qed.
(** Several sets: what the earlier sets contribute shrinks by i/(i+1) with every image. *)
Fixpoint qpow (q : Qc) (n : nat) : Qc := match n with 0 => 1%Qc | S m => (q * qpow q m)%Qc end.
Lemma blended_diff i p : forall ns a a', (blended i p a ns - blended i p a' ns = qpow (qn i / qn (i + 1)) (length ns) * (a - a'))%Qc.
Proof.
  induction ns as [|n ns IH]; intros a a'; cbn [blended length qpow]; [ring|]. rewrite IH.
  assert (N : qn (i + 1) <> 0%Qc) by (apply qn_neq0; lia). rewrite qn_add in N |- *. change (qn 1) with 1%Qc in *. field. exact N.
Qed.
Theorem last_set_dominates sets1 sets1' imgs l j b : length sets1 = length sets1' -> l < num_times ->
  Forall (well_sized conv labels) (sets1 ++ [imgs]) -> Forall (well_sized conv labels) (sets1' ++ [imgs]) ->
  exists p v p' v' q w q' w', xsvs conv T num_times labels max_cts (sets1 ++ [imgs]) = Some (p, v) /\ xsvs conv T num_times labels max_cts (sets1' ++ [imgs]) = Some (p', v') /\
    xsvs conv T num_times labels max_cts sets1 = Some (q, w) /\ xsvs conv T num_times labels max_cts sets1' = Some (q', w') /\
    (p l j b - p' l j b = qpow (qn (length sets1) / qn (length sets1 + 1)) (length imgs) * (q l j b - q' l j b))%Qc.
Proof.
  intros El Hl H1 H2. destruct (xsvs_ok _ H1) as [p [v [E1 P1]]]. destruct (xsvs_ok _ H2) as [p' [v' [E2 P2]]].
  apply Forall_app in H1, H2. destruct H1 as [H1 _], H2 as [H2 _]. destruct (xsvs_ok _ H1) as [q [w [E3 P3]]]. destruct (xsvs_ok _ H2) as [q' [w' [E4 P4]]].
  exists p, v, p', v', q, w, q', w'. repeat (split; [assumption|]).
  destruct (P1 l j b Hl) as [-> _], (P2 l j b Hl) as [-> _], (P3 l j b Hl) as [-> _], (P4 l j b Hl) as [-> _].
  assert (K : forall m ss i a, all_sets i m l j b a (ss ++ [imgs]) = blended (i + length ss) (fun k => m imgs (k + 1) l j b) (all_sets i m l j b a ss) (seq 0 (length imgs))).
  { intros m. induction ss as [|s ss IH]; intros i a; cbn [app all_sets length]; [rewrite Nat.add_0_r; reflexivity|]. rewrite IH. f_equal. lia. }
  rewrite !K. cbn [Nat.add]. rewrite <- El, blended_diff, seq_length. reflexivity.
Qed.
End Sets.

(** ** The histogram *)
Lemma edges_big max_cts l b : b + 2 <= edges max_cts l -> 2 <= edges max_cts l. Proof. lia. Qed.
Theorem density_ok max_cts l vals b : b + 2 <= max_cts * 2 ^ l ->
  let M := Z.of_nat (max_cts * 2 ^ l) in
  let total := length (filter (fun v => (0 <=? v)%Z && (v <? M)%Z) vals) in
  (density max_cts l vals b * qn total =
   qn (length (filter (fun v => (v =? Z.of_nat b)%Z) vals) + (if (Z.of_nat b + 2 =? M)%Z then length (filter (fun v => (v =? M - 1)%Z) vals) else 0)))%Qc \/ total = 0 /\ density max_cts l vals b = 0%Qc.
Proof.
  change (max_cts * 2 ^ l) with (edges max_cts l). intros Hb. cbv zeta. unfold density.
  assert (Et : forall vs, length (filter (in_range max_cts l) vs) = length (filter (fun v => (0 <=? v)%Z && (v <? Z.of_nat (edges max_cts l))%Z) vs)).
  { intros vs. f_equal. apply filter_ext. intros v. unfold in_range. pose proof (edges_big max_cts l b Hb). lia. }
  rewrite Et. set (total := length _). destruct (Nat.eqb_spec total 0) as [Z|N]; [right; split; [exact Z|reflexivity]|left].
  assert (Ec : length (filter (in_bin max_cts l b) vals) = length (filter (fun v => (v =? Z.of_nat b)%Z) vals) + (if (Z.of_nat b + 2 =? Z.of_nat (edges max_cts l))%Z then length (filter (fun v => (v =? Z.of_nat (edges max_cts l) - 1)%Z) vals) else 0)).
  { unfold in_bin. replace (b + 2 <=? edges max_cts l) with true by lia. cbn [andb].
    replace (Z.of_nat b + 2 =? Z.of_nat (edges max_cts l))%Z with (b + 2 =? edges max_cts l) by lia.
    clear total N Et. destruct (Nat.eqb_spec (b + 2) (edges max_cts l)) as [E|E]; induction vals as [|v vals IH]; cbn [filter length]; try reflexivity.
    - destruct ((Z.of_nat b <=? v)%Z && (v <=? Z.of_nat (b + 1))%Z) eqn:E1, (v =? Z.of_nat b)%Z eqn:E2, (v =? Z.of_nat (edges max_cts l) - 1)%Z eqn:E3; cbn [length]; lia.
    - destruct ((Z.of_nat b <=? v)%Z && (v <? Z.of_nat (b + 1))%Z) eqn:E1, (v =? Z.of_nat b)%Z eqn:E2; cbn [length]; lia. }
  rewrite Ec. pose proof (qn_neq0 _ N) as Nq. field. exact Nq.
Qed.
(** Counts at or above the number of edges are left out. *)
Theorem density_drops max_cts l vals b :
  density max_cts l vals b = density max_cts l (filter (fun v => (v <? Z.of_nat (max_cts * 2 ^ l))%Z) vals) b.
Proof.
  change (max_cts * 2 ^ l) with (edges max_cts l). unfold density.
  assert (K : forall p, (forall v, p v = true -> (v < Z.of_nat (edges max_cts l))%Z) -> filter p (filter (fun v => (v <? Z.of_nat (edges max_cts l))%Z) vals) = filter p vals).
  { intros p Hp. induction vals as [|v vs IH]; cbn; [reflexivity|]. destruct (v <? Z.of_nat (edges max_cts l))%Z eqn:E; cbn [filter]; [rewrite IH; reflexivity|].
    destruct (p v) eqn:Ep; [apply Hp in Ep; lia|exact IH]. }
  rewrite !K; [reflexivity| |]; intros v; unfold in_range, in_bin; destruct (b + 2 =? edges max_cts l) eqn:E; lia.
Qed.
(** ** normalize_bin_edges *)
Theorem normalized num_times mean_roi max_cts i j k m : i < num_times -> nth_error mean_roi j = Some m -> k < max_cts * 2 ^ i -> m <> 0%Qc ->
  (exists row e, nth_error (fst (normalize_bin_edges num_times mean_roi max_cts)) i = Some row /\ nth_error row j = Some e /\
    length e = max_cts * 2 ^ i /\ exists x, nth_error e k = Some x /\ (x * m * qn (2 ^ i) = qn k)%Qc) /\
  (exists row c, nth_error (snd (normalize_bin_edges num_times mean_roi max_cts)) i = Some row /\ nth_error row j = Some c /\
    length c = max_cts * 2 ^ i - 1 /\ (k + 1 < max_cts * 2 ^ i -> exists x, nth_error c k = Some x /\ (x * m * qn (2 ^ i) = qn k + Q2Qc (1 # 2))%Qc)).
Proof.
  intros Hi Hj Hk Hm. assert (Hq : qn (2 ^ i) <> 0%Qc) by (apply qn_neq0; apply Nat.pow_nonzero; lia).
  unfold normalize_bin_edges. cbn [fst snd]. set (M := max_cts * 2 ^ i) in *. split.
  - eexists _, _. split; [apply nth_error_map_seq; exact Hi|]. split; [rewrite nth_error_map, Hj; reflexivity|].
    split; [rewrite map_length, seq_length; reflexivity|]. eexists. split; [apply nth_error_map_seq; exact Hk|]. cbv beta. field. split; assumption.
  - eexists _, _. split; [rewrite nth_error_map, nth_error_map_seq by exact Hi; reflexivity|]. cbv beta. split; [rewrite nth_error_map, nth_error_map, Hj; reflexivity|]. cbv beta.
    set (e := map _ (seq 0 (max_cts * 2 ^ i))). assert (Le : length e = M) by (unfold e; rewrite map_length, seq_length; reflexivity).
    assert (Lt : length (tl e) = M - 1) by (rewrite <- Le; destruct e; cbn; lia).
    unfold centers. split; [rewrite map_length, combine_length, Lt, Le; lia|]. intros Hk1.
    exists ((qn k / (m * qn (2 ^ i)) + qn (k + 1) / (m * qn (2 ^ i))) * Q2Qc (1 # 2))%Qc. split.
    + rewrite nth_error_map. assert (E1 : nth_error e k = Some (qn k / (m * qn (2 ^ i)))%Qc) by (unfold e; rewrite nth_error_map_seq by exact Hk; reflexivity).
      assert (E2 : nth_error (tl e) k = Some (qn (k + 1) / (m * qn (2 ^ i)))%Qc).
      { assert (E3 : nth_error e (S k) = Some (qn (k + 1) / (m * qn (2 ^ i)))%Qc) by (rewrite <- Nat.add_1_r; unfold e; rewrite nth_error_map_seq by exact Hk1; reflexivity).
        destruct e; [destruct k; discriminate|exact E3]. }
      assert (Ec : forall (A : Type) (x y : A) (l1 l2 : list A) n, nth_error l1 n = Some x -> nth_error l2 n = Some y -> nth_error (combine l1 l2) n = Some (x, y)).
      { clear. intros A x y l1. induction l1 as [|a l1 IH]; intros [|b' l2] [|n] H1 H2; cbn in *; try discriminate; [congruence|apply IH; assumption]. }
      rewrite (Ec _ _ _ _ _ _ E1 E2). reflexivity.
    + rewrite qn_add. change (qn 1) with 1%Qc. assert (H2 : (Q2Qc (1 # 2) * (1 + 1) = 1)%Qc) by (apply Qc_is_canon; reflexivity).
      transitivity (qn k * (Q2Qc (1 # 2) * (1 + 1)) + Q2Qc (1 # 2))%Qc; [field; split; assumption|rewrite H2; ring].
Qed.
Theorem mean_of_sets_wrong : exists T num_times labels max_cts A B pA pB pAB pBA vA vB vAB vBA,
  xsvs exactly T num_times labels max_cts [A] = Some (pA, vA) /\ xsvs exactly T num_times labels max_cts [B] = Some (pB, vB) /\
  xsvs exactly T num_times labels max_cts [A; B] = Some (pAB, vAB) /\ xsvs exactly T num_times labels max_cts [B; A] = Some (pBA, vBA) /\
  pAB 0 0 0 <> ((pA 0%nat 0%nat 0%nat + pB 0%nat 0%nat 0%nat) / qn 2)%Qc /\ pAB 0 0 0 <> pBA 0 0 0.
Proof.
  set (A := [Some [0]; Some [0]]%Z). set (B := [Some [1]; Some [1]]%Z).
  assert (W : forall ss, (forall s, In s ss -> s = A \/ s = B) -> Forall (well_sized exactly [1%Z]) ss).
  { intros ss H. apply Forall_forall. intros s Hs x Hx. destruct (H s Hs) as [-> | ->]; destruct Hx as [Hx|[Hx|[]]]; injection Hx as <-; (split; [reflexivity|repeat constructor]). }
  pose proof (fun ss H => xsvs_ok exactly 2 1 [1%Z] 3 eq_refl (fun _ _ => eq_refl) ltac:(lia) ltac:(lia) ss (W ss H)) as K.
  destruct (K [A]) as [pA [vA [EA HA]]]; [intros s [<-|[]]; tauto|]. destruct (K [B]) as [pB [vB [EB HB]]]; [intros s [<-|[]]; tauto|].
  destruct (K [A; B]) as [pAB [vAB [EAB HAB]]]; [intros s [<-|[<-|[]]]; tauto|]. destruct (K [B; A]) as [pBA [vBA [EBA HBA]]]; [intros s [<-|[<-|[]]]; tauto|].
  exists 2, 1, [1%Z], 3, A, B, pA, pB, pAB, pBA, vA, vB, vAB, vBA. do 4 (split; [assumption|]).
  destruct (HA 0 0 0 ltac:(lia)) as [-> _], (HB 0 0 0 ltac:(lia)) as [-> _], (HAB 0 0 0 ltac:(lia)) as [-> _], (HBA 0 0 0 ltac:(lia)) as [-> _].
  split; intros E; apply (f_equal this) in E; vm_compute in E; discriminate.
Qed.

(** Regions *)
Lemma sorted_same (a : list Z) : forall b, StronglySorted Z.lt a -> StronglySorted Z.lt b -> (forall z, In z a <-> In z b) -> a = b.
Proof.
  induction a as [|x a IH]; intros [|y b] Sa Sb H.
  - reflexivity.
  - destruct (proj2 (H y) (or_introl eq_refl)).
  - destruct (proj1 (H x) (or_introl eq_refl)).
  - inversion Sa as [|? ? Sa' Fa]; inversion Sb as [|? ? Sb' Fb]; subst. rewrite Forall_forall in Fa, Fb.
    assert (x = y).
    { destruct (proj1 (H x) (or_introl eq_refl)) as [E|I]; [now symmetry|]. destruct (proj2 (H y) (or_introl eq_refl)) as [E|J]; [assumption|].
      pose proof (Fa y J). pose proof (Fb x I). lia. }
    subst y. f_equal. apply IH; [assumption|assumption|]. intros z. split; intros I.
    + destruct (proj1 (H z) (or_intror I)) as [E|K]; [|exact K]. subst z. pose proof (Fa x I). lia.
    + destruct (proj2 (H z) (or_intror I)) as [E|K]; [|exact K]. subst z. pose proof (Fb x I). lia.
Qed.
Lemma roi_data_ok labels px j us lab : length px = length labels -> StronglySorted Z.lt us -> (forall z, In z us <-> In z labels) ->
  nth_error us j = Some lab -> picked (fun p => nth_error labels p = Some lab) 0 px (roi_data labels px j).
Proof.
  intros L S H N. destruct (unique_ok labels) as [Su Hu]. assert (E : unique labels = us).
  { apply sorted_same; [assumption|assumption|]. intros z. rewrite Hu. symmetry. apply H. }
  unfold roi_data. rewrite E, N. apply select_eq_picked. now symmetry.
Qed.
