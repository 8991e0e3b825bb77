From Verif Require Import Common QcArith RingCtr_Model RingCtr_Spec.
Local Open Scope Qc_scope.
Local Open Scope list_scope.

Lemma qsum_map_0 {A} (l : list A) : qsum (map (fun _ => 0) l) = 0.
Proof. induction l as [|a l IH]; cbn; [reflexivity|]. rewrite IH. ring. Qed.
Lemma flat_map_filter {A B} (p : B -> bool) (f : A -> list B) l : filter p (flat_map f l) = flat_map (fun a => filter p (f a)) l.
Proof. induction l as [|a l IH]; cbn; [reflexivity|]. now rewrite filter_app, IH. Qed.
Lemma list_prod_flat {A B} (l : list A) (m : list B) : list_prod l m = flat_map (fun a => map (pair a) m) l.
Proof. induction l as [|a l IH]; cbn; [reflexivity|]. now rewrite IH. Qed.
Lemma filter_one i k s n : filter (fun p : nat * nat => (fst p + snd p =? k)%nat) (map (pair i) (seq s n)) = if ((i + s <=? k) && (k <? i + s + n))%nat then [(i, k - i)%nat] else [].
Proof.
  revert s. induction n as [|n IH]; intros s; cbn [seq map filter fst snd].
  - destruct (Nat.leb_spec (i + s) k), (Nat.ltb_spec k (i + s + 0)); try reflexivity; lia.
  - rewrite IH. destruct (Nat.eqb_spec (i + s) k), (Nat.leb_spec (i + S s) k), (Nat.leb_spec (i + s) k), (Nat.ltb_spec k (i + S s + n)), (Nat.ltb_spec k (i + s + S n)); cbn; try reflexivity; try lia. do 2 f_equal. lia.
Qed.
Lemma pairs_sum (f : nat -> nat -> Qc) n k : qsum (map (fun p => f (fst p) (snd p)) (pairs n k)) = qsum (map (fun i => if ((i <=? k) && (k <? i + n))%nat then f i (k - i)%nat else 0) (seq 0 n)).
Proof.
  unfold pairs. rewrite list_prod_flat, flat_map_filter. generalize (seq 0 n) at 2 3 as L. induction L as [|i L IH]; cbn [flat_map map]; [reflexivity|].
  rewrite map_app, qsum_app, IH, filter_one, !Nat.add_0_r. cbn [qsum]. f_equal. destruct (_ && _); cbn; [ring|reflexivity].
Qed.
Lemma qsum_ones (l : list (nat * nat)) : qsum (map (fun _ => 1) l) = qn (length l).
Proof. induction l as [|a l IH]; cbn; [reflexivity|]. rewrite IH, qn_S. ring. Qed.
Lemma correlate_ok v w : v <> [] -> w = rev v -> correlate v w = Some (map (fun k => qsum (map (fun p => nth (fst p) v 0 * nth (snd p) v 0) (pairs (length v) k))) (seq 0 (2 * length v - 1))).
Proof.
  intros N ->. unfold correlate. rewrite rev_length. destruct (Nat.eqb_spec (length v) 0) as [E|E]; [destruct v; [easy|discriminate]|]. cbn [orb]. f_equal.
  replace (length v + length v - 1)%nat with (2 * length v - 1)%nat by lia. apply map_ext_in. intros k Hk. apply in_seq in Hk.
  rewrite (pairs_sum (fun a b => nth a v 0 * nth b v 0)). f_equal. apply map_ext_in. intros l Hl. apply in_seq in Hl.
  destruct (Nat.leb_spec k (l + (length v - 1))), (Nat.ltb_spec (l + (length v - 1) - k) (length v)), (Nat.leb_spec l k), (Nat.ltb_spec k (l + length v)); cbn; try reflexivity; try lia.
  rewrite rev_nth by lia. do 2 f_equal. lia.
Qed.
Lemma nth_repeat_lt (x d : Qc) n i : (i < n)%nat -> nth i (repeat x n) d = x.
Proof. revert i. induction n as [|n IH]; intros [|i] H; cbn; try lia; [reflexivity|]. apply IH. lia. Qed.
Lemma pairs_in n k p : In p (pairs n k) <-> (fst p < n)%nat /\ (snd p < n)%nat /\ (fst p + snd p)%nat = k.
Proof. unfold pairs. rewrite filter_In, Nat.eqb_eq. destruct p as [a b]. rewrite in_prod_iff, !in_seq. cbn. lia. Qed.
Lemma rev_repeat (x : Qc) n : repeat x n = rev (repeat x n).
Proof. induction n as [|n IH]; [reflexivity|]. cbn. rewrite <- IH. clear. induction n as [|n IH]; cbn; [reflexivity|]. now f_equal. Qed.
Lemma norm_ok n : n <> 0%nat -> correlate (repeat 1 n) (repeat 1 n) = Some (map (fun k => qn (length (pairs n k))) (seq 0 (2 * n - 1))).
Proof.
  intros Hn. rewrite (correlate_ok (repeat 1 n) (repeat 1 n)); [|destruct n; [easy|discriminate]|apply rev_repeat]. rewrite repeat_length. f_equal. apply map_ext. intros k.
  rewrite <- qsum_ones. f_equal. apply map_ext_in. intros p Hp. apply pairs_in in Hp. rewrite !nth_repeat_lt by lia. ring.
Qed.
Lemma overlap_pairs n k : (k <= 2 * (n - 1))%nat -> n <> 0%nat -> length (pairs n k) = overlap n k.
Proof.
  intros Hk Hn. apply qn_inj. rewrite <- qsum_ones. rewrite (pairs_sum (fun _ _ => 1)). unfold overlap.
  assert (G : forall m s, qsum (map (fun i => if ((i <=? k) && (k <? i + n))%nat then 1 else 0) (seq s m)) = qn (Nat.min (S k) (s + m) - Nat.max s (S k - n))).
  { induction m as [|m IH]; intros s; cbn [seq map qsum]; [replace (Nat.min _ _ - _)%nat with 0%nat by lia; reflexivity|]. rewrite IH.
    destruct (Nat.leb_spec s k), (Nat.ltb_spec k (s + n)); cbn [andb]; [|replace (Nat.min (S k) (s + S m) - Nat.max s (S k - n))%nat with (Nat.min (S k) (S s + m) - Nat.max (S s) (S k - n))%nat by lia; ring..].
    replace (Nat.min (S k) (s + S m) - Nat.max s (S k - n))%nat with (S (Nat.min (S k) (S s + m) - Nat.max (S s) (S k - n)))%nat by lia. rewrite qn_S. ring. }
  rewrite G. f_equal. lia.
Qed.

(** ** argmax *)
Definition first_max (l : list Qc) (k : nat) : Prop := exists x, nth_error l k = Some x /\ (forall j y, nth_error l j = Some y -> y <= x) /\ (forall j y, (j < k)%nat -> nth_error l j = Some y -> y < x).
Lemma argmax_from_ok l : forall pre best m, nth_error pre best = Some m -> (forall j y, nth_error pre j = Some y -> y <= m) -> (forall j y, (j < best)%nat -> nth_error pre j = Some y -> y < m) ->
  first_max (pre ++ l) (argmax_from (length pre) best m l).
Proof.
  induction l as [|a l IH]; intros pre best m E U F; cbn [argmax_from].
  - rewrite app_nil_r. now exists m.
  - replace (pre ++ a :: l) with ((pre ++ [a]) ++ l) by now rewrite <- app_assoc. replace (S (length pre)) with (length (pre ++ [a])) by (rewrite app_length; cbn; lia).
    assert (Hb : (best < length pre)%nat) by (apply nth_error_Some; congruence).
    assert (Q : forall j y, nth_error (pre ++ [a]) j = Some y -> nth_error pre j = Some y \/ j = length pre /\ y = a).
    { intros j y Ey. destruct (Nat.lt_ge_cases j (length pre)) as [Hj|Hj]; [left; now rewrite nth_error_app1 in Ey|]. rewrite nth_error_app2 in Ey by lia.
      right. destruct (j - length pre)%nat as [|d] eqn:D; cbn in Ey; [split; [lia|congruence]|destruct d; discriminate]. }
    destruct (Qclt_le_dec m a) as [La|La]; apply IH.
    + rewrite nth_error_app2, Nat.sub_diag by lia. reflexivity.
    + intros j y Ey. destruct (Q _ _ Ey) as [G|[_ ->]]; [|apply Qcle_refl]. eapply Qcle_trans; [exact (U _ _ G)|now apply Qclt_le_weak].
    + intros j y Hj Ey. destruct (Q _ _ Ey) as [G|[-> _]]; [|lia]. eapply Qcle_lt_trans; [exact (U _ _ G)|exact La].
    + now rewrite nth_error_app1 by lia.
    + intros j y Ey. destruct (Q _ _ Ey) as [G|[_ ->]]; [exact (U _ _ G)|exact La].
    + intros j y Hj Ey. destruct (Q _ _ Ey) as [G|[-> _]]; [exact (F _ _ Hj G)|lia].
Qed.
Lemma argmax_ok l : l <> [] -> exists k, argmax l = Some k /\ first_max l k.
Proof.
  destruct l as [|a l]; [easy|]. intros _. cbn. eexists. split; [reflexivity|]. apply (argmax_from_ok l [a] 0 a); [reflexivity| |intros; lia].
  intros [|[|j]] y E; cbn in E; try discriminate. injection E as <-. apply Qcle_refl.
Qed.
Lemma first_max_unique l k k' : first_max l k -> first_max l k' -> k = k'.
Proof.
  intros (x & E & U & F) (x' & E' & U' & F'). destruct (Nat.lt_trichotomy k k') as [H|[H|H]]; [|exact H|].
  - exfalso. apply (Qclt_not_le x x'); [exact (F' _ _ H E)|exact (U _ _ E')].
  - exfalso. apply (Qclt_not_le x' x); [exact (F _ _ H E')|exact (U' _ _ E)].
Qed.

(** ** one row *)
Lemma scores_ok v : combine (map (fun k => qsum (map (fun p => nth (fst p) v 0 * nth (snd p) v 0) (pairs (length v) k))) (seq 0 (2 * length v - 1))) (map (fun k => qn (length (pairs (length v) k))) (seq 0 (2 * length v - 1)))
  = map (fun k => (qsum (map (fun p => nth (fst p) v 0 * nth (snd p) v 0) (pairs (length v) k)), qn (length (pairs (length v) k)))) (seq 0 (2 * length v - 1)).
Proof. generalize (seq 0 (2 * length v - 1)) as L. induction L as [|a L IH]; cbn; [reflexivity|]. f_equal. exact IH. Qed.
Lemma first_max_votes v k : v <> [] -> first_max (map (agreement v) (seq 0 (2 * length v - 1))) k <-> (k <= 2 * (length v - 1))%nat /\
    (forall k', (k' <= 2 * (length v - 1))%nat -> agreement v k' <= agreement v k) /\ (forall k', (k' < k)%nat -> agreement v k' < agreement v k).
Proof.
  intros Nv. assert (Hl : (0 < length v)%nat) by (destruct v; [easy|cbn; lia]).
  assert (A : forall j, (j < 2 * length v - 1)%nat -> nth_error (map (agreement v) (seq 0 (2 * length v - 1))) j = Some (agreement v j)) by (intros j Hj; now apply nth_error_map_seq).
  split.
  - intros (x & E & U & F). assert (Hk : (k < 2 * length v - 1)%nat). { assert (X : nth_error (map (agreement v) (seq 0 (2 * length v - 1))) k <> None) by congruence. apply nth_error_Some in X. now rewrite map_length, seq_length in X. }
    rewrite A in E by exact Hk. injection E as <-. split; [lia|]. split; intros k' Hk'; [apply (U k'), A; lia|apply (F k'); [exact Hk'|apply A; lia]].
  - intros (Hk & U & F). exists (agreement v k). split; [apply A; lia|]. split.
    + intros j y Ey. assert (Hj : (j < 2 * length v - 1)%nat). { assert (X : nth_error (map (agreement v) (seq 0 (2 * length v - 1))) j <> None) by congruence. apply nth_error_Some in X. now rewrite map_length, seq_length in X. }
      rewrite A in Ey by exact Hj. injection Ey as <-. apply U. lia.
    + intros j y Hj Ey. rewrite A in Ey by lia. injection Ey as <-. now apply F.
Qed.
Lemma row_ok v : v <> [] -> exists k, row_estimate (map (fun k => qn (length (pairs (length v) k))) (seq 0 (2 * length v - 1))) v = Some (qn k / qn 2) /\
  (k <= 2 * (length v - 1))%nat /\ (forall k', (k' <= 2 * (length v - 1))%nat -> agreement v k' <= agreement v k) /\ (forall k', (k' < k)%nat -> agreement v k' < agreement v k).
Proof.
  intros Nv. unfold row_estimate. rewrite (correlate_ok v (rev v)) by (assumption || reflexivity). cbn [bind]. rewrite scores_ok, map_map. cbn [fst snd].
  change (fun x => _ / _) with (agreement v). assert (Hl : (0 < length v)%nat) by (destruct v; [easy|cbn; lia]).
  destruct (argmax_ok (map (agreement v) (seq 0 (2 * length v - 1)))) as (k & E & M). { destruct (2 * length v - 1)%nat eqn:D; [lia|discriminate]. }
  rewrite E. cbn [bind]. exists k. split; [reflexivity|]. now apply first_max_votes.
Qed.
Lemma in_bin_ok dim i k : (k <= 2 * (dim - 1))%nat -> (i < dim)%nat -> in_bin dim i (qn k / qn 2) = (Nat.div k 2 =? i)%nat.
Proof.
  intros Hk Hi. unfold in_bin. pose proof (qn_pos 2 ltac:(lia)) as P2. pose proof (Nat.div_mod k 2 ltac:(lia)) as D. pose proof (Nat.mod_upper_bound k 2 ltac:(lia)) as M.
  assert (L : Qc_leb (qn i) (qn k / qn 2) = (i * 2 <=? k)%nat).
  { destruct (Qc_leb_spec (qn i) (qn k / qn 2)) as [H|H], (Nat.leb_spec (i * 2) k) as [G|G]; try reflexivity; exfalso.
    - apply Qc_le_div in H; [|exact P2]. rewrite <- qn_mul in H. apply qn_le_inv in H. lia.
    - apply H. apply Qc_le_div; [exact P2|]. rewrite <- qn_mul. apply qn_le. lia. }
  assert (U : Qc_ltb (qn k / qn 2) (qn (S i)) = (k <? S i * 2)%nat).
  { destruct (Qc_ltb_spec (qn k / qn 2) (qn (S i))) as [H|H], (Nat.ltb_spec k (S i * 2)) as [G|G]; try reflexivity; exfalso.
    - apply Qc_div_lt in H; [|exact P2]. rewrite <- qn_mul in H. apply qn_lt_inv in H. lia.
    - apply H. apply Qc_div_lt; [exact P2|]. rewrite <- qn_mul. apply qn_lt. lia. }
  assert (Z : Qc_eqb (qn k / qn 2) (qn dim) = false).
  { destruct (Qc_eqb_spec (qn k / qn 2) (qn dim)) as [H|H]; [|reflexivity]. exfalso. assert (E : qn k = qn (dim * 2)). { rewrite qn_mul, <- H. field. apply qn_neq0. lia. } apply qn_inj in E. lia. }
  rewrite L, U, Z, andb_false_r, orb_false_r. lia.
Qed.

(** ** the election *)
Lemma mapM_some {A B} (f : A -> option B) (P : A -> B -> Prop) l : (forall a, In a l -> exists b, f a = Some b /\ P a b) -> exists bs, mapM f l = Some bs /\ Forall2 P l bs.
Proof.
  induction l as [|a l IH]; intros H; cbn; [eexists; split; [reflexivity|constructor]|]. destruct (H a) as (b & E & Pb); [now left|]. rewrite E. cbn [bind].
  destruct IH as (bs & Es & Fs); [intros; apply H; now right|]. rewrite Es. eexists. split; [reflexivity|]. now constructor.
Qed.
Lemma count_filter dim i ks : Forall (fun k => (k <= 2 * (dim - 1))%nat) ks -> (i < dim)%nat -> length (filter (in_bin dim i) (map (fun k => qn k / qn 2) ks)) = count_occ Nat.eq_dec (map (fun k => Nat.div k 2) ks) i.
Proof.
  intros F Hi. induction F as [|k ks Hk F IH]; [reflexivity|]. cbn [map filter count_occ]. rewrite in_bin_ok by assumption. destruct (Nat.eqb_spec (k / 2) i), (Nat.eq_dec (k / 2) i); cbn; try lia; now rewrite IH.
Qed.
Lemma corr_ok dim lines : dim <> 0%nat -> Forall (fun v => length v = dim) lines -> exists bs, Forall2 votes lines bs /\ corr_ax1 dim lines = Some (map (count_occ Nat.eq_dec bs) (seq 0 dim)).
Proof.
  intros Hd F. unfold corr_ax1. rewrite norm_ok by exact Hd. cbn [bind].
  assert (G : exists ks, mapM (row_estimate (map (fun k => qn (length (pairs dim k))) (seq 0 (2 * dim - 1)))) lines = Some (map (fun k => qn k / qn 2) ks) /\ Forall2 votes lines (map (fun k => Nat.div k 2) ks) /\ Forall (fun k => (k <= 2 * (dim - 1))%nat) ks).
  { induction F as [|v lines Hv F (ks & E & V & B)]; [exists []; split; [reflexivity|split; constructor]|].
    destruct (row_ok v) as (k & Ek & Hk & U & M); [destruct v; [cbn in Hv; lia|discriminate]|]. exists (k :: ks). rewrite Hv in Ek. cbn [mapM]. rewrite Ek. cbn [bind]. rewrite E. cbn [bind].
    split; [reflexivity|]. split; [|constructor; [now rewrite <- Hv|exact B]]. cbn [map]. constructor; [|exact V]. exists k. auto. }
  destruct G as (ks & E & V & B). rewrite E. cbn [bind]. eexists. split; [exact V|]. f_equal. apply map_ext_in. intros i Hi. apply in_seq in Hi. apply count_filter; [exact B|lia].
Qed.
Lemma elect_ok dim lines bs : dim <> 0%nat -> Forall2 votes lines bs -> exists c, argmax (map qn (map (count_occ Nat.eq_dec bs) (seq 0 dim))) = Some c /\ elected dim lines c.
Proof.
  intros Hd V. destruct (argmax_ok (map qn (map (count_occ Nat.eq_dec bs) (seq 0 dim)))) as (c & E & x & Ex & U & F); [destruct dim; [easy|discriminate]|].
  exists c. split; [exact E|]. exists bs. split; [exact V|]. rewrite map_map in *.
  assert (A : forall j, (j < dim)%nat -> nth_error (map (fun x => qn (count_occ Nat.eq_dec bs x)) (seq 0 dim)) j = Some (qn (count_occ Nat.eq_dec bs j))) by (intros j Hj; now apply (nth_error_map_seq (fun x => qn (count_occ Nat.eq_dec bs x)))).
  assert (Hc : (c < dim)%nat). { assert (X : nth_error (map (fun x => qn (count_occ Nat.eq_dec bs x)) (seq 0 dim)) c <> None) by congruence. apply nth_error_Some in X. now rewrite map_length, seq_length in X. }
  rewrite A in Ex by exact Hc. injection Ex as <-. split; [exact Hc|]. split; intros c' Hc'.
  - apply qn_le_inv, (U c'), A, Hc'.
  - apply qn_lt_inv, (F c'); [exact Hc'|apply A; lia].
Qed.
Lemma votes_unique v b b' : v <> [] -> votes v b -> votes v b' -> b = b'.
Proof.
  intros Nv (k & H & -> & U & F) (k' & H' & -> & U' & F'). f_equal. apply (first_max_unique (map (agreement v) (seq 0 (2 * length v - 1)))); now apply first_max_votes.
Qed.
Lemma votes_all lines bs bs' : Forall (fun v => v <> []) lines -> Forall2 votes lines bs -> Forall2 votes lines bs' -> bs = bs'.
Proof.
  intros N V. revert bs'. induction V as [|v b lines bs Hv V IH]; intros bs' V'; inversion V'; subst; [reflexivity|]. inversion N; subst. f_equal; [now apply (votes_unique v)|auto].
Qed.
Lemma elected_unique n lines c c' : Forall (fun v => v <> []) lines -> elected n lines c -> elected n lines c' -> c = c'.
Proof.
  intros N (bs & V & Hc & U & F) (bs' & V' & Hc' & U' & F'). rewrite <- (votes_all _ _ _ N V V') in *.
  destruct (Nat.lt_trichotomy c c') as [H|[H|H]]; [|exact H|].
  - specialize (F' _ H). specialize (U _ Hc'). lia.
  - specialize (F _ H). specialize (U' _ Hc). lia.
Qed.
Lemma Forall2_length {A B} (P : A -> B -> Prop) l m : Forall2 P l m -> length l = length m.
Proof. induction 1; cbn; congruence. Qed.
(** a pixel with more than half of the votes wins *)
Lemma majority n lines bs c c' : Forall (fun v => v <> []) lines -> Forall2 votes lines bs -> (c < n)%nat -> (length lines < 2 * count_occ Nat.eq_dec bs c)%nat -> elected n lines c' -> c' = c.
Proof.
  intros N V Hc M (bs' & V' & Hc' & U & F). rewrite <- (votes_all _ _ _ N V V') in *.
  assert (T : c <> c' -> (count_occ Nat.eq_dec bs c + count_occ Nat.eq_dec bs c' <= length bs)%nat).
  { intros D. clear - D. induction bs as [|b bs IH]; cbn; [lia|]. destruct (Nat.eq_dec b c), (Nat.eq_dec b c'); cbn; lia. }
  pose proof (Forall2_length _ _ _ V). specialize (U _ Hc). destruct (Nat.eq_dec c c') as [|D]; [congruence|]. specialize (T D). lia.
Qed.

(** ** one bright pixel, two equally bright pixels *)
Definition spot (n p : nat) (a : Qc) : list Qc := map (fun j => if (j =? p)%nat then a else 0) (seq 0 n).
Lemma spot_nth n p a i : (p < n)%nat -> nth i (spot n p a) 0 = if (i =? p)%nat then a else 0.
Proof.
  intros Hp. unfold spot. destruct (Nat.lt_ge_cases i n) as [H|H].
  - apply nth_error_nth. now apply (nth_error_map_seq (fun j => if (j =? p)%nat then a else 0)).
  - rewrite nth_overflow by (now rewrite map_length, seq_length). destruct (Nat.eqb_spec i p); [lia|reflexivity].
Qed.
Lemma qsum_single (f : nat -> Qc) n p : (p < n)%nat -> (forall i, i <> p -> f i = 0) -> qsum (map f (seq 0 n)) = f p.
Proof.
  intros Hp H. assert (G : forall m s, qsum (map f (seq s m)) = if ((s <=? p) && (p <? s + m))%nat then f p else 0).
  { induction m as [|m IH]; intros s; cbn [seq map qsum]; [destruct (Nat.leb_spec s p), (Nat.ltb_spec p (s + 0)); try reflexivity; lia|]. rewrite IH.
    destruct (Nat.eq_dec s p) as [->|D].
    - replace ((S p <=? p) && (p <? S p + m))%nat with false by lia. replace ((p <=? p) && (p <? p + S m))%nat with true by lia. ring.
    - rewrite (H s) by exact D. replace ((s <=? p) && (p <? s + S m))%nat with ((S s <=? p) && (p <? S s + m))%nat by lia. ring. }
  rewrite G. destruct (Nat.leb_spec 0 p), (Nat.ltb_spec p (0 + n)); cbn; try lia; reflexivity.
Qed.
Lemma agreement_sum v k : v <> [] -> (k <= 2 * (length v - 1))%nat ->
  agreement v k = qsum (map (fun i => if ((i <=? k) && (k <? i + length v))%nat then nth i v 0 * nth (k - i) v 0 else 0) (seq 0 (length v))) / qn (overlap (length v) k).
Proof.
  intros N H. unfold agreement. rewrite (pairs_sum (fun a b => nth a v 0 * nth b v 0)), overlap_pairs; [reflexivity|exact H|destruct v; [easy|discriminate]].
Qed.
Lemma spot_length n p a : length (spot n p a) = n. Proof. unfold spot. now rewrite map_length, seq_length. Qed.
Lemma spot_agreement n p a k : (p < n)%nat -> (k <= 2 * (n - 1))%nat -> agreement (spot n p a) k = if (k =? 2 * p)%nat then a * a / qn (overlap n k) else 0.
Proof.
  intros Hp Hk. rewrite agreement_sum; [|intros E; apply (f_equal (@length Qc)) in E; rewrite spot_length in E; cbn in E; lia|now rewrite spot_length]. rewrite spot_length.
  rewrite (qsum_single _ n p Hp); [|intros i Hi; rewrite !spot_nth by exact Hp; destruct (Nat.eqb_spec i p); [easy|]; destruct (_ && _); ring].
  rewrite !spot_nth, Nat.eqb_refl by exact Hp. destruct (Nat.eqb_spec k (2 * p)) as [->|D].
  - destruct (Nat.leb_spec p (2 * p)), (Nat.ltb_spec (2 * p) (p + n)); try lia. cbn [andb]. replace (2 * p - p =? p)%nat with true by lia. reflexivity.
  - destruct (Nat.leb_spec p k), (Nat.ltb_spec k (p + n)); cbn [andb]; [replace (k - p =? p)%nat with false by lia| | |]; unfold Qcdiv; ring.
Qed.
Lemma Qc_sq_pos a : a <> 0 -> 0 < a * a.
Proof.
  intros H. destruct (Qclt_le_dec 0 a) as [P|P]; [qcnra|]. assert (L : a < 0) by (apply Qcle_lt_or_eq in P as [P|P]; [exact P|congruence]). qcnra.
Qed.
Lemma spot_votes n p a : (p < n)%nat -> a <> 0 -> votes (spot n p a) p.
Proof.
  intros Hp Ha. exists (2 * p)%nat. rewrite spot_length.
  assert (P : 0 < agreement (spot n p a) (2 * p)). { rewrite spot_agreement by lia. rewrite Nat.eqb_refl. apply Qc_div_pos; [now apply Qc_sq_pos|apply qn_pos; unfold overlap; lia]. }
  split; [lia|]. split; [rewrite Nat.mul_comm, Nat.div_mul by lia; reflexivity|]. split; intros k' Hk'.
  - rewrite (spot_agreement n p a k') by lia. destruct (Nat.eqb_spec k' (2 * p)) as [->|]; [rewrite spot_agreement, Nat.eqb_refl by lia; apply Qcle_refl|now apply Qclt_le_weak].
  - rewrite (spot_agreement n p a k') by lia. replace (k' =? 2 * p)%nat with false by lia. exact P.
Qed.
Definition spots (n p q : nat) (a : Qc) : list Qc := map (fun j => if ((j =? p) || (j =? q))%nat then a else 0) (seq 0 n).
Lemma spots_length n p q a : length (spots n p q a) = n. Proof. unfold spots. now rewrite map_length, seq_length. Qed.
Lemma spots_nth n p q a i : (p < n)%nat -> (q < n)%nat -> nth i (spots n p q a) 0 = if ((i =? p) || (i =? q))%nat then a else 0.
Proof.
  intros Hp Hq. unfold spots. destruct (Nat.lt_ge_cases i n) as [H|H].
  - apply nth_error_nth. now apply (nth_error_map_seq (fun j => if ((j =? p) || (j =? q))%nat then a else 0)).
  - rewrite nth_overflow by (now rewrite map_length, seq_length). destruct (Nat.eqb_spec i p), (Nat.eqb_spec i q); try lia; reflexivity.
Qed.
Lemma qsum_map_add {A} (f g : A -> Qc) l : qsum (map (fun i => f i + g i) l) = qsum (map f l) + qsum (map g l).
Proof. induction l as [|a l IH]; cbn; [ring|]. rewrite IH. ring. Qed.
Lemma qsum_two (f : nat -> Qc) n p q : (p < n)%nat -> (q < n)%nat -> p <> q -> (forall i, i <> p -> i <> q -> f i = 0) -> qsum (map f (seq 0 n)) = f p + f q.
Proof.
  intros Hp Hq D H. 
  transitivity (qsum (map (fun i => (if (i =? p)%nat then f p else 0) + (if (i =? q)%nat then f q else 0)) (seq 0 n))).
  - f_equal. apply map_ext. intros i. destruct (Nat.eqb_spec i p) as [E1|E1], (Nat.eqb_spec i q) as [E2|E2]; subst; try lia; try ring. rewrite H by assumption. ring.
  - rewrite qsum_map_add. rewrite (qsum_single (fun i => if (i =? p)%nat then f p else 0) n p Hp), (qsum_single (fun i => if (i =? q)%nat then f q else 0) n q Hq), !Nat.eqb_refl; [reflexivity|..];
      intros i Hi; apply Nat.eqb_neq in Hi; now rewrite Hi.
Qed.
Lemma spots_agreement n p q a k : (p < q)%nat -> (q < n)%nat -> (k <= 2 * (n - 1))%nat ->
  agreement (spots n p q a) k = a * a * qn (if (k =? p + q)%nat then 2 else if ((k =? 2 * p) || (k =? 2 * q))%nat then 1 else 0) / qn (overlap n k).
Proof.
  intros Hp Hq Hk. rewrite agreement_sum; [|intros E; apply (f_equal (@length Qc)) in E; rewrite spots_length in E; cbn in E; lia|now rewrite spots_length]. rewrite spots_length. f_equal.
  rewrite (qsum_two _ n p q); [|lia..|intros i H1 H2; rewrite !spots_nth by lia; apply Nat.eqb_neq in H1, H2; rewrite H1, H2; cbn [orb]; destruct (_ && _); ring].
  rewrite !spots_nth, !Nat.eqb_refl by lia. rewrite orb_true_r. cbn [orb].
  destruct (Nat.eqb_spec k (p + q)) as [->|N1]; [|destruct (Nat.eqb_spec k (2 * p)) as [->|N2]; [|destruct (Nat.eqb_spec k (2 * q)) as [->|N3]]]; cbn [orb].
  - replace ((p <=? p + q) && (p + q <? p + n))%nat with true by lia. replace ((q <=? p + q) && (p + q <? q + n))%nat with true by lia.
    replace ((p + q - p =? p) || (p + q - p =? q))%nat with true by lia. replace ((p + q - q =? p) || (p + q - q =? q))%nat with true by lia. change (qn 2) with (1 + 1). ring.
  - replace ((p <=? 2 * p) && (2 * p <? p + n))%nat with true by lia. replace ((2 * p - p =? p) || (2 * p - p =? q))%nat with true by lia.
    destruct (Nat.leb_spec q (2 * p)); cbn [andb]; [|change (qn 1) with 1; ring]. destruct (Nat.ltb_spec (2 * p) (q + n)); [|change (qn 1) with 1; ring].
    replace ((2 * p - q =? p) || (2 * p - q =? q))%nat with false by lia. change (qn 1) with 1; ring.
  - replace ((q <=? 2 * q) && (2 * q <? q + n))%nat with true by lia. replace ((2 * q - q =? p) || (2 * q - q =? q))%nat with true by lia.
    destruct (Nat.leb_spec p (2 * q)); cbn [andb]; [|change (qn 1) with 1; ring]. destruct (Nat.ltb_spec (2 * q) (p + n)); [|change (qn 1) with 1; ring].
    replace ((2 * q - p =? p) || (2 * q - p =? q))%nat with false by lia. change (qn 1) with 1; ring.
  - change (qn 0) with 0. destruct (Nat.leb_spec p k), (Nat.leb_spec q k), (Nat.ltb_spec k (p + n)), (Nat.ltb_spec k (q + n)); cbn [andb];
      try replace ((k - p =? p) || (k - p =? q))%nat with false by lia; try replace ((k - q =? p) || (k - q =? q))%nat with false by lia; ring.
Qed.
Lemma frac_le A m1 o1 m2 o2 : 0 < A -> o1 <> 0%nat -> o2 <> 0%nat -> (m1 * o2 <= m2 * o1)%nat -> A * qn m1 / qn o1 <= A * qn m2 / qn o2.
Proof.
  intros HA H1 H2 H. apply Qc_div_le; [now apply qn_pos|]. replace (A * qn m2 / qn o2 * qn o1) with (A * qn m2 * qn o1 / qn o2) by (unfold Qcdiv; ring). apply Qc_le_div; [now apply qn_pos|].
  apply qn_le in H. rewrite !qn_mul in H. qcnra.
Qed.
Lemma frac_lt A m1 o1 m2 o2 : 0 < A -> o1 <> 0%nat -> o2 <> 0%nat -> (m1 * o2 < m2 * o1)%nat -> A * qn m1 / qn o1 < A * qn m2 / qn o2.
Proof.
  intros HA H1 H2 H. apply Qc_div_lt; [now apply qn_pos|]. replace (A * qn m2 / qn o2 * qn o1) with (A * qn m2 * qn o1 / qn o2) by (unfold Qcdiv; ring). apply Qc_lt_div; [now apply qn_pos|].
  apply qn_lt in H. rewrite !qn_mul in H. qcnra.
Qed.
Lemma overlap_pos n k : (k <= 2 * (n - 1))%nat -> n <> 0%nat -> overlap n k <> 0%nat.
Proof. unfold overlap. lia. Qed.
Lemma spots_votes n p q a : (p < q)%nat -> (q < n)%nat -> a <> 0 ->
  ((overlap n (p + q) < 2 * overlap n (2 * p))%nat -> (overlap n (p + q) <= 2 * overlap n (2 * q))%nat -> votes (spots n p q a) (Nat.div (p + q) 2)) /\
  ((2 * overlap n (2 * p) <= overlap n (p + q))%nat -> (overlap n (2 * p) <= overlap n (2 * q))%nat -> votes (spots n p q a) p) /\
  ((2 * overlap n (2 * q) < overlap n (p + q))%nat -> (overlap n (2 * q) < overlap n (2 * p))%nat -> votes (spots n p q a) q).
Proof.
  intros Hp Hq Ha. apply Qc_sq_pos in Ha.
  assert (G : forall k b, (k = 2 * p \/ k = p + q \/ k = 2 * q)%nat -> b = Nat.div k 2 ->
     (forall k', (k' = 2 * p \/ k' = p + q \/ k' = 2 * q)%nat -> ((if k' =? p + q then 2 else 1) * overlap n k <= (if k =? p + q then 2 else 1) * overlap n k')%nat) ->
     (forall k', (k' = 2 * p \/ k' = p + q \/ k' = 2 * q)%nat -> (k' < k)%nat -> ((if k' =? p + q then 2 else 1) * overlap n k < (if k =? p + q then 2 else 1) * overlap n k')%nat) -> votes (spots n p q a) b).
  { intros k b Hk -> U F. exists k. rewrite spots_length. assert (Bk : (k <= 2 * (n - 1))%nat) by lia. split; [exact Bk|]. split; [reflexivity|].
    assert (Ek : agreement (spots n p q a) k = a * a * qn (if (k =? p + q)%nat then 2 else 1) / qn (overlap n k)).
    { rewrite spots_agreement by lia. replace ((k =? 2 * p) || (k =? 2 * q))%nat with (negb (k =? p + q)%nat || ((k =? 2 * p) || (k =? 2 * q))%nat) by lia. destruct (k =? p + q)%nat; reflexivity. }
    split; intros k' Hk'; rewrite (spots_agreement n p q a k') by lia; rewrite Ek.
    - apply frac_le; [exact Ha|apply overlap_pos; lia|apply overlap_pos; lia|]. specialize (U k').
      destruct (Nat.eqb_spec k' (p + q)); [apply U; lia|]. destruct (Nat.eqb_spec k' (2 * p)); [apply U; lia|]. destruct (Nat.eqb_spec k' (2 * q)); [apply U; lia|]. cbn; lia.
    - apply frac_lt; [exact Ha|apply overlap_pos; lia|apply overlap_pos; lia|]. specialize (F k'). pose proof (overlap_pos n k' ltac:(lia) ltac:(lia)).
      destruct (Nat.eqb_spec k' (p + q)); [apply F; lia|]. destruct (Nat.eqb_spec k' (2 * p)); [apply F; lia|]. destruct (Nat.eqb_spec k' (2 * q)); [apply F; lia|]. cbn [orb]. destruct (k =? p + q)%nat; lia. }
  assert (E1 : (2 * p =? p + q)%nat = false) by lia. assert (E2 : (2 * q =? p + q)%nat = false) by lia.
  split; [|split]; intros H1 H2.
  - apply (G (p + q)%nat); [tauto|reflexivity|..]; rewrite Nat.eqb_refl; intros k' [->|[->| ->]]; rewrite ?Nat.eqb_refl, ?E1, ?E2; lia.
  - apply (G (2 * p)%nat); [tauto|rewrite Nat.mul_comm, Nat.div_mul by lia; reflexivity|..]; rewrite E1; intros k' [->|[->| ->]]; rewrite ?Nat.eqb_refl, ?E1, ?E2; lia.
  - apply (G (2 * q)%nat); [tauto|rewrite Nat.mul_comm, Nat.div_mul by lia; reflexivity|..]; rewrite E2; intros k' [->|[->| ->]]; rewrite ?Nat.eqb_refl, ?E1, ?E2; lia.
Qed.
(** ** brightness does not matter *)
Lemma agreement_scale a v k : agreement (map (Qcmult a) v) k = a * a * agreement v k.
Proof.
  unfold agreement. rewrite map_length. unfold Qcdiv. rewrite Qcmult_assoc. f_equal. rewrite (pairs_sum (fun i j => nth i (map (Qcmult a) v) 0 * nth j (map (Qcmult a) v) 0)), (pairs_sum (fun i j => nth i v 0 * nth j v 0)).
  assert (N : forall i, nth i (map (Qcmult a) v) 0 = a * nth i v 0). { intros i. replace 0 with (a * 0) at 1 by ring. apply (map_nth (Qcmult a)). }
  induction (seq 0 (length v)) as [|i l IH]; cbn [map qsum]; [ring|]. rewrite IH, !N. destruct (_ && _); ring.
Qed.
Lemma votes_scale a v b : a <> 0 -> votes v b -> votes (map (Qcmult a) v) b.
Proof.
  intros Ha (k & H & -> & U & F). apply Qc_sq_pos in Ha. exists k. rewrite map_length. split; [exact H|]. split; [reflexivity|]. split; intros k' Hk'; rewrite !agreement_scale.
  - specialize (U k' Hk'). qcnra.
  - specialize (F k' Hk'). qcnra.
Qed.
Lemma votes_dark n : n <> 0%nat -> votes (repeat 0 n) 0.
Proof.
  intros Hn. assert (Z : forall k, agreement (repeat 0 n) k = 0).
  { intros k. unfold agreement. rewrite repeat_length. replace (map _ _) with (map (fun _ : nat * nat => 0) (pairs n k)); [rewrite qsum_map_0; unfold Qcdiv; ring|]. apply map_ext_in. intros p Hp. apply pairs_in in Hp. rewrite !nth_repeat_lt by lia. ring. }
  exists 0%nat. split; [lia|]. split; [reflexivity|]. split; intros k' Hk'; [rewrite !Z; apply Qcle_refl|lia].
Qed.
