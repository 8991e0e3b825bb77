From Coq Require Import Sorted.
From Verif Require Import Common QcArith Roi_Model Xsvs_Model Xsvs_Spec Xsvs_Proofs Columns_Spec.
From Verif Require Roi_Stats MultiTau_Labels Columns_Proofs.

Definition positive (z : Z) : bool := (0 <? z)%Z.
Section Select.
Context (labels : list Z).
Lemma filter_fst {A} f (im : list A) : length im = length labels -> filter f labels = map fst (filter (fun p => f (fst p)) (combine labels im)).
Proof.
  revert im. induction labels as [|y l IH]; intros [|v im] L; cbn in L; try lia; [reflexivity|]. cbn [combine filter fst].
  rewrite (IH im) by lia. destruct (f y); reflexivity.
Qed.
Lemma combine_fst_snd {A B} (l : list (A * B)) : combine (map fst l) (map snd l) = l.
Proof. induction l as [|[a b] l IH]; [reflexivity|]. cbn. rewrite IH. reflexivity. Qed.
Lemma select_twice {A} z (im : list A) : (0 < z)%Z -> length im = length labels ->
  select (Z.eqb z) (filter positive labels) (select positive labels im) = select (Z.eqb z) labels im.
Proof.
  intros P L. unfold select. rewrite (filter_fst positive im L), combine_fst_snd, MultiTau_Labels.filter_filter. f_equal. apply filter_ext.
  intros [y v]. cbn [fst]. unfold positive. destruct (Z.eqb_spec z y) as [->|D]; lia.
Qed.
Lemma select_length {A} (im : list A) : length im = length labels -> length (select positive labels im) = length (filter positive labels).
Proof. intros L. unfold select. rewrite (filter_fst positive im L), !map_length. reflexivity. Qed.
(** positions of the region pixels *)
Notation places := (filter (fun p => positive (nth p labels 0%Z)) (seq 0 (length labels))).
Lemma select_places {A} (d : A) f im : length im = length labels ->
  select f labels im = map (fun p => nth p im d) (filter (fun p => f (nth p labels 0%Z)) (seq 0 (length labels))).
Proof.
  intros L. unfold select.
  assert (G : forall (labs : list Z) (l : list A), length l = length labs -> forall s (lf : nat -> Z) (vf : nat -> A),
      (forall p, p < length labs -> lf (s + p) = nth p labs 0%Z /\ vf (s + p) = nth p l d) ->
      map snd (filter (fun p => f (fst p)) (combine labs l)) = map vf (filter (fun p => f (lf p)) (seq s (length labs)))).
  { clear. induction labs as [|y labs IH]; intros [|v l] Hl s lf vf Hf; cbn in Hl; try lia; [reflexivity|]. cbn [combine filter length seq fst].
    destruct (Hf 0 ltac:(cbn; lia)) as [F1 F2]. rewrite Nat.add_0_r in F1, F2. cbn in F1, F2. rewrite F1.
    assert (R : map snd (filter (fun p => f (fst p)) (combine labs l)) = map vf (filter (fun p => f (lf p)) (seq (S s) (length labs)))).
    { apply IH; [lia|]. intros p Hp. destruct (Hf (S p) ltac:(cbn; lia)) as [G1 G2]. rewrite <- Nat.add_succ_comm in G1, G2. split; assumption. }
    destruct (f y); cbn [map snd]; [rewrite F2, R|rewrite R]; reflexivity. }
  apply G; [exact L|]. intros p Hp. split; reflexivity.
Qed.
Lemma places_length : length places = length (filter positive labels).
Proof.
  assert (H : length (select positive labels labels) = length places) by (rewrite (select_places 0%Z) by reflexivity; apply map_length).
  rewrite <- H. apply select_length. reflexivity.
Qed.
Lemma map_nth_seq {A} (l : list A) d : map (fun p => nth p l d) (seq 0 (length l)) = l.
Proof.
  induction l as [|x l IH]; [reflexivity|]. cbn [length seq map nth]. f_equal. rewrite <- seq_shift, map_map. exact IH.
Qed.
Notation picked := (option_map (select positive labels)).
Lemma pixel_picked (ims : list frame) m p : (forall x, In (Some x) ims -> length x = length labels) -> p < length (filter positive labels) ->
  pixel (map picked ims) m p = pixel ims m (nth p places 0).
Proof.
  intros HL Hp. unfold pixel, frame in *. rewrite nth_error_map. destruct (nth_error ims m) as [[x|]|] eqn:E; cbn [option_map]; try reflexivity.
  apply nth_error_In in E. rewrite (select_places 0%Z) by (apply HL, E).
  rewrite nth_indep with (d' := nth 0 x 0%Z) by (rewrite map_length, places_length; exact Hp).
  rewrite (map_nth (fun q => nth q x 0%Z)). reflexivity.
Qed.
Lemma broken_picked (ims : list frame) m : broken (map picked ims) m = broken ims m.
Proof. unfold broken, frame in *. rewrite nth_error_map. destruct (nth_error ims m) as [[x|]|]; reflexivity. Qed.
Lemma existsb_ext' {A} (f g : A -> bool) l : (forall x, f x = g x) -> existsb f l = existsb g l.
Proof. intros H. induction l as [|a l IH]; [reflexivity|]. cbn. rewrite H, IH. reflexivity. Qed.
Lemma mixed_picked (ims : list frame) l n : (forall x, In (Some x) ims -> length x = length labels) ->
  mixed (length (filter positive labels)) (map picked ims) l n = picked (mixed (length labels) ims l n).
Proof.
  intros HL. unfold mixed_as. rewrite (existsb_ext' _ (fun k => (k <=? n) && broken ims (n - k))) by (intros k; rewrite broken_picked; reflexivity).
  destruct (existsb _ _); [reflexivity|]. cbn [option_map]. f_equal.
  set (F := fun p => exactly (zsum (l + 1) (fun k => if k <=? n then (binom l k * pixel ims (n - k) p)%Z else 0%Z))).
  rewrite (select_places (F 0)) by (rewrite map_length; apply seq_length).
  assert (L : map (fun p => nth p (map F (seq 0 (length labels))) (F 0)) places = map F places).
  { apply map_ext_in. intros p Hp. apply filter_In in Hp as [Hp _]. apply in_seq in Hp. rewrite (map_nth F), seq_nth by lia. reflexivity. }
  rewrite L. rewrite <- places_length. rewrite <- (map_nth_seq places 0) at 2. rewrite map_map. apply map_ext_in. intros p Hp. apply in_seq in Hp.
  unfold F. f_equal. assert (Z1 : forall N f g, (forall k, f k = g k) -> zsum N f = zsum N g) by (clear; intros N f g H; induction N as [|N IH]; cbn; [reflexivity|]; rewrite IH, H; reflexivity).
  apply Z1. intros k. destruct (k <=? n); [|reflexivity]. rewrite pixel_picked; [reflexivity|exact HL|rewrite <- places_length; lia].
Qed.
End Select.
Lemma mean_good_ext f1 f2 h1 h2 n : (forall m, m < n -> match f1 m, f2 m with Some a, Some b => h1 a = h2 b | None, None => True | _, _ => False end) ->
  mean_good f1 h1 n = mean_good f2 h2 n.
Proof.
  intros H. unfold mean_good. assert (F : filter (fun m => is_good (f1 m)) (seq 0 n) = filter (fun m => is_good (f2 m)) (seq 0 n)).
  { apply filter_ext_in. intros m Hm. apply in_seq in Hm. specialize (H m ltac:(lia)). destruct (f1 m), (f2 m); cbn; tauto. }
  rewrite F. destruct (_ =? 0); [reflexivity|]. f_equal. f_equal. apply map_ext_in. intros m Hm. apply filter_In in Hm as [Hm _]. apply in_seq in Hm.
  specialize (H m ltac:(lia)). destruct (f1 m), (f2 m); tauto || (exact H).
Qed.
Lemma density_fraction max_cts l vals b : b + 2 <= max_cts * 2 ^ l -> density max_cts l vals b = fraction (max_cts * 2 ^ l) vals b.
Proof.
  intros Hb. pose proof (density_ok max_cts l vals b Hb) as D. cbv zeta in D. unfold fraction. cbv zeta.
  set (t := length (filter (fun v => (0 <=? v)%Z && (v <? Z.of_nat (max_cts * 2 ^ l))%Z) vals)) in *.
  destruct (Nat.eqb_spec t 0) as [Z0|N0].
  - destruct D as [D|[_ D]]; [|exact D]. unfold density. destruct (_ =? 0) eqn:E; [reflexivity|]. exfalso. apply Nat.eqb_neq in E. apply E.
    rewrite <- Z0. unfold t. f_equal. apply filter_ext. intros v. unfold in_range, edges. lia.
  - destruct D as [D|[D _]]; [|contradiction].
    replace (b + 2 =? max_cts * 2 ^ l) with (Z.of_nat b + 2 =? Z.of_nat (max_cts * 2 ^ l))%Z by lia.
    rewrite <- D. field. apply qn_neq0. exact N0.
Qed.
Lemma mixed_sized (labels : list Z) ims l n x : mixed (length labels) ims l n = Some x -> length x = length labels.
Proof. unfold mixed_as. destruct (existsb _ _); [discriminate|]. intros E. injection E as <-. rewrite map_length. apply seq_length. Qed.
Lemma xsvs_columns T num_times labels us max_cts (ims : list frame) : regions labels us -> 2 <= T -> 1 <= num_times ->
  (forall x, In (Some x) ims -> length x = length labels) ->
  exists p v, xsvs exactly T num_times (filter positive labels) max_cts [map (option_map (select positive labels)) ims] = Some (p, v) /\
  forall l j z b, l < num_times -> nth_error us j = Some z -> b + 2 <= max_cts * 2 ^ l ->
    p l j b = mean_good (mixed (length labels) ims l) (fun im => fraction (max_cts * 2 ^ l) (values_at 0%Z labels z im) b) (length ims).
Proof.
  intros [S H] HT Hn HL. assert (W : well_sized exactly (filter positive labels) (map (option_map (select positive labels)) ims)).
  { intros x I. split; [|apply Forall_forall; reflexivity]. apply in_map_iff in I as ([y|] & E & I); cbn in E; [|discriminate]. injection E as <-. apply select_length, HL, I. }
  destruct (xsvs_one_set exactly T num_times (filter positive labels) max_cts eq_refl (fun _ _ => eq_refl) HT Hn _ W) as (p & v & E & V).
  exists p, v. split; [exact E|]. intros l j z b Hl Ez Hb. destruct (V l j b Hl) as [-> _]. unfold set_mean. rewrite map_length. apply mean_good_ext. intros m Hm.
  rewrite mixed_picked by exact HL. destruct (mixed (length labels) ims l m) as [x|] eqn:Ex; cbn [option_map]; [|exact I].
  pose proof (mixed_sized _ _ _ _ _ Ex) as Lx. change (density max_cts l (roi_data (filter positive labels) (select positive labels x) j) b = fraction (max_cts * 2 ^ l) (values_at 0%Z labels z x) b).
  rewrite density_fraction by exact Hb. f_equal. unfold roi_data.
  destruct (Roi_Stats.unique_ok (filter positive labels)) as [Su Hu].
  assert (Eu : unique (filter positive labels) = us).
  { apply sorted_same; [exact Su|exact S|]. intros y. rewrite Hu, H, filter_In. unfold positive. rewrite Z.ltb_lt. reflexivity. }
  rewrite Eu, Ez. assert (Pz : (0 < z)%Z) by (apply (H z), (nth_error_In _ _ Ez)). rewrite select_twice by assumption. apply Columns_Proofs.select_values, Lx.
Qed.
