From Verif Require Import Common Sums CrossCorr_Model CrossCorr_Spec CrossCorr_Proofs.
From Coq Require Import ZifyBool ZifyNat Sorting.Sorted Sorting.Permutation.

(** ** The ids *)
Lemma insert_u_In x l y : In y (insert_u x l) <-> y = x \/ In y l.
Proof.
  induction l as [|a l IH]; cbn [insert_u].
  - cbn. intuition.
  - destruct (Nat.eqb_spec x a) as [->|Hne]; [cbn; intuition|].
    destruct (x <? a); cbn; [intuition|]. rewrite IH. intuition.
Qed.
Lemma insert_u_sorted x l : StronglySorted lt l -> StronglySorted lt (insert_u x l).
Proof.
  induction 1 as [|a l HS IH HF]; cbn [insert_u].
  - repeat constructor.
  - destruct (Nat.eqb_spec x a) as [->|Hne]; [constructor; assumption|].
    destruct (Nat.ltb_spec x a) as [Hlt|Hge].
    + constructor; [constructor; assumption|]. constructor; [exact Hlt|].
      eapply Forall_impl; [|exact HF]. cbn; intros; lia.
    + constructor; [exact IH|]. rewrite Forall_forall in *. intros y Hy.
      apply insert_u_In in Hy as [->|Hy]; [lia|auto].
Qed.
Lemma ids_In mask id : In id (ids_of mask) <-> id <> 0 /\ In id (concat mask).
Proof.
  unfold ids_of.
  assert (H : forall l, In id (fold_right insert_u [] l) <-> In id l).
  { induction l as [|a l IH]; cbn; [tauto|]. rewrite insert_u_In, IH. intuition. }
  rewrite H, filter_In. rewrite negb_true_iff, Nat.eqb_neq. tauto.
Qed.
Lemma ids_sorted mask : StronglySorted lt (ids_of mask).
Proof.
  unfold ids_of. generalize (filter (fun x => negb (x =? 0)) (concat mask)).
  intros l; induction l as [|a l IH]; cbn; [constructor|apply insert_u_sorted; exact IH].
Qed.

Definition wfmask (hh ww : nat) (mask : list (list nat)) : Prop :=
  length mask = hh /\ forall r, In r mask -> length r = ww.

Lemma region_ne hh ww mask id : wfmask hh ww mask -> In id (concat mask) ->
  region mask hh ww id <> [].
Proof.
  intros [Hl Hr] Hin. apply in_concat in Hin as (row & Hrow & Hid).
  apply In_nth with (d := []) in Hrow as (i & Hi & Erow).
  apply In_nth with (d := 0) in Hid as (j & Hj & Eid).
  assert (Hp : In (i, j) (region mask hh ww id)).
  { apply ps_In. split; [lia|]. split.
    - rewrite <- (Hr row); [exact Hj|]. rewrite <- Erow. apply nth_In. exact Hi.
    - unfold mat_at. rewrite Erow. exact Eid. }
  intros E. rewrite E in Hp. destruct Hp.
Qed.

(** ** Every region of every call *)
Definition entry2 (out : list (list (option Qc))) (h w : nat) (dy dx : Z) : option (option Qc) :=
  r <- nth_error out (Z.to_nat (dy + Z.of_nat h - 1)) ;;
  nth_error r (Z.to_nat (dx + Z.of_nat w - 1)).

Lemma correlate_ok symavg regular mask hh ww img1 img2 :
  wfmask hh ww mask ->
  good_shape hh ww img1 = true ->
  (forall i2, img2 = Some i2 -> good_shape hh ww i2 = true) ->
  let second := match img2 with None => img1 | Some i2 => i2 end in
  exists outs ids, correlate symavg regular mask hh ww img1 img2 = Some outs /\
    length outs = length ids /\ StronglySorted lt ids /\
    (forall id, In id ids <-> id <> 0 /\ In id (concat mask)) /\
    forall k id, nth_error ids k = Some id ->
      exists out h w, nth_error outs k = Some out /\ 1 <= h /\ 1 <= w /\
        length out = 2 * h - 1 /\ (forall r, In r out -> length r = 2 * w - 1) /\
        (forall dy dx, (- Z.of_nat h < dy < Z.of_nat h)%Z -> (- Z.of_nat w < dx < Z.of_nat w)%Z ->
           entry2 out h w dy dx
           = Some (spec_call symavg regular mask hh ww id (zpix img1) (zpix second) (dy, dx))) /\
        (forall dy dx, ~ ((- Z.of_nat h < dy < Z.of_nat h)%Z /\ (- Z.of_nat w < dx < Z.of_nat w)%Z) ->
           overlap mask hh ww id (dy, dx) = []).
Proof.
  intros Hm H1 H2 second. unfold correlate. rewrite H1. cbn [negb]. fold second.
  assert (H3 : good_shape hh ww second = true).
  { subst second. destruct img2 as [i2|]; [apply H2; reflexivity|exact H1]. }
  rewrite H3. cbn [negb].
  assert (Hids : forall id, In id (ids_of mask) -> region mask hh ww id <> []).
  { intros id Hid. apply ids_In in Hid as [_ Hid]. apply region_ne; assumption. }
  pose proof (ids_sorted mask) as HS.
  assert (HI : forall id, In id (ids_of mask) <-> id <> 0 /\ In id (concat mask)) by apply ids_In.
  set (ids := ids_of mask) in *. clearbody ids.
  assert (Hgo : forall l, (forall id, In id l -> region mask hh ww id <> []) ->
     exists outs, (fix go l := match l with
        | [] => Some []
        | id :: r => c <- call_region symavg regular mask hh ww img1 second id ;;
                     cs <- go r ;; Some (c :: cs) end) l = Some outs /\
       length outs = length l /\
       forall k id, nth_error l k = Some id -> exists out, nth_error outs k = Some out /\
         call_region symavg regular mask hh ww img1 second id = Some out).
  { induction l as [|id l IH]; intros Hl.
    - exists []. repeat split. intros [|k] id Hk; discriminate.
    - destruct (IH (fun id0 Hi => Hl id0 (or_intror Hi))) as (outs & E & Hlen & Hk).
      destruct (call_region_ok mask hh ww id (Hl id (or_introl eq_refl)) symavg regular img1 second)
        as (out & Eo & _).
      exists (out :: outs). rewrite Eo. cbn [bind]. rewrite E. cbn [bind].
      split; [reflexivity|]. split; [cbn; lia|].
      intros [|k] id' Hid'; cbn in *; [|auto]. injection Hid' as <-. eauto. }
  destruct (Hgo ids Hids) as (outs & E & Hlen & Hk).
  exists outs, ids. split; [exact E|]. split; [exact Hlen|]. split; [exact HS|]. split; [exact HI|].
  intros k id Hid. destruct (Hk k id Hid) as (out & Ho & Ec).
  pose proof (Hids id (nth_error_In _ _ Hid)) as Hne.
  destruct (call_region_ok mask hh ww id Hne symavg regular img1 second)
    as (out' & Ec' & Hl1 & Hl2 & Hval).
  rewrite Ec in Ec'. injection Ec' as <-.
  exists out, (bh mask hh ww id), (bw mask hh ww id).
  split; [exact Ho|]. split; [unfold bh; lia|]. split; [unfold bw; lia|].
  split; [exact Hl1|]. split; [exact Hl2|]. split.
  - intros dy dx Hy Hx. unfold entry2. rewrite (Hval dy dx Hy Hx). f_equal. cbv zeta.
    unfold spec_call. destruct symavg, regular.
    + rewrite symavg_eq. destruct (spec_symavg _ _ _ _ _ _ _) as [v|] eqn:Ev; [|reflexivity].
      unfold spec_symavg in Ev.
      destruct (Nat.eqb_spec (length (overlap mask hh ww id (dy, dx))) 0) as [E0|E0]; cbn [orb] in Ev;
        [discriminate|]. cbn [omul odiv].
      set (n := length (overlap mask hh ww id (dy, dx))) in *.
      set (m := (region_mean mask hh ww id (zpix img1) * region_mean mask hh ww id (zpix second))%Qc).
      assert (Hq : qn n <> 0%Qc) by (apply qn_neq0; exact E0).
      destruct (Qc_eqb_spec m 0%Qc) as [Em|Em].
      * rewrite Em. replace (qn n * 0)%Qc with 0%Qc by ring. reflexivity.
      * destruct (Qc_eqb_spec (qn n * m)%Qc 0%Qc) as [E'|E']; [|reflexivity].
        apply Qcmult_integral in E' as [?|?]; contradiction.
    + apply symavg_eq.
    + apply regular_eq.
    + reflexivity.
  - intros dy dx Ho'. apply overlap_out; [exact Hne|]. lia.
Qed.

Lemma correlate_bad_shape symavg regular mask hh ww img1 img2 :
  good_shape hh ww img1 = false \/
  (exists i2, img2 = Some i2 /\ good_shape hh ww i2 = false) ->
  correlate symavg regular mask hh ww img1 img2 = None.
Proof.
  unfold correlate. intros [H|(i2 & -> & H)].
  - rewrite H. reflexivity.
  - destruct (good_shape hh ww img1); cbn [negb]; [|reflexivity]. rewrite H. reflexivity.
Qed.

(** ** Autocorrelation is symmetric *)
Lemma overlap_In mask hh ww id d p : In p (overlap mask hh ww id d) <->
  in_region mask hh ww id p = true /\ in_region mask hh ww id (shift p d) = true.
Proof.
  unfold overlap. rewrite filter_In, andb_true_iff. split; [tauto|].
  intros [H1 H2]. split; [|auto]. unfold grid. destruct p as [i j].
  unfold in_region in H1. apply in_map_iff. exists (Z.to_nat i, Z.to_nat j). cbn [fst snd].
  split; [f_equal; lia|]. apply in_prod; apply in_seq; lia.
Qed.
Lemma NoDup_list_prod {A B} (l : list A) (l' : list B) :
  NoDup l -> NoDup l' -> NoDup (list_prod l l').
Proof.
  intros Hl Hl'. induction Hl as [|a l Ha Hl IH]; cbn; [constructor|].
  assert (Happ : forall m : list (A * B), NoDup m -> (forall p, In p m -> fst p = a) ->
            NoDup (m ++ list_prod l l')).
  { induction m as [|p m IHm]; intros Hm Hp; cbn; [exact IH|].
    inversion_clear Hm. constructor.
    - rewrite in_app_iff. intros [?|Hq]; [contradiction|]. destruct p as [x y].
      apply in_prod_iff in Hq as [Hx _]. specialize (Hp (x, y) (or_introl eq_refl)). cbn in Hp.
      subst x. contradiction.
    - apply IHm; [assumption|]. intros q Hq. apply Hp. right; exact Hq. }
  apply Happ.
  - apply FinFun.Injective_map_NoDup; [|exact Hl']. intros x y [= E]; exact E.
  - intros p Hp. apply in_map_iff in Hp as (y & <- & _). reflexivity.
Qed.
Lemma NoDup_grid hh ww : NoDup (grid hh ww).
Proof.
  unfold grid. apply FinFun.Injective_map_NoDup.
  - intros [a b] [a' b']. cbn. intros [= H1 H2]. f_equal; lia.
  - apply NoDup_list_prod; apply seq_NoDup.
Qed.

Lemma shift_neg p d : shift (shift p d) (neg d) = p.
Proof. destruct p, d. unfold shift, neg. cbn. f_equal; lia. Qed.

Lemma overlap_perm mask hh ww id d :
  Permutation (overlap mask hh ww id (neg d)) (map (fun p => shift p d) (overlap mask hh ww id d)).
Proof.
  apply NoDup_Permutation.
  - apply NoDup_filter, NoDup_grid.
  - apply FinFun.Injective_map_NoDup; [|apply NoDup_filter, NoDup_grid].
    intros p q E. rewrite <- (shift_neg p d), <- (shift_neg q d), E. reflexivity.
  - intros p. rewrite overlap_In, in_map_iff. split.
    + intros [H1 H2]. exists (shift p (neg d)).
      assert (E : shift (shift p (neg d)) d = p).
      { destruct p, d. unfold shift, neg. cbn. f_equal; lia. }
      split; [exact E|]. apply overlap_In. rewrite E. auto.
    + intros (q & <- & Hq). apply overlap_In in Hq as [H1 H2]. rewrite shift_neg. auto.
Qed.

Lemma cc_sum_swap mask hh ww id f g d :
  cc_sum mask hh ww id f g (neg d) = cc_sum mask hh ww id g f d.
Proof.
  unfold cc_sum. rewrite (qsum_perm _ _ (Permutation_map _ (overlap_perm mask hh ww id d))).
  rewrite map_map. f_equal. apply map_ext. intros p. rewrite shift_neg. ring.
Qed.
Lemma overlap_len mask hh ww id d :
  length (overlap mask hh ww id (neg d)) = length (overlap mask hh ww id d).
Proof. rewrite (Permutation_length (overlap_perm mask hh ww id d)), map_length. reflexivity. Qed.

Lemma spec_call_sym symavg regular mask hh ww id f d :
  spec_call symavg regular mask hh ww id f f (neg d) = spec_call symavg regular mask hh ww id f f d.
Proof.
  assert (HR : forall d, spec_regular mask hh ww id f f (neg d) = spec_regular mask hh ww id f f d).
  { intros d0. unfold spec_regular. rewrite overlap_len, cc_sum_swap. reflexivity. }
  assert (HS : forall d, spec_symavg mask hh ww id f f (neg d) = spec_symavg mask hh ww id f f d).
  { intros d0. unfold spec_symavg. rewrite overlap_len, cc_sum_swap.
    rewrite (qsum_perm _ _ (Permutation_map f (overlap_perm mask hh ww id d0))).
    rewrite (qsum_perm _ _ (Permutation_map (fun p => f (shift p (neg d0))) (overlap_perm mask hh ww id d0))).
    rewrite !map_map.
    rewrite (map_ext (fun x => f (shift (shift x d0) (neg d0))) f) by (intros; rewrite shift_neg; reflexivity).
    set (a := qsum (map (fun x => f (shift x d0)) _)). set (b := qsum (map f _)).
    destruct (_ =? 0); cbn [orb]; [reflexivity|]. rewrite (orb_comm (Qc_eqb a _)).
    destruct (Qc_eqb b 0%Qc || Qc_eqb a 0%Qc); [reflexivity|]. f_equal. f_equal. ring. }
  unfold spec_call. destruct symavg, regular; auto.
  - rewrite HS, overlap_len. reflexivity.
  - rewrite cc_sum_swap. reflexivity.
Qed.

(** ** 1-D signals through _cross_corr *)
Definition lag1 (x y : list Qc) (d : Z) : option Qc :=
  out <- cross_corr [x] [y] ;; r <- nth_error out 0 ;;
  nth_error r (Z.to_nat (d + Z.of_nat (length x) - 1)).

Lemma ext_out x z : (z < 0 \/ Z.of_nat (length x) <= z)%Z -> ext x z = 0%Qc.
Proof.
  intros H. unfold ext. destruct (Z.leb_spec 0 z); [|reflexivity].
  apply nth_overflow. lia.
Qed.

Lemma lag1_ok x y d : length x = length y -> (- Z.of_nat (length x) < d < Z.of_nat (length x))%Z ->
  lag1 x y d = Some (sumn (length x) (fun m => (nth m x 0 * ext y (Z.of_nat m - d))%Qc)).
Proof.
  intros Hl Hd. unfold lag1.
  assert (Hx : wf2 1 (length x) [x]) by (split; [reflexivity|intros r [<-|[]]; reflexivity]).
  assert (Hy : wf2 1 (length x) [y]) by (split; [reflexivity|intros r [<-|[]]; auto]).
  rewrite (cross_corr_some 1 (length x)) by (auto; lia). cbn [bind].
  set (n := length x) in *.
  assert (Hrow : nth_error (conv_full 1 n [x] (rev2 [y])) 0
     = Some (nth 0 (conv_full 1 n [x] (rev2 [y])) [])).
  { apply nth_error_nth_lt. unfold conv_full. rewrite tab_len. lia. }
  rewrite Hrow. cbn [bind].
  assert (Hw : length (nth 0 (conv_full 1 n [x] (rev2 [y])) []) = 2 * n - 1).
  { apply (tab_rows (2 * 1 - 1) (2 * n - 1)
      (fun t s => qsum (map (fun ij => let '(i, j) := ij in
       if (i <=? t) && (t - i <? 1) && (j <=? s) && (s - j <? n)
       then (at2 [x] i j * at2 (rev2 [y]) (t - i) (s - j))%Qc else 0%Qc)
      (list_prod (seq 0 1) (seq 0 n))))). apply nth_In. rewrite tab_len. lia. }
  rewrite (nth_error_nth_lt _ _ 0%Qc) by (rewrite Hw; lia).
  change (nth (Z.to_nat (d + Z.of_nat n - 1)) (nth 0 (conv_full 1 n [x] (rev2 [y])) []) 0%Qc)
    with (at2 (conv_full 1 n [x] (rev2 [y])) 0 (Z.to_nat (d + Z.of_nat n - 1))).
  rewrite conv_lag by (auto; lia). f_equal.
  unfold sumn at 1. cbn [seq map qsum]. rewrite Qcplus_0_r.
  apply sumn_ext. intros m Hm. f_equal.
  replace (Z.of_nat 0 - (Z.of_nat 0 - (Z.of_nat 1 - 1)))%Z with 0%Z by lia.
  replace (Z.of_nat m - (Z.of_nat (Z.to_nat (d + Z.of_nat n - 1)) - (Z.of_nat n - 1)))%Z
    with (Z.of_nat m - d)%Z by lia.
  unfold zpix, ext. cbn [Z.leb Z.to_nat]. cbn [andb nth].
  change (0 <=? 0)%Z with true. cbn [andb]. reflexivity.
Qed.

Definition auto (x : list Qc) (e : Z) : Qc :=
  sumn (length x) (fun m => (nth m x 0 * ext x (Z.of_nat m - e))%Qc).

Lemma nth_ext x m : nth m x 0%Qc = ext x (Z.of_nat m).
Proof. unfold ext. replace (0 <=? Z.of_nat m)%Z with true by lia. rewrite Nat2Z.id. reflexivity. Qed.

Definition gap (x : list Qc) (e : Z) : Qc :=
  let n := length x in
  sumn (3 * n) (fun k => let z := (Z.of_nat k - Z.of_nat n)%Z in
     ((ext x z - ext x (z - e)) * (ext x z - ext x (z - e)))%Qc).

Lemma gap_eq x e : (- Z.of_nat (length x) <= e <= Z.of_nat (length x))%Z ->
  gap x e = (auto x 0 + auto x 0 - (auto x e + auto x e))%Qc.
Proof.
  intros He. unfold gap. set (n := length x) in *. cbv zeta.
  rewrite (sumn_ext (3 * n) _ (fun k =>
     (ext x (Z.of_nat k - Z.of_nat n) * ext x (Z.of_nat k - Z.of_nat n)
      + (ext x (Z.of_nat k - Z.of_nat n - e) * ext x (Z.of_nat k - Z.of_nat n - e)
      + (- (1 + 1)) * (ext x (Z.of_nat k - Z.of_nat n) * ext x (Z.of_nat k - Z.of_nat n - e))))%Qc))
    by (intros; ring).
  rewrite !sumn_plus, sumn_scale.
  assert (H1 : sumn (3 * n) (fun k => (ext x (Z.of_nat k - Z.of_nat n) * ext x (Z.of_nat k - Z.of_nat n))%Qc)
               = auto x 0).
  { rewrite (sumn_window (3 * n) n n); [|lia|].
    - unfold auto. fold n. apply sumn_ext. intros m Hm. rewrite nth_ext. f_equal; f_equal; lia.
    - intros i Hi Ho. rewrite ext_out by (fold n; lia). ring. }
  assert (H2 : sumn (3 * n) (fun k => (ext x (Z.of_nat k - Z.of_nat n - e) * ext x (Z.of_nat k - Z.of_nat n - e))%Qc)
               = auto x 0).
  { rewrite (sumn_window (3 * n) (Z.to_nat (Z.of_nat n + e)) n); [|lia|].
    - unfold auto. fold n. apply sumn_ext. intros m Hm. rewrite nth_ext. f_equal; f_equal; lia.
    - intros i Hi Ho. rewrite ext_out by (fold n; lia). ring. }
  assert (H3 : sumn (3 * n) (fun k => (ext x (Z.of_nat k - Z.of_nat n) * ext x (Z.of_nat k - Z.of_nat n - e))%Qc)
               = auto x e).
  { rewrite (sumn_window (3 * n) n n); [|lia|].
    - unfold auto. fold n. apply sumn_ext. intros m Hm. rewrite nth_ext. f_equal; f_equal; lia.
    - intros i Hi Ho. rewrite (ext_out x (Z.of_nat i - Z.of_nat n)) by (fold n; lia). ring. }
  rewrite H1, H2, H3. ring.
Qed.

Lemma sumn_sq_zero n f : sumn n (fun k => (f k * f k)%Qc) = 0%Qc -> forall k, k < n -> f k = 0%Qc.
Proof.
  induction n as [|n IH]; intros H k Hk; [lia|]. rewrite sumn_S in H.
  assert (H1 : (0 <= sumn n (fun k => f k * f k))%Qc).
  { replace 0%Qc with (sumn n (fun _ => 0%Qc)) by (apply sumn_zero; auto).
    apply sumn_le. intros; apply Qc_sq_nonneg. }
  pose proof (Qc_sq_nonneg (f n)) as H2.
  assert (E1 : (f n * f n)%Qc = 0%Qc).
  { apply Qcle_antisym; [|exact H2]. rewrite <- H.
    rewrite <- (Qcplus_0_l (f n * f n)%Qc) at 1. apply Qcplus_le_compat; [exact H1|apply Qcle_refl]. }
  assert (E2 : sumn n (fun k => (f k * f k)%Qc) = 0%Qc).
  { rewrite E1, Qcplus_0_r in H. exact H. }
  destruct (Nat.eq_dec k n) as [->|Hne]; [|apply IH; auto; lia].
  apply Qcmult_integral in E1. tauto.
Qed.

Lemma gap_zero x e : (- Z.of_nat (length x) <= e <= Z.of_nat (length x))%Z -> e <> 0%Z ->
  gap x e = 0%Qc -> forall z, ext x z = 0%Qc.
Proof.
  intros He Hne Hg.
  assert (Hper : forall z, (- Z.of_nat (length x) <= z < 2 * Z.of_nat (length x))%Z ->
     ext x z = ext x (z - e)).
  { intros z Hz. unfold gap in Hg.
    pose proof (sumn_sq_zero _ (fun k => (ext x (Z.of_nat k - Z.of_nat (length x))
        - ext x (Z.of_nat k - Z.of_nat (length x) - e))%Qc) Hg
        (Z.to_nat (z + Z.of_nat (length x))) ltac:(lia)) as E. cbv beta in E.
    replace (Z.of_nat (Z.to_nat (z + Z.of_nat (length x))) - Z.of_nat (length x))%Z with z in E by lia.
    assert (E' : (ext x z - ext x (z - e) + ext x (z - e))%Qc = (0 + ext x (z - e))%Qc) by (rewrite E; reflexivity).
    ring_simplify in E'. exact E'. }
  assert (Hpos : forall k z, (z < Z.of_nat k)%Z -> (0 < e)%Z -> ext x z = 0%Qc).
  { induction k as [|k IH]; intros z Hz Hp; [apply ext_out; lia|].
    destruct (Z.lt_ge_cases z 0); [apply ext_out; lia|].
    destruct (Z.lt_ge_cases z (Z.of_nat (length x))); [|apply ext_out; lia].
    rewrite Hper by lia. apply IH; lia. }
  assert (Hneg : forall k z, (Z.of_nat (length x) <= z + Z.of_nat k)%Z -> (e < 0)%Z -> ext x z = 0%Qc).
  { induction k as [|k IH]; intros z Hz Hp; [apply ext_out; lia|].
    destruct (Z.lt_ge_cases z 0); [apply ext_out; lia|].
    destruct (Z.lt_ge_cases z (Z.of_nat (length x))); [|apply ext_out; lia].
    rewrite Hper by lia. apply IH; lia. }
  intros z. destruct (Z.lt_trichotomy e 0) as [H|[H|H]]; [|lia|].
  - apply (Hneg (Z.to_nat (Z.of_nat (length x) - z))); [|exact H]. lia.
  - apply (Hpos (Z.to_nat (z + 1))); [|exact H]. lia.
Qed.

Lemma auto_peak x e : (- Z.of_nat (length x) <= e <= Z.of_nat (length x))%Z -> e <> 0%Z ->
  (exists v, In v x /\ v <> 0%Qc) -> (auto x e < auto x 0)%Qc.
Proof.
  intros He Hne (v & Hv & Hv0).
  assert (Hg0 : (0 <= gap x e)%Qc).
  { unfold gap. replace 0%Qc with (sumn (3 * length x) (fun _ => 0%Qc)) by (apply sumn_zero; auto).
    apply sumn_le. intros; apply Qc_sq_nonneg. }
  assert (Hg1 : gap x e <> 0%Qc).
  { intros Hg. apply In_nth with (d := 0%Qc) in Hv as (m & Hm & E). apply Hv0.
    rewrite <- E, nth_ext. apply (gap_zero x e He Hne Hg). }
  assert (Hg : (0 < gap x e)%Qc).
  { destruct (Qc_dec 0 (gap x e)) as [[H|H]|H]; [exact H| |congruence].
    exfalso. exact (Qclt_not_le _ _ H Hg0). }
  rewrite gap_eq in Hg by exact He.
  destruct (Qclt_le_dec (auto x e) (auto x 0)) as [H|H]; [exact H|].
  exfalso. apply (Qclt_not_le _ _ Hg).
  assert (H2 : (auto x 0 + auto x 0 <= auto x e + auto x e)%Qc) by (apply Qcplus_le_compat; exact H).
  apply (Qcplus_le_compat _ _ (- (auto x e + auto x e)) (- (auto x e + auto x e))) in H2; [|apply Qcle_refl].
  rewrite Qcplus_opp_r in H2. exact H2.
Qed.

Lemma shifted_peak x y s : moved_right x y s -> (- Z.of_nat (length x) < s < Z.of_nat (length x))%Z ->
  (exists v, In v x /\ v <> 0%Qc) ->
  exists top, lag1 x y (- s) = Some top /\
    forall d v, (- Z.of_nat (length x) < d < Z.of_nat (length x))%Z -> d <> (- s)%Z ->
      lag1 x y d = Some v -> (v < top)%Qc.
Proof.
  intros [Hl Hm] Hs Hx.
  assert (Hval : forall d, (- Z.of_nat (length x) < d < Z.of_nat (length x))%Z ->
     lag1 x y d = Some (auto x (d + s))).
  { intros d Hd. rewrite lag1_ok by (auto; lia). f_equal. unfold auto. apply sumn_ext.
    intros m _. rewrite Hm. f_equal. f_equal. lia. }
  exists (auto x 0). split; [rewrite Hval by lia; do 2 f_equal; lia|].
  intros d v Hd Hne E. rewrite Hval in E by exact Hd. injection E as <-.
  destruct (Z.le_gt_cases (d + s) (Z.of_nat (length x))) as [H1|H1].
  - destruct (Z.le_gt_cases (- Z.of_nat (length x)) (d + s)) as [H2|H2].
    + apply auto_peak; auto; lia.
    + assert (E0 : auto x (d + s) = auto x (- Z.of_nat (length x))).
      { unfold auto. apply sumn_ext. intros m Hm'. rewrite !(ext_out x) by lia. reflexivity. }
      rewrite E0. apply auto_peak; auto; lia.
  - assert (E0 : auto x (d + s) = auto x (Z.of_nat (length x))).
    { unfold auto. apply sumn_ext. intros m Hm'. rewrite !(ext_out x) by lia. reflexivity. }
    rewrite E0. apply auto_peak; auto; lia.
Qed.

Lemma nth_error_rev {A} (l : list A) i : i < length l ->
  nth_error (rev l) i = nth_error l (length l - 1 - i).
Proof.
  intros Hi. destruct l as [|a l']; [cbn in Hi; lia|]. set (l := a :: l') in *.
  rewrite (nth_error_nth_lt (rev l) i a) by (rewrite rev_length; exact Hi).
  rewrite (nth_error_nth_lt l _ a) by lia. f_equal.
  rewrite rev_nth by exact Hi. f_equal. lia.
Qed.

Lemma auto_symmetric symavg regular mask hh ww img outs : wfmask hh ww mask ->
  correlate symavg regular mask hh ww img None = Some outs ->
  forall out, In out outs -> map (@rev (option Qc)) (rev out) = out.
Proof.
  intros Hm E out Hin.
  destruct (good_shape hh ww img) eqn:Hg.
  2:{ rewrite correlate_bad_shape in E by auto. discriminate. }
  destruct (correlate_ok symavg regular mask hh ww img None Hm Hg ltac:(discriminate))
    as (outs' & ids & E' & Hlen & _ & _ & Hk).
  rewrite E in E'. injection E' as <-.
  apply In_nth_error in Hin as (k & Hk').
  destruct (nth_error ids k) as [id|] eqn:Hid.
  2:{ apply nth_error_None in Hid. assert (k < length outs) by (apply nth_error_Some; congruence). lia. }
  destruct (Hk k id Hid) as (o & h & w & Ho & Hh & Hw & Hl & Hr & Hv & _).
  rewrite Hk' in Ho. injection Ho as <-.
  assert (He : forall i j, i < 2 * h - 1 -> j < 2 * w - 1 ->
    (r <- nth_error out i ;; nth_error r j)
    = (r <- nth_error out (2 * h - 2 - i) ;; nth_error r (2 * w - 2 - j))).
  { intros i j Hi Hj.
    pose proof (Hv (Z.of_nat i - Z.of_nat h + 1)%Z (Z.of_nat j - Z.of_nat w + 1)%Z ltac:(lia) ltac:(lia)) as H1.
    pose proof (Hv (- (Z.of_nat i - Z.of_nat h + 1))%Z (- (Z.of_nat j - Z.of_nat w + 1))%Z ltac:(lia) ltac:(lia)) as H2.
    unfold entry2 in H1, H2.
    replace (Z.to_nat (Z.of_nat i - Z.of_nat h + 1 + Z.of_nat h - 1)) with i in H1 by lia.
    replace (Z.to_nat (Z.of_nat j - Z.of_nat w + 1 + Z.of_nat w - 1)) with j in H1 by lia.
    replace (Z.to_nat (- (Z.of_nat i - Z.of_nat h + 1) + Z.of_nat h - 1)) with (2 * h - 2 - i) in H2 by lia.
    replace (Z.to_nat (- (Z.of_nat j - Z.of_nat w + 1) + Z.of_nat w - 1)) with (2 * w - 2 - j) in H2 by lia.
    rewrite H1, H2. f_equal. symmetry.
    apply (spec_call_sym symavg regular mask hh ww id _ (Z.of_nat i - Z.of_nat h + 1, Z.of_nat j - Z.of_nat w + 1)%Z). }
  apply nth_error_ext_len; [rewrite map_length, rev_length; reflexivity|].
  intros i Hi. rewrite map_length, rev_length, Hl in Hi.
  rewrite nth_error_map, nth_error_rev by lia. rewrite Hl.
  replace (2 * h - 1 - 1 - i) with (2 * h - 2 - i) by lia.
  specialize (He i).
  destruct (nth_error out i) as [r|] eqn:E1; [|apply nth_error_None in E1; lia].
  destruct (nth_error out (2 * h - 2 - i)) as [r'|] eqn:E2; [|apply nth_error_None in E2; lia].
  cbn [option_map]. f_equal. cbn [bind] in He.
  pose proof (Hr r (nth_error_In _ _ E1)) as L1. pose proof (Hr r' (nth_error_In _ _ E2)) as L2.
  apply nth_error_ext_len; [rewrite rev_length; lia|].
  intros j Hj. rewrite rev_length in Hj. rewrite nth_error_rev by lia. rewrite L2.
  rewrite He by lia. f_equal. lia.
Qed.
