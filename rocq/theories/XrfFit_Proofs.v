(* Lemmas about XrfFit_Model. *)
From Coq Require Import Reals Qround.
From Verif Require Import Common QcArith Xrf_Model Xrf_Proofs Xrf_More BinStat_Model BinStat_Main XrfFit_Model.
From Coq Require Import Lra.
Open Scope list_scope.
Local Open Scope R_scope.

Lemma rsum_cons a l : rsum (a :: l) = a + rsum l. Proof. reflexivity. Qed.
Lemma rsum_nil : rsum [] = 0. Proof. reflexivity. Qed.
Lemma rsum_app a b : rsum (a ++ b) = rsum a + rsum b.
Proof. induction a as [|x a IH]; cbn [app]; [rewrite rsum_nil; lra|]. rewrite !rsum_cons, IH. lra. Qed.
Lemma rsum_scal c l : rsum (map (Rmult c) l) = c * rsum l.
Proof. induction l as [|x l IH]; cbn [map]; [rewrite rsum_nil; lra|]. rewrite !rsum_cons, IH. lra. Qed.
Lemma rsum_ext {A} (f g : A -> R) l : (forall a, In a l -> f a = g a) -> rsum (map f l) = rsum (map g l).
Proof. induction l as [|x l IH]; intros H; cbn [map]; [reflexivity|]. rewrite !rsum_cons, (H x), IH; auto; [|now left]. intros; apply H; now right. Qed.
Lemma rsum_nonneg l : (forall x, In x l -> 0 <= x) -> 0 <= rsum l.
Proof. induction l as [|x l IH]; intros H; [rewrite rsum_nil; lra|]. rewrite rsum_cons. pose proof (H x (or_introl eq_refl)). assert (0 <= rsum l) by (apply IH; intros; apply H; now right). lra. Qed.
Lemma rsum_zero l : (forall x, In x l -> 0 <= x) -> rsum l = 0 -> forall x, In x l -> x = 0.
Proof.
  induction l as [|a l IH]; intros H Z x [].
  - subst a. rewrite rsum_cons in Z. pose proof (H x (or_introl eq_refl)). assert (0 <= rsum l) by (apply rsum_nonneg; intros; apply H; now right). lra.
  - rewrite rsum_cons in Z. pose proof (H a (or_introl eq_refl)). assert (0 <= rsum l) by (apply rsum_nonneg; intros; apply H; now right).
    apply IH; auto; [intros; apply H; now right|lra].
Qed.
Lemma zipw_cons {A B C} (f : A -> B -> C) a l b m : zipw f (a :: l) (b :: m) = f a b :: zipw f l m. Proof. reflexivity. Qed.
Lemma zipw_nil_r {A B C} (f : A -> B -> C) l : zipw f l [] = []. Proof. destruct l; reflexivity. Qed.

(** ** Non-negative least squares *)
Definition sq_err (M : matrix) (x y : list R) : R := rsum (zipw (fun a b => (a - b) * (a - b)) (mulv M x) y).
Record is_nnls (M : matrix) (y x : list R) (r : R) : Prop := {
  nn_pos : Forall (Rle 0) x;
  nn_res : r = sqrt (sq_err M x y);
  nn_min : forall x', length x' = length x -> Forall (Rle 0) x' -> sq_err M x y <= sq_err M x' y }.
Lemma dotp_scal c row : forall x, dotp row (map (Rmult c) x) = c * dotp row x.
Proof.
  unfold dotp. induction row as [|a row IH]; intros [|b x]; cbn [map]; rewrite ?zipw_nil_r; try (cbn; lra).
  rewrite !zipw_cons, !rsum_cons, IH. lra.
Qed.
Lemma sq_err_scal c M x : forall y, sq_err M (map (Rmult c) x) (map (Rmult c) y) = c * c * sq_err M x y.
Proof.
  unfold sq_err. induction M as [|row M IH]; intros [|b y]; cbn [mulv map]; rewrite ?zipw_nil_r; try (cbn; lra).
  fold (mulv M x) (mulv M (map (Rmult c) x)). rewrite !zipw_cons, !rsum_cons, IH, dotp_scal. ring.
Qed.
Lemma sq_err_nonneg M x : forall y, 0 <= sq_err M x y.
Proof.
  intros y. apply rsum_nonneg. unfold zipw. intros v Hv. apply in_map_iff in Hv as ([a b] & <- & _). cbn. apply Rle_0_sqr.
Qed.
Lemma nnls_scale M y x r c : 0 < c -> is_nnls M y x r -> is_nnls M (map (Rmult c) y) (map (Rmult c) x) (c * r).
Proof.
  intros Hc [P E Mi]. split.
  - apply Forall_forall. intros v Hv. apply in_map_iff in Hv as (u & <- & Hu). rewrite Forall_forall in P. apply Rmult_le_pos; [lra|auto].
  - rewrite sq_err_scal, sqrt_mult, sqrt_square by (try apply sq_err_nonneg; nra). now rewrite E.
  - intros x' L P'. rewrite sq_err_scal.
    assert (X : x' = map (Rmult c) (map (Rmult (/ c)) x')).
    { rewrite map_map. rewrite <- (map_id x') at 1. apply map_ext. intros a. field. lra. }
    rewrite X, sq_err_scal. apply Rmult_le_compat_l; [nra|]. apply Mi.
    + rewrite map_length in L |- *. exact L.
    + apply Forall_forall. intros v Hv. apply in_map_iff in Hv as (u & <- & Hu). rewrite Forall_forall in P'.
      apply Rmult_le_pos; [left; now apply Rinv_0_lt_compat|auto].
Qed.
Lemma nnls_unique M y x r x' r' : is_nnls M y x r -> is_nnls M y x' r' -> length x = length x' -> r = r'.
Proof.
  intros [P E Mi] [P' E' Mi'] L. subst r r'. f_equal. apply Rle_antisym; [apply Mi|apply Mi']; auto.
Qed.
(** weights *)
Definition werr (M : matrix) (x y w : list R) : R := rsum (zipw Rmult w (zipw (fun a b => (a - b) * (a - b)) (mulv M x) y)).
Lemma dotp_row s row : forall x, dotp (map (Rmult s) row) x = s * dotp row x.
Proof.
  unfold dotp. induction row as [|a row IH]; intros [|b x]; cbn [map]; rewrite ?zipw_nil_r; try (cbn; lra).
  rewrite !zipw_cons, !rsum_cons, IH. lra.
Qed.
Lemma weighted M x : forall y w, Forall (Rle 0) w -> sq_err (weigh_rows M w) x (weigh y w) = werr M x y w.
Proof.
  unfold sq_err, werr. induction M as [|row M IH]; intros y w Hw.
  { change (mulv [] x) with (@nil R). change (zipw (fun a b => (a - b) * (a - b)) [] y) with (@nil R). rewrite zipw_nil_r. reflexivity. }
  destruct y as [|b y].
  { change (weigh [] w) with (@nil R). rewrite !zipw_nil_r. reflexivity. }
  destruct w as [|v w].
  { reflexivity. }
  { inversion Hw as [|? ? Hv Hw']; subst. unfold weigh_rows, weigh in *. cbn [map mulv]. fold (mulv M x).
    rewrite !zipw_cons. cbn [map mulv]. rewrite !zipw_cons, !rsum_cons, dotp_row.
    change (map (fun r1 => dotp r1 x) (zipw (fun r2 s => map (Rmult s) r2) M (map sqrt w))) with (mulv (zipw (fun r0 s => map (Rmult s) r0) M (map sqrt w)) x).
    rewrite IH by exact Hw'. f_equal. rewrite <- (sqrt_sqrt v Hv) at 5. ring. }
Qed.
Lemma nnls_weighted M y w x r : Forall (Rle 0) w -> is_nnls (weigh_rows M w) (weigh y w) x r ->
  Forall (Rle 0) x /\ r = sqrt (werr M x y w) /\ forall x', length x' = length x -> Forall (Rle 0) x' -> werr M x y w <= werr M x' y w.
Proof.
  intros Hw [P E Mi]. split; [exact P|]. split; [rewrite E, weighted by exact Hw; reflexivity|].
  intros x' L P'. rewrite <- !weighted by exact Hw. auto.
Qed.

(** ** fit_per_line_nnls *)
Lemma fit_unbound nnls snip y data M : fit_per_line_nnls nnls snip (y :: data) M false = UnboundLocal.
Proof. reflexivity. Qed.
Lemma fit_snip nnls snip M data : fit_per_line_nnls nnls snip data M true =
  Ret (map (fun y => let '(x, r) := nnls M (zipw Rminus y (snip y)) in (x, rsum (snip y), goodness y r)) data).
Proof.
  unfold fit_per_line_nnls. generalize (@None (list R)) 0. induction data as [|y data IH]; intros o s; cbn [fit_rows map]; [reflexivity|].
  unfold nnls_fit. destruct (nnls M (zipw Rminus y (snip y))) as [x r]. now rewrite IH.
Qed.
Lemma mean_scal c y : mean (map (Rmult c) y) = c * mean y.
Proof. unfold mean. rewrite rsum_scal, map_length. unfold Rdiv. ring. Qed.
Lemma sst_scal c y : sst (map (Rmult c) y) = c * c * sst y.
Proof.
  unfold sst. rewrite map_map, mean_scal.
  rewrite (rsum_ext _ (fun v => (c * c) * ((v - mean y) * (v - mean y)))) by (intros; ring).
  rewrite <- (map_map (fun v => (v - mean y) * (v - mean y)) (Rmult (c * c))), rsum_scal. reflexivity.
Qed.
Lemma goodness_scale y r c g : c <> 0 -> goodness y r = Some g -> goodness (map (Rmult c) y) (c * r) = Some (1 - (1 - g) / c).
Proof.
  intros Hc. unfold goodness. rewrite sst_scal. destruct (Req_EM_T (sst y) 0) as [|N]; [discriminate|]. intros E. injection E as <-.
  destruct (Req_EM_T (c * c * sst y) 0) as [Z|_].
  - exfalso. apply Rmult_integral in Z as [Z|Z]; [|auto]. apply Rmult_integral in Z as [Z|Z]; auto.
  - f_equal. field. auto.
Qed.
Definition r_squared (y : list R) (r : R) : R := 1 - r * r / sst y.
Lemma r_squared_scale y r c : c <> 0 -> sst y <> 0 -> r_squared (map (Rmult c) y) (c * r) = r_squared y r.
Proof. intros Hc N. unfold r_squared. rewrite sst_scal. f_equal. field. auto. Qed.

(** ** linear_spectrum_fitting *)
Lemma aset_new {A} (d : list (string * A)) k v : ~ In k (map fst d) -> aset d k v = d ++ [(k, v)].
Proof.
  induction d as [|[k' w] r IH]; cbn; intros H; [reflexivity|]. destruct (String.eqb k k') eqn:E; [apply String.eqb_eq in E; subst; tauto|].
  f_equal. apply IH. tauto.
Qed.
Lemma fold_distinct {A} (keep : string * A -> bool) : forall l d, NoDup (map fst d ++ map fst l) ->
  fold_left (fun d p => if keep p then aset d (fst p) (snd p) else d) l d = d ++ filter keep l.
Proof.
  induction l as [|[k v] l IH]; intros d H; cbn [fold_left filter map]; [now rewrite app_nil_r|].
  cbn [map fst] in H. destruct (keep (k, v)).
  - cbn [fst snd]. rewrite aset_new by (intros I; apply NoDup_remove_2 in H; apply H, in_or_app; now left).
    rewrite IH; [now rewrite <- app_assoc|]. rewrite map_app, <- app_assoc. exact H.
  - apply IH. eapply NoDup_remove_1; eauto.
Qed.
Definition kept (p : string * list R) : bool := if Req_EM_T (rsum (snd p)) 0 then false else true.
Lemma spectra_distinct names M out : NoDup names -> length names = length out ->
  spectra_dict names M out = filter kept (combine names (total_y M out)).
Proof.
  intros N L. unfold spectra_dict.
  pose proof (fold_distinct kept (combine names (total_y M out)) []) as F. cbn [app map] in F. rewrite <- F; clear F.
  - set (l := combine _ _). generalize (@nil (string * list R)). induction l as [|p l IH]; intros d; [reflexivity|]. cbn [fold_left].
    rewrite IH. f_equal. unfold kept. now destruct (Req_EM_T (rsum (snd p)) 0).
  - replace (map fst (combine names (total_y M out))) with names; [exact N|].
    assert (E : length names = length (total_y M out)) by (unfold total_y; now rewrite map_length, seq_length).
    revert E. generalize (total_y M out). clear. induction names; intros [|t l]; cbn; intros E; try discriminate; [reflexivity|]. f_equal. auto.
Qed.
Lemma dotp_seq row out : length row = length out -> dotp row out = rsum (map (fun j => nth j out 0 * nth j row 0) (seq 0 (length out))).
Proof.
  unfold dotp. revert out. induction row as [|a row IH]; intros [|b out]; cbn [length]; intros L; try discriminate; [reflexivity|].
  injection L as L. rewrite zipw_cons, rsum_cons, IH by exact L. cbn [seq map]. rewrite rsum_cons. cbn [nth]. f_equal; [ring|].
  rewrite <- seq_shift, map_map. reflexivity.
Qed.
Lemma nth_map_R (f : R -> R) l i : (i < length l)%nat -> nth i (map f l) 0 = f (nth i l 0).
Proof. intros H. rewrite (nth_indep _ 0 (f 0)) by now rewrite map_length. apply map_nth. Qed.
Lemma nth_column M j i row : nth_error M i = Some row -> nth i (column M j) 0 = nth j row 0.
Proof.
  intros H. unfold column. assert (E : nth_error (map (fun row => nth j row 0) M) i = Some (nth j row 0)) by (rewrite nth_error_map, H; reflexivity).
  exact (nth_error_nth _ _ _ E).
Qed.
Lemma components_sum names M out i row : NoDup names -> length names = length out ->
  Forall (fun r => length r = length out /\ Forall (Rle 0) r) M -> Forall (Rle 0) out -> nth_error M i = Some row ->
  rsum (map (fun p => nth i (snd p) 0) (spectra_dict names M out)) = dotp row out.
Proof.
  intros N L FM FO Hi. rewrite (spectra_distinct names M out N L).
  rewrite Forall_forall in FM. destruct (FM row (nth_error_In _ _ Hi)) as (Lr & _). rewrite (dotp_seq row out Lr).
  assert (K : forall l, (forall p, In p l -> Forall (Rle 0) (snd p) /\ (i < length (snd p))%nat) ->
    rsum (map (fun p => nth i (snd p) 0) (filter kept l)) = rsum (map (fun p : string * list R => nth i (snd p) 0) l)).
  { induction l as [|p l IH]; intros H; [reflexivity|]. cbn [filter map]. rewrite rsum_cons, <- IH by (intros; apply H; now right).
    destruct (H p (or_introl eq_refl)) as (P & Li). unfold kept at 1. destruct (Req_EM_T (rsum (snd p)) 0) as [Z|Z]; [|reflexivity].
    rewrite Forall_forall in P. rewrite (rsum_zero _ P Z (nth i (snd p) 0)); [lra|]. now apply nth_In. }
  rewrite K.
  - rewrite <- (map_map snd (fun s => nth i s 0)).
    assert (S : map snd (combine names (total_y M out)) = total_y M out).
    { assert (E : length names = length (total_y M out)) by (unfold total_y; now rewrite map_length, seq_length).
      revert E. generalize (total_y M out). clear. induction names; intros [|t l]; cbn; intros E; try discriminate; [reflexivity|]. f_equal. auto. }
    rewrite S. unfold total_y. rewrite map_map. apply rsum_ext. intros j Hj. apply in_seq in Hj.
    rewrite nth_map_R; [|unfold column; rewrite map_length; apply nth_error_Some; congruence]. now rewrite (nth_column M j i row Hi).
  - intros [n s] Hp. apply in_combine_r in Hp. unfold total_y in Hp. apply in_map_iff in Hp as (j & <- & Hj). apply in_seq in Hj. cbn [snd]. split.
    + apply Forall_forall. intros v Hv. apply in_map_iff in Hv as (u & <- & Hu). unfold column in Hu. apply in_map_iff in Hu as (r & <- & Hr).
      destruct (FM r Hr) as (Lr' & Pr). rewrite Forall_forall in FO, Pr. apply Rmult_le_pos; [apply FO|apply Pr]; apply nth_In; lia.
    + unfold column. rewrite !map_length. apply nth_error_Some. congruence.
Qed.

(** ** calculate_area *)
Lemma fold_aset (names : list string) (f : nat -> R) : NoDup names -> forall i, (i < length names)%nat ->
  aget (fold_left (fun d i => aset d (nth i names EmptyString) (f i)) (seq 0 (length names)) []) (nth i names EmptyString) = Some (f i).
Proof.
  intros N i Hi.
  assert (G : forall l d, ~ In i l -> (forall k, In k l -> k < length names)%nat ->
    aget (fold_left (fun d i => aset d (nth i names EmptyString) (f i)) l d) (nth i names EmptyString) = aget d (nth i names EmptyString)).
  { induction l as [|k l IH]; intros d NI B; [reflexivity|]. cbn [fold_left]. rewrite IH; [|intros X; apply NI; now right|intros; apply B; now right].
    apply aget_aset_ne. intros E. apply NI. left. eapply NoDup_nth; eauto. apply B. now left. }
  assert (S : seq 0 (length names) = seq 0 i ++ i :: seq (S i) (length names - S i)).
  { replace (length names) with (i + (1 + (length names - S i)))%nat at 1 by lia. rewrite seq_app. reflexivity. }
  rewrite S, fold_left_app. cbn [fold_left]. rewrite G; [apply aget_aset_eq| |].
  - rewrite in_seq. lia.
  - intros k Hk. rewrite in_seq in Hk. lia.
Qed.
Lemma area_map names M results ratio fp i : NoDup names -> (i < length names)%nat -> ~ In "snip_bkg"%string names -> ~ In "r_squared"%string names ->
  aget (calculate_area names M results ratio fp) (nth i names EmptyString) =
  Some (rsum (map (Rmult (nth i results 0)) (column M i)) *
        (if fp then if mem (nth i names EmptyString) (K_LINE ++ L_LINE ++ M_LINE) then ratio (nth i names EmptyString) else 1 else 1)).
Proof.
  intros N Hi B1 B2. unfold calculate_area. cbn zeta.
  assert (I : In (nth i names EmptyString) names) by now apply nth_In.
  rewrite !aget_aset_ne by congruence.
  rewrite (fold_aset names (fun i => nth i results 0 * mat_sum M i * (if fp then if mem (nth i names EmptyString) (K_LINE ++ L_LINE ++ M_LINE) then ratio (nth i names EmptyString) else 1 else 1)) N i Hi).
  rewrite rsum_scal. reflexivity.
Qed.
Lemma area_extra names M results ratio fp : length results = (length names + 2)%nat ->
  aget (calculate_area names M results ratio fp) "snip_bkg" = Some (nth (length names) results 0) /\
  aget (calculate_area names M results ratio fp) "r_squared" = Some (nth (length names + 1) results 0).
Proof.
  intros L. unfold calculate_area. cbn zeta. split.
  - rewrite aget_aset_ne by discriminate. rewrite aget_aset_eq, L. do 2 f_equal. lia.
  - rewrite aget_aset_eq, L. do 2 f_equal. lia.
Qed.

(** ** define_range *)
Lemma round_mono x y : (x <= y)%Qc -> (qround_even x <= qround_even y)%Z.
Proof.
  intros H. destruct (round_near x) as [A1 A2]. destruct (round_near y) as [B1 B2].
  destruct (Z_le_gt_dec (qround_even x) (qround_even y)) as [|G]; [assumption|exfalso].
  assert (C : (qz (qround_even y + 1) <= qz (qround_even x))%Qc) by (apply qz_le; lia). rewrite qz_add, qz_1 in C.
  assert (E : x = y). { apply Qcle_antisym; [exact H|].
    set (a := qz (qround_even x)) in *. set (b := qz (qround_even y)) in *. set (h := Q2Qc (1 # 2)) in *.
    assert (Hh : (h + h = 1)%Qc) by (apply Qc_is_canon; reflexivity). clearbody a b h. qclra. }
  subst y. lia.
Qed.
Lemma round_exact z : qround_even (qz z) = z.
Proof.
  destruct (round_near (qz z)) as [A B]. set (r := qround_even (qz z)) in *.
  assert (C : (qz r < qz (z + 1))%Qc). { rewrite qz_add, qz_1. set (a := qz r) in *. set (b := qz z) in *.
    assert (Hh : (Q2Qc (1 # 2) + Q2Qc (1 # 2) = 1)%Qc) by (apply Qc_is_canon; reflexivity). set (h := Q2Qc (1 # 2)) in *. clearbody a b h. qclra. }
  assert (D : (qz z < qz (r + 1))%Qc). { rewrite qz_add, qz_1. set (a := qz r) in *. set (b := qz z) in *.
    assert (Hh : (Q2Qc (1 # 2) + Q2Qc (1 # 2) = 1)%Qc) by (apply Qc_is_canon; reflexivity). set (h := Q2Qc (1 # 2)) in *. clearbody a b h. qclra. }
  apply (proj1 (qz_lt _ _)) in C, D. lia.
Qed.
Lemma trim_in {A} (data : list A) low high k v : In (k, v) (trim (map Z.of_nat (seq 0 (length data))) data low high) <->
  (low <= k <= high)%Z /\ (0 <= k)%Z /\ nth_error data (Z.to_nat k) = Some v.
Proof.
  unfold trim. rewrite filter_In. cbn [fst].
  assert (C : forall s (d : list A), In (k, v) (combine (map Z.of_nat (seq s (length d))) d) <-> (Z.of_nat s <= k)%Z /\ nth_error d (Z.to_nat k - s) = Some v).
  { intros s d; revert s. induction d as [|a d IH]; intros s; cbn [length seq map combine].
    - split; [intros []|]. intros [_ H]. destruct (Z.to_nat k - s)%nat; discriminate.
    - cbn [In]. rewrite IH. split.
      + intros [E|[H1 H2]].
        * injection E as <- <-. split; [lia|]. replace (Z.to_nat (Z.of_nat s) - s)%nat with 0%nat by lia. reflexivity.
        * split; [lia|]. replace (Z.to_nat k - s)%nat with (S (Z.to_nat k - S s)) by lia. exact H2.
      + intros [H1 H2]. destruct (Z.eq_dec (Z.of_nat s) k) as [E|E].
        * left. subst k. replace (Z.to_nat (Z.of_nat s) - s)%nat with 0%nat in H2 by lia. cbn in H2. congruence.
        * right. split; [lia|]. replace (Z.to_nat k - s)%nat with (S (Z.to_nat k - S s)) in H2 by lia. exact H2. }
  rewrite C. replace (Z.to_nat k - 0)%nat with (Z.to_nat k) by lia. split; [intros [H1 H2]|intros [H1 H2]]; repeat split; try lia; tauto.
Qed.
(** The channels come in ascending order, each once. *)
Lemma trim_sorted {A} (data : list A) low high : NoDup (map fst (trim (map Z.of_nat (seq 0 (length data))) data low high)) /\
  Sorted.StronglySorted Z.lt (map fst (trim (map Z.of_nat (seq 0 (length data))) data low high)).
Proof.
  assert (S : forall s (d : list A), Sorted.StronglySorted Z.lt (map fst (filter (fun p => (low <=? fst p)%Z && (fst p <=? high)%Z) (combine (map Z.of_nat (seq s (length d))) d))) /\
     Forall (fun z => (Z.of_nat s <= z)%Z) (map fst (filter (fun p => (low <=? fst p)%Z && (fst p <=? high)%Z) (combine (map Z.of_nat (seq s (length d))) d)))).
  { intros s d; revert s. induction d as [|a d IH]; intros s; cbn [length seq map combine filter]; [split; constructor|].
    destruct (IH (S s)) as (A1 & A2). assert (A3 : Forall (fun z => (Z.of_nat s <= z)%Z) (map fst (filter (fun p : Z * A => (low <=? fst p)%Z && (fst p <=? high)%Z) (combine (map Z.of_nat (seq (S s) (length d))) d)))).
    { eapply Forall_impl; [|exact A2]. cbn. intros; lia. }
    cbn [fst]. destruct ((low <=? Z.of_nat s)%Z && (Z.of_nat s <=? high)%Z); cbn [map fst]; [|now split].
    split; constructor; auto; [|lia]. eapply Forall_impl; [|exact A2]. cbn. intros; lia. }
  destruct (S 0%nat data) as (A1 & _). split; [|exact A1].
  fold (@trim A (map Z.of_nat (seq 0 (length data))) data low high) in A1. revert A1. generalize (map fst (trim (map Z.of_nat (seq 0 (length data))) data low high)).
  clear. intros l H. induction H as [|a l H IH F]; constructor; auto. rewrite Forall_forall in F. intros I. apply F in I. lia.
Qed.
Definition energy_at (a0 a1 : Qc) (k : Z) : Qc := (a0 + a1 * qz k)%Qc.
Lemma range_inside {A} (data : list A) low high a0 a1 k v : (0 < a1)%Qc -> (0 <= k)%Z -> nth_error data (Z.to_nat k) = Some v ->
  (low <= energy_at a0 a1 k)%Qc -> (energy_at a0 a1 k <= high)%Qc ->
  exists l, define_range data low high a0 a1 = Some l /\ In (k, v) l.
Proof.
  intros P K V L H. unfold define_range. destruct (Qc_eqb_spec a1 0%Qc) as [Z|Z]; [subst; exfalso; qclra|].
  eexists. split; [reflexivity|]. apply trim_in. split; [|now split].
  assert (E : forall z, ((energy_at a0 a1 z - a0) / a1 = qz z)%Qc) by (intros z; unfold energy_at; field; exact Z).
  assert (IP : (0 <= / a1)%Qc).
  { replace (/ a1)%Qc with (1 / a1)%Qc by (field; exact Z). apply Qclt_le_weak, Qc_div_pos; [reflexivity|exact P]. }
  split; [rewrite <- (round_exact k)|rewrite <- (round_exact k)]; unfold channel; apply round_mono; rewrite <- (E k); unfold Qcdiv; apply Qcmult_le_compat_r;
    try exact IP; unfold energy_at in *; set (x := (a1 * qz k)%Qc) in *; clearbody x; qclra.
Qed.
Lemma range_near {A} (data : list A) low high a0 a1 l k v : (0 < a1)%Qc -> define_range data low high a0 a1 = Some l -> In (k, v) l ->
  nth_error data (Z.to_nat k) = Some v /\ (0 <= k)%Z /\
  (low - a1 * Q2Qc (1 # 2) <= energy_at a0 a1 k)%Qc /\ (energy_at a0 a1 k <= high + a1 * Q2Qc (1 # 2))%Qc.
Proof.
  intros P. unfold define_range. destruct (Qc_eqb_spec a1 0%Qc) as [Z|Z]; [discriminate|]. intros E I. apply some_inj in E. subst l.
  apply trim_in in I as ((L & H) & K & V). split; [exact V|]. split; [exact K|].
  unfold channel in *. destruct (round_near ((low - a0) / a1)%Qc) as [A1 A2]. destruct (round_near ((high - a0) / a1)%Qc) as [B1 B2].
  apply (proj2 (qz_le _ _)) in L, H. set (h := Q2Qc (1 # 2)) in *.
  assert (X : ((low - a0) / a1 * a1 = low - a0)%Qc) by (field; exact Z). assert (Y : ((high - a0) / a1 * a1 = high - a0)%Qc) by (field; exact Z).
  set (x := ((low - a0) / a1)%Qc) in *. set (y := ((high - a0) / a1)%Qc) in *. unfold energy_at.
  set (kk := qz k) in *. set (rx := qz (qround_even x)) in *. set (ry := qz (qround_even y)) in *. clearbody x y kk rx ry h. split.
  - assert (C : (x - h <= kk)%Qc) by qclra. assert (D : (0 <= (kk - (x - h)) * a1)%Qc) by qcnra. qcnra.
  - assert (C : (kk <= y + h)%Qc) by qclra. assert (D : (0 <= ((y + h) - kk) * a1)%Qc) by qcnra. qcnra.
Qed.
(** With a negative slope nothing is left of a range wider than one channel. *)
Lemma range_negative {A} (data : list A) low high a0 a1 : (a1 < 0)%Qc -> (- a1 < high - low)%Qc -> define_range data low high a0 a1 = Some [].
Proof.
  intros P W. unfold define_range. destruct (Qc_eqb_spec a1 0%Qc) as [Z|Z]; [subst; exfalso; qclra|]. f_equal.
  destruct (trim (map Z.of_nat (seq 0 (length data))) data (channel low a0 a1) (channel high a0 a1)) as [|[k v] l] eqn:T; [reflexivity|exfalso].
  assert (I : In (k, v) (trim (map Z.of_nat (seq 0 (length data))) data (channel low a0 a1) (channel high a0 a1))) by (rewrite T; now left).
  apply trim_in in I as (B & _). assert (C : (channel low a0 a1 <= channel high a0 a1)%Z) by lia. unfold channel in C.
  destruct (round_near ((low - a0) / a1)%Qc) as [A1 A2]. destruct (round_near ((high - a0) / a1)%Qc) as [B1 B2]. apply (proj2 (qz_le _ _)) in C.
  assert (X : ((low - a0) / a1 * a1 = low - a0)%Qc) by (field; exact Z). assert (Y : ((high - a0) / a1 * a1 = high - a0)%Qc) by (field; exact Z).
  set (x := ((low - a0) / a1)%Qc) in *. set (y := ((high - a0) / a1)%Qc) in *.
  set (rx := qz (qround_even x)) in *. set (ry := qz (qround_even y)) in *.
  assert (Hh : (Q2Qc (1 # 2) + Q2Qc (1 # 2) = 1)%Qc) by (apply Qc_is_canon; reflexivity). set (h := Q2Qc (1 # 2)) in *. clearbody x y rx ry h.
  assert (D : (x - y <= 1)%Qc) by qclra. assert (E : (0 <= (1 - (x - y)) * - a1)%Qc) by qcnra. qcnra.
Qed.
Lemma duplicate_lost : exists names M out, length names = length out /\
  Forall (fun r => length r = length out /\ Forall (Rle 0) r) M /\ Forall (Rle 0) out /\
  exists i row, nth_error M i = Some row /\ rsum (map (fun p => nth i (snd p) 0) (spectra_dict names M out)) <> dotp row out.
Proof.
  exists ["Fe_K"; "Fe_K"]%string, [[1; 1]], [1; 1]. split; [reflexivity|].
  split; [repeat constructor; lra|]. split; [repeat constructor; lra|]. exists 0%nat, [1; 1]. split; [reflexivity|].
  unfold spectra_dict. cbn [combine total_y length seq map nth column fold_left fst snd].
  destruct (Req_EM_T (rsum [1 * 1]) 0) as [E|_]; [unfold rsum in E; cbn in E; lra|]. unfold dotp, zipw, rsum. cbn. lra.
Qed.

(** ** The areas reported by linear_spectrum_fitting *)
Section Dict.
Context {P V : Type} (key : P -> string) (drop : P -> bool) (val : P -> V).
Lemma dict_other k : forall l d, ~ In k (map key l) -> aget (fold_left (fun d p => if drop p then d else aset d (key p) (val p)) l d) k = aget d k.
Proof.
  induction l as [|p l IH]; intros d H; [reflexivity|]. cbn in *. rewrite IH by tauto. destruct (drop p); [reflexivity|].
  apply aget_aset_ne. intros E. apply H. now left.
Qed.
Lemma dict_get p : forall l d, NoDup (map key l) -> In p l ->
  aget (fold_left (fun d p => if drop p then d else aset d (key p) (val p)) l d) (key p) = if drop p then aget d (key p) else Some (val p).
Proof.
  induction l as [|q l IH]; intros d N I; [destruct I|]. cbn in *. inversion N as [|? ? N1 N2]; subst. destruct I as [->|I].
  - rewrite dict_other by exact N1. destruct (drop p); [reflexivity|apply aget_aset_eq].
  - rewrite IH by assumption. destruct (drop p); [|reflexivity]. destruct (drop q); [reflexivity|]. apply aget_aset_ne. intros E. apply N1. rewrite E. now apply in_map.
Qed.
End Dict.
Lemma map_fst_combine {A B} (l : list A) : forall (m : list B), length l = length m -> map fst (combine l m) = l.
Proof. induction l as [|a l IH]; intros [|b m] E; cbn in *; try discriminate; [reflexivity|]. f_equal. apply IH. congruence. Qed.
Lemma nth_error_combine {A B} (l : list A) : forall (m : list B) i a b, nth_error l i = Some a -> nth_error m i = Some b -> nth_error (combine l m) i = Some (a, b).
Proof. induction l as [|x l IH]; intros [|y m] [|i] a b; cbn; try discriminate; [congruence|apply IH]. Qed.
Lemma areas_ok names M out areas j nm x : NoDup names -> length names = length out -> nth_error names j = Some nm -> nth_error out j = Some x ->
  let spec := map (Rmult x) (column M j) in
  (rsum spec = 0 -> aget (area_dict names M out areas) nm = None /\ aget (spectra_dict names M out) nm = None) /\
  (rsum spec <> 0 -> aget (area_dict names M out areas) nm = Some (x * areas nm) /\ aget (spectra_dict names M out) nm = Some spec).
Proof.
  intros N L Hn Hx spec. assert (LT : length (total_y M out) = length out) by (unfold total_y; now rewrite map_length, seq_length).
  assert (Ht : nth_error (total_y M out) j = Some spec).
  { unfold total_y. assert (J : (j < length out)%nat) by (apply nth_error_Some; congruence).
    rewrite nth_error_map. rewrite (nth_error_nth' (seq 0 (length out)) 0%nat) by (rewrite seq_length; exact J). rewrite seq_nth by exact J. cbn [option_map Nat.add].
    unfold spec. rewrite (nth_error_nth out j 0 Hx). reflexivity. }
  assert (A : aget (area_dict names M out areas) nm = if Req_EM_T (rsum spec) 0 then None else Some (x * areas nm)).
  { unfold area_dict.
    pose proof (dict_get (fun p : string * list R * R => fst (fst p)) (fun p => if Req_EM_T (rsum (snd (fst p))) 0 then true else false) (fun p => snd p * areas (fst (fst p)))
      (nm, spec, x) (combine (combine names (total_y M out)) out) []) as G. cbn [fst snd] in G.
    assert (E : forall l d, fold_left (fun d (p : string * list R * R) => if if Req_EM_T (rsum (snd (fst p))) 0 then true else false then d else aset d (fst (fst p)) (snd p * areas (fst (fst p)))) l d =
      fold_left (fun d p => if Req_EM_T (rsum (snd (fst p))) 0 then d else aset d (fst (fst p)) (snd p * areas (fst (fst p)))) l d).
    { induction l as [|p l IH]; intros d; [reflexivity|]. cbn. rewrite IH. destruct (Req_EM_T (rsum (snd (fst p))) 0); reflexivity. }
    rewrite E in G. rewrite G.
    - destruct (Req_EM_T (rsum spec) 0); reflexivity.
    - rewrite <- (map_map fst fst), map_fst_combine by (rewrite combine_length; lia). rewrite map_fst_combine by lia. exact N.
    - eapply nth_error_In. apply nth_error_combine; [apply nth_error_combine; eassumption|exact Hx]. }
  assert (S : aget (spectra_dict names M out) nm = if Req_EM_T (rsum spec) 0 then None else Some spec).
  { unfold spectra_dict.
    pose proof (dict_get (fun p : string * list R => fst p) (fun p => if Req_EM_T (rsum (snd p)) 0 then true else false) (fun p => snd p)
      (nm, spec) (combine names (total_y M out)) []) as G. cbn [fst snd] in G.
    assert (E : forall l d, fold_left (fun d (p : string * list R) => if if Req_EM_T (rsum (snd p)) 0 then true else false then d else aset d (fst p) (snd p)) l d =
      fold_left (fun d p => if Req_EM_T (rsum (snd p)) 0 then d else aset d (fst p) (snd p)) l d).
    { induction l as [|p l IH]; intros d; [reflexivity|]. cbn. rewrite IH. destruct (Req_EM_T (rsum (snd p)) 0); reflexivity. }
    rewrite E in G. rewrite G.
    - destruct (Req_EM_T (rsum spec) 0); reflexivity.
    - rewrite map_fst_combine by lia. exact N.
    - eapply nth_error_In. apply nth_error_combine; eassumption. }
  rewrite A, S. destruct (Req_EM_T (rsum spec) 0); split; intros; split; first [reflexivity | contradiction].
Qed.
