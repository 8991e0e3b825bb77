From Verif Require Import Common QcArith Sums Scatter Utils_Model Hist_Model Hist_Spec.
From Coq Require Import Permutation Qround.

Definition ax3 (a : axis) : nat * Qc * Qc := (ax_n a, ax_low a, ax_high a).
Definition good_axis (a : axis) : Prop := ax_n a <> 0 /\ (ax_low a < ax_high a)%Qc.

Lemma qtrunc_nat q k : (qn k <= q)%Qc -> (q < qn (S k))%Qc -> Z.to_nat (qtrunc q) = k.
Proof.
  intros H1 H2. unfold qtrunc. destruct (Qc_leb_spec 0%Qc q) as [H|H].
  - rewrite (Qfloor_unique q (Z.of_nat k)); [apply Nat2Z.id|exact H1|]. rewrite qn_S in H2. exact H2.
  - exfalso. apply H. eapply Qcle_trans; [apply qn_nonneg|exact H1].
Qed.
Lemma nat_floor q : (0 <= q)%Qc -> exists k, (qn k <= q)%Qc /\ (q < qn (S k))%Qc.
Proof.
  intros H. destruct (Qfloor_qc q) as [H1 H2].
  assert (Hz : (0 <= Qfloor (this q))%Z).
  { destruct (Z_lt_le_dec (Qfloor (this q)) 0) as [Hl|]; [|assumption]. exfalso.
    assert (Hle : (qz (Qfloor (this q) + 1) <= qz 0)%Qc) by (apply qz_le; lia).
    rewrite qz_add, qz_1, qz_0 in Hle. qclra. }
  exists (Z.to_nat (Qfloor (this q))). rewrite qn_S. unfold qn. rewrite Z2Nat.id by exact Hz. auto.
Qed.

Lemma bin_iff n lo hi x k : n <> 0 -> (lo < hi)%Qc ->
  let w := ((hi - lo) / qn n)%Qc in
  ((lo + qn k * w <= x)%Qc /\ (x < lo + qn (S k) * w)%Qc <->
   (qn k <= (x - lo) / w)%Qc /\ ((x - lo) / w < qn (S k))%Qc).
Proof.
  intros Hn Hlt w. assert (Hw : (0 < w)%Qc) by (apply Qc_div_pos; [qclra|apply qn_pos; exact Hn]).
  rewrite Qc_le_div, Qc_div_lt by exact Hw.
  split; intros [A B]; split; qclra.
Qed.

Lemma find_index_iff a x k : good_axis a ->
  (find_index a x = Some k <-> in_bin (ax_n a) (ax_low a) (ax_high a) k x).
Proof.
  intros [Hn Hlt]. unfold find_index, in_bin.
  set (lo := ax_low a) in *. set (hi := ax_high a) in *. set (n := ax_n a) in *.
  pose proof (bin_iff n lo hi x k Hn Hlt) as HB. cbv zeta in HB.
  set (w := ((hi - lo) / qn n)%Qc) in *.
  assert (Hnp : (0 < qn n)%Qc) by (apply qn_pos; exact Hn).
  assert (Hw : (0 < w)%Qc) by (apply Qc_div_pos; [qclra|exact Hnp]).
  assert (Ewn : (w * qn n = hi - lo)%Qc) by (unfold w; field; apply qn_neq0; exact Hn).
  destruct (Qc_leb_spec lo x) as [H1|H1]; cbn [andb].
  - destruct (Qc_ltb_spec x hi) as [H2|H2]; cbn [andb].
    + assert (Hq : (0 <= (x - lo) / w)%Qc) by (apply Qc_div_nonneg; [qclra|exact Hw]).
      destruct (nat_floor _ Hq) as [m [M1 M2]]. rewrite (qtrunc_nat _ m M1 M2).
      assert (Hmn : m < n).
      { apply qn_lt_inv. eapply Qcle_lt_trans; [exact M1|]. apply Qc_div_lt; [exact Hw|]. qclra. }
      split.
      * intros E. injection E as <-. split; [exact Hmn|]. apply HB. auto.
      * intros [Hk Hb]. apply HB in Hb. f_equal.
        assert (A1 : (qn m < qn (S k))%Qc) by (eapply Qcle_lt_trans; [exact M1|apply Hb]).
        assert (A2 : (qn k < qn (S m))%Qc) by (eapply Qcle_lt_trans; [apply Hb|exact M2]).
        apply qn_lt_inv in A1. apply qn_lt_inv in A2. lia.
    + split; [discriminate|]. intros [Hk [_ Hb]]. exfalso. apply H2.
      assert (Hle : (qn (S k) <= qn n)%Qc) by (apply qn_le; lia).
      eapply Qclt_le_trans; [exact Hb|]. qcnra.
  - split; [discriminate|]. intros [Hk [Hb _]]. exfalso. apply H1.
    pose proof (qn_nonneg k). eapply Qcle_trans; [|exact Hb]. qcnra.
Qed.
Lemma find_index_lt a x k : good_axis a -> find_index a x = Some k -> k < ax_n a.
Proof. intros H E. apply find_index_iff in E; [|exact H]. apply E. Qed.

(** Index tuple of a point in the order of the axes. *)
Fixpoint tuple_of (axes : list axis) (p : list Qc) : option (list nat) :=
  match axes, p with
  | [], [] => Some []
  | a :: axes', x :: p' =>
    match find_index a x with
    | None => None
    | Some k => match tuple_of axes' p' with Some t => Some (k :: t) | None => None end
    end
  | _, _ => None
  end.
Lemma tuple_iff axes : Forall good_axis axes -> forall p idx,
  tuple_of axes p = Some idx <-> in_cell (map ax3 axes) idx p.
Proof.
  induction 1 as [|a axes Ha HF IH]; intros p idx.
  - cbn. destruct p; split; intros H.
    + injection H as <-. constructor.
    + inversion H. reflexivity.
    + discriminate.
    + inversion H.
  - cbn [tuple_of map]. destruct p as [|x p]; [split; [discriminate|intros H; inversion H]|].
    split.
    + intros H. destruct (find_index a x) as [k|] eqn:E; [|discriminate].
      destruct (tuple_of axes p) as [t|] eqn:Et; [|discriminate]. injection H as <-.
      unfold ax3 at 1. constructor; [apply find_index_iff; assumption|apply IH; exact Et].
    + intros H. inversion H as [|n lo hi axs i idx' x' xs Hb Hc]; subst.
      apply (proj2 (find_index_iff a x i Ha)) in Hb. rewrite Hb.
      apply IH in Hc. rewrite Hc. reflexivity.
Qed.

Definition ns (axes : list axis) := map ax_n axes.
Lemma size_ns axes : size axes = fold_right Nat.mul 1 (ns axes).
Proof.
  induction axes as [|a l IH]; [reflexivity|]. change (size (a :: l)) with (ax_n a * size l).
  rewrite IH. reflexivity.
Qed.

Lemma tuple_bound axes : Forall good_axis axes -> forall p t, tuple_of axes p = Some t ->
  length t = length axes /\ row_major (ns axes) t < size axes.
Proof.
  induction 1 as [|a axes Ha HF IH]; intros p t E; cbn in E.
  - destruct p; [|discriminate]. injection E as <-. cbn. lia.
  - destruct p as [|x p]; [discriminate|]. destruct (find_index a x) as [k|] eqn:Ek; [|discriminate].
    destruct (tuple_of axes p) as [t'|] eqn:Et; [|discriminate]. injection E as <-.
    destruct (IH _ _ Et) as [L B]. apply find_index_lt in Ek; [|exact Ha].
    change (ns (a :: axes)) with (ax_n a :: ns axes). change (size (a :: axes)) with (ax_n a * size axes).
    cbn [row_major length]. rewrite <- size_ns. split; [lia|].
    set (s := size axes) in *. clearbody s. nia.
Qed.
Lemma row_major_inj axes : forall s t, length s = length axes -> length t = length axes ->
  Forall2 lt s (ns axes) -> Forall2 lt t (ns axes) ->
  row_major (ns axes) s = row_major (ns axes) t -> s = t.
Proof.
  assert (HB : forall axes t, length t = length axes -> Forall2 lt t (ns axes) -> row_major (ns axes) t < size axes \/ size axes = 0).
  { clear. induction axes as [|a axes IH]; intros [|i t] L F; cbn in L; try lia; [cbn; lia|].
    inversion F; subst. destruct (IH t ltac:(lia) H4) as [B|B].
    - left. change (ns (a :: axes)) with (ax_n a :: ns axes). change (size (a :: axes)) with (ax_n a * size axes).
      cbn [row_major]. rewrite <- size_ns. set (z := size axes) in *. clearbody z. nia.
    - right. change (size (a :: axes)) with (ax_n a * size axes). rewrite B. lia. }
  induction axes as [|a axes IH]; intros [|i s] [|j t] Ls Lt Fs Ft E; cbn in Ls, Lt; try lia; [reflexivity|].
  inversion Fs; subst. inversion Ft; subst.
  change (ns (a :: axes)) with (ax_n a :: ns axes) in E. cbn [row_major] in E. rewrite <- size_ns in E.
  assert (Hpos : forall axes t, length t = length axes -> Forall2 lt t (ns axes) -> size axes <> 0).
  { clear. induction axes as [|a axes IH]; intros [|i t] L F; cbn in L; try lia; [cbn; lia|].
    inversion F; subst. pose proof (IH t ltac:(lia) H4).
    change (size (a :: axes)) with (ax_n a * size axes). nia. }
  assert (Hz : size axes <> 0) by (apply (Hpos axes s); [lia|assumption]).
  destruct (HB axes s) as [Bs|]; [lia|assumption| |lia].
  destruct (HB axes t) as [Bt|]; [lia|assumption| |lia].
  assert (Eij : i = j).
  { set (z := size axes) in *. clearbody z.
    assert (i * z + row_major (ns axes) s < (S i) * z) by lia.
    assert (j * z + row_major (ns axes) t < (S j) * z) by lia. nia. }
  subst j. f_equal. apply IH; try assumption; lia.
Qed.
Lemma tuple_lt axes : Forall good_axis axes -> forall p t, tuple_of axes p = Some t -> Forall2 lt t (ns axes).
Proof.
  induction 1 as [|a axes Ha HF IH]; intros p t E; cbn in E.
  - destruct p; [|discriminate]. injection E as <-. constructor.
  - destruct p as [|x p]; [discriminate|]. destruct (find_index a x) as [k|] eqn:Ek; [|discriminate].
    destruct (tuple_of axes p) as [t'|] eqn:Et; [|discriminate]. injection E as <-.
    constructor; [apply find_index_lt in Ek; assumption|]. eapply IH; eauto.
Qed.

(* ------------------------------------------------------------------ *)
(** * The visible content of a call *)
Definition welem (ws : list Qc) (i : nat) : Qc := nth (if length ws =? 1 then 0 else i) ws 0%Qc.
Definition elem (c : coord) (i : nat) : Qc := nth (c_off c + i * c_stride c) (c_buf c) 0%Qc.
Definition pt (cs : list coord) (i : nat) : list Qc := map (fun c => elem c i) cs.
Definition npts (cs : list coord) : nat := match cs with [] => 0 | c :: _ => c_len c end.
Definition points (cs : list coord) (ws : list Qc) : list (list Qc * Qc) :=
  map (fun i => (pt cs i, welem ws i)) (seq 0 (npts cs)).

(** A numpy array: all its elements lie inside its buffer. *)
Definition good_array (c : coord) : Prop := forall i, i < c_len c -> c_off c + i * c_stride c < length (c_buf c).
Definition contiguous (c : coord) : Prop := c_stride c = 1.

Definition types_ok (cs : list coord) : Prop :=
  match cs with
  | [_] => True
  | [x; y] => c_type x = c_type y
  | _ => (forall c, In c cs -> c_type c = DInt \/ c_type c = DFloat) /\ (forall c, In c cs -> contiguous c)
  end.
Definition good_fill (axes : list axis) (cs : list coord) (ws : list Qc) : Prop :=
  length cs = length axes /\ axes <> [] /\ (forall c, In c cs -> good_array c /\ c_len c = npts cs) /\
  (length ws = 1 \/ length ws = npts cs) /\ types_ok cs.

Definition ups (f : nat -> option nat) (g : nat -> Qc) (is : list nat) : list (nat * Qc) :=
  flat_map (fun i => match f i with None => [] | Some k => [(k, g i)] end) is.
Lemma loop_scatter (body : list Qc -> nat -> option (list Qc)) f g is :
  (forall v i, In i is -> body v i = match f i with None => Some v | Some k => add_at v k (g i) end) ->
  forall v, foldM body is v = scatter (ups f g is) v.
Proof.
  induction is as [|i is IH]; intros H v; [reflexivity|].
  cbn [foldM ups flat_map]. rewrite H by (left; reflexivity). unfold scatter. rewrite foldM_app.
  assert (Hr : forall v, foldM body is v = scatter (ups f g is) v).
  { apply IH. intros v' i' Hi. apply H. right. exact Hi. }
  destruct (f i) as [k|]; cbn [foldM fst snd bind].
  - destruct (add_at v k (g i)) as [v'|]; cbn [bind]; [apply Hr|reflexivity].
  - apply Hr.
Qed.

Definition cellf (axes : list axis) (cs : list coord) (i : nat) : option nat :=
  option_map (row_major (ns axes)) (tuple_of axes (pt cs i)).

Lemma elem_get c i : good_array c -> i < c_len c -> view_get c i = Some (elem c i).
Proof. intros H Hi. unfold view_get, elem. apply nth_error_nth_lt. apply H. exact Hi. Qed.
Lemma elem_raw c i : good_array c -> contiguous c -> i < c_len c -> raw_get c i = Some (elem c i).
Proof.
  intros H Hc Hi. unfold raw_get, elem. rewrite Hc, Nat.mul_1_r. apply nth_error_nth_lt.
  specialize (H i Hi). rewrite Hc in H. lia.
Qed.
Lemma welem_get ws n i : length ws = 1 \/ length ws = n -> i < n -> weight_at ws i = Some (welem ws i).
Proof.
  intros H Hi. unfold weight_at, welem. apply nth_error_nth_lt.
  destruct (Nat.eqb_spec (length ws) 1); lia.
Qed.

(** Reading the axes in any order gives the same flat index. *)
Definition offset (i : nat) (l : list (coord * (axis * nat))) : option nat :=
  fold_right (fun t acc => match find_index (fst (snd t)) (elem (fst t) i), acc with
                           | Some k, Some s => Some (snd (snd t) * k + s) | _, _ => None end) (Some 0) l.
Lemma offset_perm i l l' : Permutation l l' -> offset i l = offset i l'.
Proof.
  induction 1 as [|x a b _ IH|x y a|a b c _ IH1 _ IH2]; cbn; [reflexivity| | |congruence].
  - unfold offset in IH. rewrite IH. reflexivity.
  - fold (offset i a). destruct (find_index (fst (snd x)) (elem (fst x) i)), (find_index (fst (snd y)) (elem (fst y) i)),
      (offset i a); try reflexivity. f_equal. lia.
Qed.
Lemma flat_index_offset i l : (forall t, In t l -> raw_get (fst t) i = Some (elem (fst t) i)) ->
  forall acc, flat_index l i acc = Some (option_map (fun s => acc + s) (offset i l)).
Proof.
  induction l as [|[c [a s]] l IH]; intros H acc; cbn [flat_index].
  - cbn. do 2 f_equal. lia.
  - pose proof (H _ (or_introl eq_refl)) as Hc. cbn [fst] in Hc. rewrite Hc. cbn [bind].
    cbn [offset fold_right fst snd]. fold (offset i l).
    destruct (find_index a (elem c i)) as [k|]; [|reflexivity].
    rewrite IH by (intros t Ht; apply H; right; exact Ht).
    destruct (offset i l) as [z|]; cbn; [|reflexivity]. do 2 f_equal. lia.
Qed.
Lemma offset_cellf axes : forall cs i, length cs = length axes ->
  offset i (combine cs (combine axes (strides axes))) = cellf axes cs i.
Proof.
  unfold cellf. induction axes as [|a axes IH]; intros [|c cs] i L; cbn in L; try lia; [reflexivity|].
  cbn [strides combine offset fold_right fst snd]. fold (offset i (combine cs (combine axes (strides axes)))).
  rewrite IH by lia. unfold pt. cbn [map tuple_of]. fold (pt cs i).
  destruct (find_index a (elem c i)) as [k|]; [|reflexivity].
  destruct (tuple_of axes (pt cs i)) as [t|]; cbn [option_map]; [|reflexivity].
  change (ns (a :: axes)) with (ax_n a :: ns axes). cbn [row_major]. rewrite <- size_ns. f_equal. lia.
Qed.
Lemma split_perm {A} (p q : A -> bool) l : (forall x, In x l -> p x || q x = true) ->
  (forall x, p x && q x = false) -> Permutation (filter p l ++ filter q l) l.
Proof.
  intros H Hd. induction l as [|x l IH]; [reflexivity|].
  assert (IH' := IH (fun y Hy => H y (or_intror Hy))). specialize (H x (or_introl eq_refl)). specialize (Hd x).
  cbn. destruct (p x), (q x); try discriminate.
  - cbn. constructor. exact IH'.
  - eapply perm_trans; [apply Permutation_sym, Permutation_middle|]. constructor. exact IH'.
Qed.

Lemma fill_scatter axes cs ws values : good_fill axes cs ws -> Forall good_axis axes ->
  fill axes cs ws values = lift (scatter (ups (cellf axes cs) (welem ws) (seq 0 (npts cs))) values).
Proof.
  intros [HL [Hne [Harr [Hw Ht]]]] HG. unfold fill.
  rewrite (proj2 (Nat.eqb_eq _ _) HL). cbn [negb]. fold (npts cs).
  replace (forallb (fun c => c_len c =? npts cs) cs) with true.
  2:{ symmetry. apply forallb_forall. intros c Hc. apply Nat.eqb_eq. apply Harr. exact Hc. }
  cbn [negb].
  replace (negb (length ws =? 1) && negb (length ws =? npts cs)) with false.
  2:{ destruct (Nat.eqb_spec (length ws) 1), (Nat.eqb_spec (length ws) (npts cs)); cbn; lia. }
  assert (Hnd : types_ok cs -> 2 < length cs \/ length cs = 0 -> fillnd axes cs ws values =
    lift (scatter (ups (cellf axes cs) (welem ws) (seq 0 (npts cs))) values)).
  { clear Ht. intros Ht Hlen.
    assert (Ht' : (forall c, In c cs -> is_int c || is_float c = true) /\ (forall c, In c cs -> contiguous c)).
    { assert (W : forall c : coord, c_type c = DInt \/ c_type c = DFloat -> is_int c || is_float c = true)
        by (intros c [E|E]; unfold is_int, is_float; rewrite E; reflexivity).
      destruct cs as [|x [|y [|z r]]]; cbn in Hlen; try lia; (split; [intros c Hc; apply W; exact (proj1 Ht c Hc)|exact (proj2 Ht)]). }
    destruct Ht' as [Ht1 Ht2]. unfold fillnd.
    replace (forallb (fun c => is_int c || is_float c) cs) with true
      by (symmetry; apply forallb_forall; exact Ht1). cbn [negb].
    f_equal. fold (npts cs). apply loop_scatter. intros v i Hi. apply in_seq in Hi.
    assert (Hin : forall t, In t (combine cs (combine axes (strides axes))) -> In (fst t) cs).
    { intros [c q] Hc. apply in_combine_l in Hc. exact Hc. }
    set (tg := combine cs (combine axes (strides axes))) in *.
    assert (HP : Permutation (filter (fun t => is_int (fst t)) tg ++ filter (fun t => is_float (fst t)) tg) tg).
    { apply split_perm.
      - intros t Ht'. apply Ht1, Hin, Ht'.
      - intros [c q]. unfold is_int, is_float. cbn. destruct (c_type c); reflexivity. }
    rewrite flat_index_offset.
    2:{ intros t Hti. apply (Permutation_in _ HP) in Hti. apply Hin in Hti.
        destruct (Harr _ Hti) as [Ha Hlen']. apply elem_raw; auto. lia. }
    rewrite (offset_perm i _ _ HP). unfold tg. rewrite offset_cellf by exact HL. cbn [bind].
    destruct (cellf axes cs i) as [k|]; cbn; [|reflexivity].
    rewrite (welem_get ws (npts cs)) by (auto; lia). reflexivity. }
  destruct axes as [|a [|b [|c axes]]]; [congruence| | |].
  - destruct cs as [|x [|y r]]; cbn in HL; try lia. f_equal. unfold fill1d.
    change (npts [x]) with (c_len x) in *. apply loop_scatter. intros v i Hi. apply in_seq in Hi.
    destruct (Harr x (or_introl eq_refl)) as [Ha _]. rewrite elem_get by (auto; lia). cbn [bind].
    unfold cellf, pt. cbn [map tuple_of]. destruct (find_index a (elem x i)) as [k|]; [|reflexivity].
    cbn [option_map row_major fold_right ns map]. rewrite (welem_get ws (c_len x)) by (auto; lia). cbn [bind].
    f_equal. lia.
  - destruct cs as [|x [|y [|z r]]]; cbn in HL; try lia.
    cbn in Ht. replace (dtype_eqb (c_type x) (c_type y)) with true.
    2:{ rewrite Ht. destruct (c_type y); cbn; auto. symmetry. apply Nat.eqb_refl. }
    f_equal. unfold fill2d. change (npts [x; y]) with (c_len x) in *.
    apply loop_scatter. intros v i Hi. apply in_seq in Hi.
    destruct (Harr x (or_introl eq_refl)) as [Ha _].
    destruct (Harr y (or_intror (or_introl eq_refl))) as [Hb Hby].
    rewrite elem_get by (auto; lia). cbn [bind]. unfold cellf, pt. cbn [map tuple_of].
    destruct (find_index a (elem x i)) as [k|]; [|reflexivity].
    rewrite (elem_get y) by (auto; lia). cbn [bind].
    destruct (find_index b (elem y i)) as [l|] eqn:El; [|reflexivity].
    apply find_index_lt in El. 2:{ rewrite Forall_forall in HG. apply HG. right. left. reflexivity. }
    rewrite (welem_get ws (c_len x)) by (auto; lia). cbn [bind].
    replace (l <? ax_n b) with true by (symmetry; apply Nat.ltb_lt; exact El).
    cbn [option_map row_major fold_right ns map]. f_equal. lia.
  - destruct cs as [|x [|y [|z r]]]; cbn in HL; try lia. apply Hnd; [exact Ht|]. cbn. lia.
Qed.

Lemma ups_in axes cs g is p : Forall good_axis axes -> In p (ups (cellf axes cs) g is) -> fst p < size axes.
Proof.
  intros HG H. unfold ups in H. apply in_flat_map in H. destruct H as [i [_ Hi]].
  unfold cellf in Hi. destruct (tuple_of axes (pt cs i)) as [t|] eqn:E; cbn in Hi; [|contradiction].
  destruct Hi as [<-|[]]. cbn. eapply tuple_bound; eauto.
Qed.

Lemma total_unique P l s t : total P l s -> total P l t -> s = t.
Proof.
  intros H. revert t. induction H as [|p w l s Hp H IH|p w l s Hp H IH]; intros t H'; inversion H'; subst; auto.
  - f_equal. auto.
  - contradiction.
  - contradiction.
Qed.
Lemma total_app P a b s t : total P a s -> total P b t -> total P (a ++ b) (s + t)%Qc.
Proof.
  induction 1 as [|p w l s Hp H IH|p w l s Hp H IH]; intros Hb; cbn.
  - replace (0 + t)%Qc with t by ring. exact Hb.
  - replace (w + s + t)%Qc with (w + (s + t))%Qc by ring. constructor; auto.
  - apply tot_out; auto.
Qed.
Lemma total_exists P l : (forall p, P p \/ ~ P p) -> exists t, total P l t.
Proof.
  intros Hd. induction l as [|[p w] l [t IH]]; [exists 0%Qc; constructor|].
  destruct (Hd p); eexists; [apply tot_in|apply tot_out]; eauto.
Qed.
Lemma total_perm P l l' s : (forall p, P p \/ ~ P p) -> Permutation l l' -> total P l s -> total P l' s.
Proof.
  intros Hd HP. revert s. induction HP as [|[p w] a b _ IH|[p w] [q v] a|a b c _ IH1 _ IH2]; intros s H; auto.
  - inversion H; subst; [apply tot_in|apply tot_out]; auto.
  - inversion H as [|? ? ? s1 A B|? ? ? s1 A B]; subst; inversion B as [|? ? ? s2 A' B'|? ? ? s2 A' B']; subst.
    + replace (v + (w + s2))%Qc with (w + (v + s2))%Qc by ring. repeat (apply tot_in; auto).
    + apply tot_out; auto. apply tot_in; auto.
    + apply tot_in; auto. apply tot_out; auto.
    + repeat (apply tot_out; auto).
Qed.

Lemma fill_total axes cs ws idx : Forall good_axis axes ->
  length idx = length axes -> Forall2 lt idx (ns axes) ->
  total (in_cell (map ax3 axes) idx) (points cs ws)
    (qsum (hits (row_major (ns axes) idx) (ups (cellf axes cs) (welem ws) (seq 0 (npts cs))))).
Proof.
  intros HG HL HF. unfold points. generalize (seq 0 (npts cs)) as is.
  induction is as [|i is IH]; [constructor|]. cbn [map ups flat_map]. rewrite hits_app, qsum_app.
  unfold cellf at 1. destruct (tuple_of axes (pt cs i)) as [t|] eqn:E; cbn [option_map].
  - destruct (Nat.eqb_spec (row_major (ns axes) t) (row_major (ns axes) idx)) as [Eq|Ne].
    + unfold hits at 1. cbn [filter fst]. rewrite (proj2 (Nat.eqb_eq _ _) Eq). cbn [map snd qsum].
      replace (welem ws i + 0)%Qc with (welem ws i) by ring. apply tot_in; [|exact IH].
      apply row_major_inj in Eq; try assumption.
      * subst t. apply tuple_iff; assumption.
      * eapply tuple_bound; eauto.
      * eapply tuple_lt; eauto.
    + unfold hits at 1. cbn [filter fst]. rewrite (proj2 (Nat.eqb_neq _ _) Ne). cbn [map qsum].
      rewrite Qcplus_0_l. apply tot_out; [|exact IH].
      intros Hc. apply tuple_iff in Hc; [|exact HG]. rewrite E in Hc. injection Hc as ->. apply Ne. reflexivity.
  - cbn [hits filter map qsum]. rewrite Qcplus_0_l. apply tot_out; [|exact IH].
    intros Hc. apply tuple_iff in Hc; [|exact HG]. congruence.
Qed.

Lemma fill_ok axes cs ws values : good_fill axes cs ws -> Forall good_axis axes -> length values = size axes ->
  exists v, fill axes cs ws values = Done v /\ length v = size axes /\
    forall idx, length idx = length axes -> Forall2 lt idx (ns axes) ->
      exists t, total (in_cell (map ax3 axes) idx) (points cs ws) t /\
        nth (row_major (ns axes) idx) v 0%Qc = (nth (row_major (ns axes) idx) values 0 + t)%Qc.
Proof.
  intros H HG HL. rewrite fill_scatter by assumption.
  destruct (scatter_ok (ups (cellf axes cs) (welem ws) (seq 0 (npts cs))) values) as [v [E [L N]]].
  { intros p Hp. rewrite HL. eapply ups_in; eauto. }
  rewrite E. exists v. split; [reflexivity|]. split; [congruence|]. intros idx Hi HF.
  eexists. split; [apply fill_total; assumption|]. apply N.
Qed.

(* ------------------------------------------------------------------ *)
(** * Sessions *)
Definition good_op (axes : list axis) (o : op) : Prop :=
  match o with Fill cs ws => good_fill axes cs ws | Reset => True end.
Definition seen (o : op) : option (list (list Qc * Qc)) :=
  match o with Fill cs ws => Some (points cs ws) | Reset => None end.

Lemma acc_snoc h o : accumulated (h ++ [o]) = match o with None => [] | Some pts => accumulated h ++ pts end.
Proof. unfold accumulated. rewrite fold_left_app. reflexivity. Qed.

Lemma row_bound axes : forall idx, length idx = length axes -> Forall2 lt idx (ns axes) ->
  row_major (ns axes) idx < size axes.
Proof.
  induction axes as [|a axes IH]; intros [|i t] L F; cbn in L; try lia; [cbn; lia|].
  inversion F; subst. specialize (IH t ltac:(lia) H4).
  change (ns (a :: axes)) with (ax_n a :: ns axes). change (size (a :: axes)) with (ax_n a * size axes).
  cbn [row_major]. rewrite <- size_ns. set (z := size axes) in *. clearbody z. nia.
Qed.

Lemma session_ok axes ops : Forall good_axis axes -> Forall (good_op axes) ops ->
  exists v, run axes ops = Some v /\ length v = size axes /\
    forall idx, length idx = length axes -> Forall2 lt idx (ns axes) ->
      total (in_cell (map ax3 axes) idx) (accumulated (map seen ops)) (nth (row_major (ns axes) idx) v 0%Qc).
Proof.
  intros HG. induction ops as [|o ops IH] using rev_ind; intros HO.
  - exists (zeros axes). split; [reflexivity|]. split; [apply repeat_length|].
    intros idx Hi HF. unfold zeros. rewrite nth_repeat. constructor.
  - apply Forall_app in HO. destruct HO as [HO1 HO2]. inversion HO2 as [|? ? Ho _]; subst.
    destruct (IH HO1) as [v [E [L N]]]. unfold run in *. rewrite foldM_app, E. cbn [bind foldM].
    rewrite map_app. cbn [map].
    destruct o as [cs ws|]; cbn [run1 seen].
    + destruct (fill_ok axes cs ws v Ho HG L) as [v' [E' [L' N']]]. rewrite E'. cbn [bind].
      exists v'. split; [reflexivity|]. split; [exact L'|]. intros idx Hi HF.
      destruct (N' idx Hi HF) as [t [Ht Hv]]. rewrite Hv.
      rewrite acc_snoc. apply total_app; auto.
    + cbn [bind]. exists (reset v). split; [reflexivity|]. split; [unfold reset; rewrite map_length; exact L|].
      intros idx Hi HF. rewrite acc_snoc.
      replace (nth (row_major (ns axes) idx) (reset v) 0%Qc) with 0%Qc; [constructor|].
      unfold reset. assert (Hz : forall n (l : list Qc), nth n (map (fun _ => 0%Qc) l) 0%Qc = 0%Qc).
      { clear. intros n l. revert n. induction l as [|y l IH]; intros [|n]; cbn; auto. }
      symmetry. apply Hz.
Qed.

(** Two histories with the same points in any order agree. *)
Lemma in_cell_dec axes : Forall good_axis axes -> forall idx p,
  in_cell (map ax3 axes) idx p \/ ~ in_cell (map ax3 axes) idx p.
Proof.
  intros HG idx p. destruct (tuple_of axes p) as [t|] eqn:E.
  - destruct (list_eq_dec Nat.eq_dec t idx) as [->|Hn].
    + left. apply tuple_iff; assumption.
    + right. intros H. apply tuple_iff in H; [|exact HG]. congruence.
  - right. intros H. apply tuple_iff in H; [|exact HG]. congruence.
Qed.
Lemma order_independent axes ops ops' v v' : Forall good_axis axes ->
  Forall (good_op axes) ops -> Forall (good_op axes) ops' ->
  Permutation (accumulated (map seen ops)) (accumulated (map seen ops')) ->
  run axes ops = Some v -> run axes ops' = Some v' ->
  forall idx, length idx = length axes -> Forall2 lt idx (ns axes) ->
    nth (row_major (ns axes) idx) v 0%Qc = nth (row_major (ns axes) idx) v' 0%Qc.
Proof.
  intros HG HO HO' HP E E' idx Hi HF.
  destruct (session_ok axes ops HG HO) as [w [Ew [_ N]]].
  destruct (session_ok axes ops' HG HO') as [w' [Ew' [_ N']]].
  replace w with v in * by congruence. replace w' with v' in * by congruence.
  eapply total_unique; [|apply N'; assumption].
  eapply total_perm; [intros p; apply in_cell_dec; exact HG|exact HP|]. apply N; assumption.
Qed.

Lemma bin_unique n lo hi x i j : n <> 0 -> (lo < hi)%Qc ->
  in_bin n lo hi i x -> in_bin n lo hi j x -> i = j.
Proof.
  intros Hn Hlt Hi Hj. set (a := mkAxis n lo hi).
  apply (find_index_iff a x i) in Hi; [|split; assumption].
  apply (find_index_iff a x j) in Hj; [|split; assumption]. congruence.
Qed.
Lemma bin_exists n lo hi x : n <> 0 -> (lo < hi)%Qc ->
  ((lo <= x)%Qc /\ (x < hi)%Qc <-> exists i, in_bin n lo hi i x).
Proof.
  intros Hn Hlt. set (a := mkAxis n lo hi).
  assert (H : (lo <= x)%Qc /\ (x < hi)%Qc <-> exists i, find_index a x = Some i).
  { unfold find_index. cbn [ax_low ax_high a].
    destruct (Qc_leb_spec lo x) as [A|A]; destruct (Qc_ltb_spec x hi) as [B|B]; cbn [andb];
      (split; [intros [C D]; try contradiction; eauto|intros [i E]; try discriminate; auto]). }
  rewrite H. split; intros [i E]; exists i; apply (find_index_iff a x i); auto; split; assumption.
Qed.

Lemma fill_rejects axes c cs ws values :
  (length (c :: cs) <> length axes \/ (exists d, In d cs /\ c_len d <> c_len c) \/
   (length ws <> 1 /\ length ws <> c_len c)) ->
  fill axes (c :: cs) ws values = ValueError.
Proof.
  intros H. unfold fill. destruct (Nat.eqb_spec (length (c :: cs)) (length axes)) as [E|E]; [|reflexivity].
  cbn [negb]. destruct (forallb (fun d => c_len d =? c_len c) (c :: cs)) eqn:F; [|reflexivity]. cbn [negb].
  destruct H as [H|[[d [Hd Hl]]|[H1 H2]]]; [contradiction| |].
  - exfalso. rewrite forallb_forall in F. specialize (F d (or_intror Hd)). apply Nat.eqb_eq in F. contradiction.
  - rewrite (proj2 (Nat.eqb_neq _ _) H1), (proj2 (Nat.eqb_neq _ _) H2). reflexivity.
Qed.

Definition destride (c : coord) := mkCoord (c_type c) (c_buf c) (c_off c) 1 (c_len c).
Lemma flat_index_destride l i : forall acc,
  flat_index (map (fun t => (destride (fst t), snd t)) l) i acc = flat_index l i acc.
Proof.
  induction l as [|[c [a s]] l IH]; intros acc; [reflexivity|]. cbn [map fst snd flat_index].
  change (raw_get (destride c) i) with (raw_get c i). destruct (raw_get c i); cbn [bind]; [|reflexivity].
  destruct (find_index a q); [apply IH|reflexivity].
Qed.
Lemma combine_destride cs {B} (l : list B) :
  combine (map destride cs) l = map (fun t => (destride (fst t), snd t)) (combine cs l).
Proof. revert l. induction cs as [|c cs IH]; intros [|b l]; cbn; auto. rewrite IH. reflexivity. Qed.
Lemma filter_map {A B} (f : A -> B) (p : B -> bool) l : filter p (map f l) = map f (filter (fun x => p (f x)) l).
Proof. induction l as [|x l IH]; cbn; [reflexivity|]. destruct (p (f x)); cbn; rewrite IH; reflexivity. Qed.
Lemma foldM_ext {S A} (f g : S -> A -> option S) l : (forall s a, f s a = g s a) -> forall s, foldM f l s = foldM g l s.
Proof.
  intros H. induction l as [|a l IH]; intros s; cbn; [reflexivity|]. rewrite H. destruct (g s a); cbn; auto.
Qed.
Lemma forallb_map' {A B} (f : A -> B) (p : B -> bool) l : forallb p (map f l) = forallb (fun x => p (f x)) l.
Proof. induction l as [|x l IH]; cbn; [reflexivity|]. rewrite IH. reflexivity. Qed.
Lemma fillnd_destride axes cs ws values : fillnd axes (map destride cs) ws values = fillnd axes cs ws values.
Proof.
  unfold fillnd. rewrite forallb_map'.
  change (fun x => is_int (destride x) || is_float (destride x)) with (fun c => is_int c || is_float c).
  destruct (negb (forallb (fun c => is_int c || is_float c) cs)); [reflexivity|]. f_equal.
  assert (Hl : match map destride cs with [] => 0 | c :: _ => c_len c end = match cs with [] => 0 | c :: _ => c_len c end)
    by (destruct cs; reflexivity).
  rewrite Hl. apply foldM_ext. intros v i. rewrite combine_destride, !filter_map, <- map_app, flat_index_destride.
  reflexivity.
Qed.
Lemma fill_as_contiguous axes cs ws values : 3 <= length cs ->
  fill axes cs ws values = fill axes (map destride cs) ws values.
Proof.
  intros H. unfold fill. rewrite map_length.
  destruct (Nat.eqb_spec (length cs) (length axes)) as [E|E]; [|reflexivity]. cbn [negb].
  assert (Hl : match map destride cs with [] => 0 | c :: _ => c_len c end = match cs with [] => 0 | c :: _ => c_len c end)
    by (destruct cs; reflexivity).
  rewrite Hl, forallb_map'. set (n := match cs with [] => 0 | c :: _ => c_len c end).
  change (fun x => c_len (destride x) =? n) with (fun c => c_len c =? n).
  destruct (negb (forallb _ cs)); [reflexivity|].
  destruct (negb (length ws =? 1) && negb (length ws =? n)); [reflexivity|].
  destruct axes as [|a [|b [|c axes]]]; destruct cs as [|x [|y [|z r]]]; cbn in H, E; try lia.
  cbn [map]. change (destride x :: destride y :: destride z :: map destride r) with (map destride (x :: y :: z :: r)).
  symmetry. apply fillnd_destride.
Qed.

Lemma strided_refuted :
  exists (axes : list axis) (pts : list Qc) (n : nat) (v : list Qc) (idx : list nat) (t : Qc),
    Forall good_axis axes /\ length pts = 3 * n /\
    let column k := mkCoord DFloat pts k 3 n in
    let cs := [column 0; column 1; column 2] in
    (forall c, In c cs -> good_array c) /\
    fill axes cs [qz 1] (zeros axes) = Done v /\
    Forall2 lt idx (ns axes) /\ total (in_cell (map ax3 axes) idx) (points cs [qz 1]) t /\
    nth (row_major (ns axes) idx) v 0%Qc <> t.
Proof.
  set (a := mkAxis 2 (qz 0) (qz 2)).
  (* two points, both (0, 1, 1) *)
  set (pts := map qz [0; 1; 1; 0; 1; 1]%Z).
  set (cs := [mkCoord DFloat pts 0 3 2; mkCoord DFloat pts 1 3 2; mkCoord DFloat pts 2 3 2]).
  assert (HG : Forall good_axis [a; a; a]).
  { assert (good_axis a) by (split; [discriminate|reflexivity]).
    repeat (apply Forall_cons; [assumption|]). apply Forall_nil. }
  assert (HA : forall c, In c cs -> good_array c).
  { intros c [<-|[<-|[<-|[]]]] i Hi; cbn in *; lia. }
  pose proof (fill_total [a; a; a] cs [qz 1] [0; 1; 1] HG eq_refl) as Ht.
  destruct (fill [a; a; a] cs [qz 1] (zeros [a; a; a])) as [v| | |] eqn:E.
  2-4: exfalso; apply (f_equal (fun r => match r with Done _ => true | _ => false end)) in E;
       vm_compute in E; discriminate.
  exists [a; a; a], pts, 2, v, [0; 1; 1]. eexists.
  split; [exact HG|]. split; [reflexivity|]. cbv zeta. split; [exact HA|]. split; [exact E|].
  assert (HF : Forall2 lt [0; 1; 1] (ns [a; a; a])) by (repeat constructor).
  split; [exact HF|]. split; [apply Ht; exact HF|].
  assert (Hv : this (nth (row_major (ns [a; a; a]) [0; 1; 1]) v 0%Qc) = 1%Q).
  { apply (f_equal (fun r => match r with Done v => this (nth (row_major (ns [a; a; a]) [0; 1; 1]) v 0%Qc) | _ => 0%Q end)) in E.
    rewrite <- E. vm_compute. reflexivity. }
  intros Eq. rewrite Eq in Hv. revert Hv. vm_compute. discriminate.
Qed.

Theorem fill_rejects_types axes cs ws values :
  (exists x y, cs = [x; y] /\ length axes = 2 /\ c_type x <> c_type y) \/ (3 <= length axes /\ exists c, In c cs /\ c_type c <> DInt /\ c_type c <> DFloat) ->
  fill axes cs ws values = ValueError \/ fill axes cs ws values = TypeError.
Proof.
  intros H. unfold fill.
  destruct (negb (length cs =? length axes)) eqn:E1; [left; reflexivity|].
  match goal with |- context [if ?b then ValueError else _] => destruct b; [left; reflexivity|] end.
  match goal with |- context [if ?b then ValueError else _] => destruct b; [left; reflexivity|] end.
  right. destruct H as [(x & y & -> & L & N)|(L & c & I & N1 & N2)].
  - destruct axes as [|a [|b [|? ?]]]; try discriminate L.
    replace (dtype_eqb (c_type x) (c_type y)) with false; [reflexivity|]. symmetry.
    destruct (c_type x) as [| |s], (c_type y) as [| |t]; cbn; try reflexivity; try congruence. apply Nat.eqb_neq. congruence.
  - destruct axes as [|a [|b [|d r]]]; try (cbn in L; lia). destruct cs as [|x [|y [|z q]]]; try discriminate E1.
    unfold fillnd. replace (forallb _ _) with false; [reflexivity|]. symmetry. apply not_true_is_false. intros F. rewrite forallb_forall in F.
    specialize (F c I). unfold is_int, is_float in F. destruct (c_type c); try congruence; discriminate.
Qed.
