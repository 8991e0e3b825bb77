(* C94: the centre of rings by correlation with the mirror image (find_ring_center_acorr_1D). *)
From Verif Require Import Common QcArith RingCtr_Model RingCtr_Spec RingCtr_Proofs.
Local Open Scope Qc_scope.
Local Open Scope list_scope.

(** C94: the answer is the row most columns vote for and the column most rows vote for. *)
Theorem C94_elected h w img r c : (0 < h)%nat -> (0 < w)%nat ->
  find_ring_center h w img = Some (r, c) <-> elected h (columns h w img) r /\ elected w (rows h w img) c.
Proof.
  intros Hh Hw.
  assert (Lc : Forall (fun v => length v = h) (columns h w img)) by (apply Forall_forall; intros v Hv; apply in_map_iff in Hv as (j & <- & _); unfold column; now rewrite map_length, seq_length).
  assert (Lr : Forall (fun v => length v = w) (rows h w img)) by (apply Forall_forall; intros v Hv; apply in_map_iff in Hv as (j & <- & _); unfold row; now rewrite map_length, seq_length).
  destruct (corr_ok h (columns h w img)) as (b1 & V1 & E1); [lia|exact Lc|]. destruct (corr_ok w (rows h w img)) as (b2 & V2 & E2); [lia|exact Lr|].
  destruct (elect_ok h _ _ ltac:(lia) V1) as (r' & A1 & Z1). destruct (elect_ok w _ _ ltac:(lia) V2) as (c' & A2 & Z2).
  unfold find_ring_center. change (cols_of h w img) with (columns h w img). change (rows_of h w img) with (rows h w img). rewrite E1. cbn [bind]. rewrite A1. cbn [bind]. rewrite E2. cbn [bind]. rewrite A2. cbn [bind].
  split; [intros E; injection E as <- <-; auto|]. intros [Y1 Y2]. do 2 f_equal.
  - apply (elected_unique h (columns h w img)); [|assumption..]. eapply Forall_impl; [|exact Lc]. intros v Hv ->. cbn in Hv. lia.
  - apply (elected_unique w (rows h w img)); [|assumption..]. eapply Forall_impl; [|exact Lr]. intros v Hv ->. cbn in Hv. lia.
Qed.
Print Assumptions C94_elected.
(** C94: it always answers, with a pixel of the image; only an image without pixels is refused. *)
Theorem C94_total h w img : (h = 0 \/ w = 0 -> find_ring_center h w img = None)%nat /\
  ((0 < h)%nat -> (0 < w)%nat -> exists r c, find_ring_center h w img = Some (r, c) /\ (r < h)%nat /\ (c < w)%nat).
Proof.
  split.
  - intros H. unfold find_ring_center. destruct h as [|h]; [reflexivity|]. destruct H as [H| ->]; [discriminate|].
    destruct (bind _ _) eqn:E; [|reflexivity]. exfalso. destruct (corr_ax1 (S h) (cols_of (S h) 0 img)); [|discriminate]. cbn [bind] in E. destruct (argmax (map qn l)); [|discriminate]. discriminate.
  - intros Hh Hw.
    assert (Lc : Forall (fun v => length v = h) (columns h w img)) by (apply Forall_forall; intros v Hv; apply in_map_iff in Hv as (j & <- & _); unfold column; now rewrite map_length, seq_length).
    assert (Lr : Forall (fun v => length v = w) (rows h w img)) by (apply Forall_forall; intros v Hv; apply in_map_iff in Hv as (j & <- & _); unfold row; now rewrite map_length, seq_length).
    destruct (corr_ok h (columns h w img)) as (b1 & V1 & E1); [lia|exact Lc|]. destruct (corr_ok w (rows h w img)) as (b2 & V2 & E2); [lia|exact Lr|].
    destruct (elect_ok h _ _ ltac:(lia) V1) as (r & _ & Z1). destruct (elect_ok w _ _ ltac:(lia) V2) as (c & _ & Z2). exists r, c.
    split; [now apply C94_elected|]. destruct Z1 as (? & _ & ? & _), Z2 as (? & _ & ? & _). auto.
Qed.
Print Assumptions C94_total.
(** C94: a row with one lit pixel votes for it; a dark row votes for pixel 0. *)
Theorem C94_single n p a b : (p < n)%nat -> a <> 0 ->
  (votes (map (fun j => if (j =? p)%nat then a else 0) (seq 0 n)) b <-> b = p) /\ (votes (repeat 0 n) b <-> b = 0%nat).
Proof.
  intros Hp Ha. split; (split; [intros V; eapply votes_unique; [|exact V|]|intros ->]).
  - intros E. apply (f_equal (@length Qc)) in E. rewrite map_length, seq_length in E. cbn in E. lia.
  - now apply spot_votes.
  - now apply spot_votes.
  - intros E. apply (f_equal (@length Qc)) in E. rewrite repeat_length in E. cbn in E. lia.
  - apply votes_dark. lia.
  - apply votes_dark. lia.
Qed.
Print Assumptions C94_single.
(** C94: a row cutting a ring at p and q votes for the middle exactly when neither crossing is so close to
    the edge that its own overlap is less than half of the common one; otherwise it votes for that crossing. *)
Theorem C94_crossings n p q a : (p < q)%nat -> (q < n)%nat -> a <> 0 -> let v := map (fun j => if ((j =? p) || (j =? q))%nat then a else 0) (seq 0 n) in
  ((overlap n (p + q) < 2 * overlap n (2 * p))%nat -> (overlap n (p + q) <= 2 * overlap n (2 * q))%nat -> votes v (Nat.div (p + q) 2)) /\
  ((2 * overlap n (2 * p) <= overlap n (p + q))%nat -> (overlap n (2 * p) <= overlap n (2 * q))%nat -> votes v p) /\
  ((2 * overlap n (2 * q) < overlap n (p + q))%nat -> (overlap n (2 * q) < overlap n (2 * p))%nat -> votes v q).
Proof. exact (spots_votes n p q a). Qed.
Print Assumptions C94_crossings.
(** C94: if more than half of the rows vote for a column, that column is the answer; likewise for rows. *)
Theorem C94_majority h w img r c r' c' R C : find_ring_center h w img = Some (r', c') -> NoDup R -> NoDup C -> (w < 2 * length R)%nat -> (h < 2 * length C)%nat -> (r < h)%nat -> (c < w)%nat ->
  (forall j, In j R -> (j < w)%nat /\ votes (column h w img j) r) -> (forall i, In i C -> (i < h)%nat /\ votes (row w img i) c) -> r' = r /\ c' = c.
Proof.
  intros E NR NC MR MC Hr Hc VR VC. apply C94_elected in E as [Er Ec]; [|lia..].
  assert (K : forall n (f : nat -> list Qc) bs b, (forall k, f k <> []) -> Forall2 votes (map f (seq 0 n)) bs -> forall L, NoDup L -> (forall k, In k L -> (k < n)%nat /\ votes (f k) b) -> (length L <= count_occ Nat.eq_dec bs b)%nat).
  { intros n f bs b Nf V L NL HL. 
    assert (A : forall m s bs', Forall2 votes (map f (seq s m)) bs' -> (length (filter (fun k => (s <=? k) && (k <? s + m)) L)%nat <= count_occ Nat.eq_dec bs' b)%nat).
    { induction m as [|m IH]; intros s bs' V'; cbn [seq map] in V'; inversion V' as [|? b' ? bs'' Vb Vr]; subst.
      - replace (filter _ L) with (@nil nat); [cbn; lia|]. clear. induction L as [|k L IH]; cbn [filter]; [reflexivity|]. replace ((s <=? k) && (k <? s + 0))%nat with false by lia. exact IH.
      - specialize (IH _ _ Vr). cbn [count_occ]. destruct (in_dec Nat.eq_dec s L) as [I|I].
        + destruct (HL s I) as [_ Vs]. rewrite (votes_unique _ _ _ (Nf s) Vb Vs). destruct (Nat.eq_dec b b); [|easy].
          enough (Q : (length (filter (fun k => (s <=? k) && (k <? s + S m)) L)%nat <= S (length (filter (fun k => (S s <=? k) && (k <? S s + m)) L)%nat))%nat) by lia.
          clear - NL. induction NL as [|k L Nk NL IH]; cbn [filter]; [lia|]. destruct (Nat.eq_dec k s) as [->|D].
          * replace ((s <=? s) && (s <? s + S m))%nat with true by lia. replace ((S s <=? s) && (s <? S s + m))%nat with false by lia.
            cbn [length]. apply le_n_S. apply Nat.eq_le_incl. f_equal. clear - Nk. induction L as [|k L IH]; cbn [filter]; [reflexivity|]. rewrite IH by (intros X; apply Nk; now right).
            assert (k <> s) by (intros ->; apply Nk; now left). replace ((s <=? k) && (k <? s + S m))%nat with ((S s <=? k) && (k <? S s + m))%nat by lia. reflexivity.
          * replace ((s <=? k) && (k <? s + S m))%nat with ((S s <=? k) && (k <? S s + m))%nat by lia. destruct (_ && _); cbn [length]; lia.
        + replace (filter (fun k => ((s <=? k) && (k <? s + S m))%nat) L) with (filter (fun k => ((S s <=? k) && (k <? S s + m))%nat) L); [destruct (Nat.eq_dec b' b); lia|].
          apply filter_ext_in. intros k Hk. assert (k <> s) by (intros ->; auto). lia. }
    specialize (A n 0%nat bs V). replace (filter _ L) with L in A; [exact A|]. symmetry. clear - HL. induction L as [|k L IH]; cbn [filter]; [reflexivity|]. destruct (HL k (or_introl eq_refl)) as [Hk _].
    replace ((0 <=? k) && (k <? 0 + n))%nat with true by lia. f_equal. apply IH. intros; apply HL. now right. }
  assert (Nc : forall k, column h w img k <> []) by (intros k X; apply (f_equal (@length Qc)) in X; unfold column in X; rewrite map_length, seq_length in X; cbn in X; lia).
  assert (Nr : forall k, row w img k <> []) by (intros k X; apply (f_equal (@length Qc)) in X; unfold row in X; rewrite map_length, seq_length in X; cbn in X; lia).
  split.
  - pose proof Er as (bs & V & _). eapply (majority h (columns h w img) bs r); try eassumption; [apply Forall_forall; intros v Hv; apply in_map_iff in Hv as (? & <- & _); apply Nc|].
    pose proof (K w (column h w img) bs r Nc V R NR VR). unfold columns. rewrite map_length, seq_length. lia.
  - pose proof Ec as (bs & V & _). eapply (majority w (rows h w img) bs c); try eassumption; [apply Forall_forall; intros v Hv; apply in_map_iff in Hv as (? & <- & _); apply Nr|].
    pose proof (K h (row w img) bs c Nr V C NC VC). unfold rows. rewrite map_length, seq_length. lia.
Qed.
Print Assumptions C94_majority.
(** C94: so the crossing of a bright row and a bright column is found exactly, wherever it is. *)
Theorem C94_cross h w a p q img : (3 <= h)%nat -> (3 <= w)%nat -> (p < h)%nat -> (q < w)%nat -> a <> 0 ->
  (forall i j, (i < h)%nat -> (j < w)%nat -> nth (i * w + j)%nat img 0 = if ((i =? p) || (j =? q))%nat then a else 0) ->
  find_ring_center h w img = Some (p, q).
Proof.
  intros Hh Hw Hp Hq Ha E. destruct (proj2 (C94_total h w img) ltac:(lia) ltac:(lia)) as (r & c & F & _). rewrite F. assert (Q : r = p /\ c = q); [|destruct Q as [-> ->]; reflexivity].
  assert (G : forall n k, (3 <= n)%nat -> (k < n)%nat -> (n < 2 * length (filter (fun i => negb (i =? k)%nat) (seq 0 n)))%nat).
  { intros n k Hn Hk. assert (A : forall m s, length (filter (fun i => negb (i =? k)%nat) (seq s m)) = (m - (if ((s <=? k) && (k <? s + m))%nat then 1 else 0))%nat).
    { induction m as [|m IH]; intros s; [reflexivity|]. cbn [seq filter]. destruct (Nat.eqb_spec s k) as [->|D]; cbn [negb length]; rewrite IH.
      - replace ((S k <=? k) && (k <? S k + m))%nat with false by lia. replace ((k <=? k) && (k <? k + S m))%nat with true by lia. lia.
      - replace ((s <=? k) && (k <? s + S m))%nat with ((S s <=? k) && (k <? S s + m))%nat by lia. destruct (Nat.leb_spec (S s) k), (Nat.ltb_spec k (S s + m)); cbn [andb]; lia. }
    rewrite A. destruct (_ && _); lia. }
  apply (C94_majority h w img p q r c (filter (fun i => negb (i =? q)%nat) (seq 0 w)) (filter (fun i => negb (i =? p)%nat) (seq 0 h)) F); auto; try (apply NoDup_filter, seq_NoDup); intros k Hk; apply filter_In in Hk as [Hk Nk]; apply in_seq in Hk; apply negb_true_iff in Nk; (split; [lia|]).
  - replace (column h w img k) with (map (fun j => if (j =? p)%nat then a else 0) (seq 0 h)); [now apply (C94_single h p a p)|]. apply map_ext_in. intros i Hi. apply in_seq in Hi. rewrite E by lia. now rewrite Nk, orb_false_r.
  - replace (row w img k) with (map (fun j => if (j =? q)%nat then a else 0) (seq 0 w)); [now apply (C94_single w q a q)|]. apply map_ext_in. intros i Hi. apply in_seq in Hi. rewrite E by lia. now rewrite Nk.
Qed.
Print Assumptions C94_cross.
(** C94: the brightness of the image does not matter. *)
Theorem C94_scale h w img a : a <> 0 -> find_ring_center h w (map (Qcmult a) img) = find_ring_center h w img.
Proof.
  intros Ha. destruct (Nat.eq_dec h 0) as [Zh|Nh]; [rewrite !(proj1 (C94_total h w _)) by auto; reflexivity|]. destruct (Nat.eq_dec w 0) as [Zw|Nw]; [rewrite !(proj1 (C94_total h w _)) by auto; reflexivity|].
  destruct (proj2 (C94_total h w img) ltac:(lia) ltac:(lia)) as (r & c & F & _). rewrite F. apply C94_elected in F as [Er Ec]; [|lia..]. apply C94_elected; [lia..|].
  assert (N : forall i, nth i (map (Qcmult a) img) 0 = a * nth i img 0). { intros i. replace 0 with (a * 0) at 1 by ring. apply (map_nth (Qcmult a)). }
  assert (K : forall n lines c, elected n lines c -> elected n (map (map (Qcmult a)) lines) c).
  { intros n lines c0 (bs & V & R). exists bs. split; [|exact R]. clear - V Ha. induction V; cbn; constructor; auto. now apply votes_scale. }
  split.
  - replace (columns h w (map (Qcmult a) img)) with (map (map (Qcmult a)) (columns h w img)); [now apply K|]. unfold columns. rewrite map_map. apply map_ext. intros j. unfold column. rewrite map_map. apply map_ext. intros i. now rewrite N.
  - replace (rows h w (map (Qcmult a) img)) with (map (map (Qcmult a)) (rows h w img)); [now apply K|]. unfold rows. rewrite map_map. apply map_ext. intros j. unfold row. rewrite map_map. apply map_ext. intros i. now rewrite N.
Qed.
Print Assumptions C94_scale.
(** C94: a ring that leaves most rows dark is lost, though the image is a perfect ring about (3, 3). *)
Definition small_ring : list Qc := map qz
  [0; 0; 0; 0; 0; 0; 0;
   0; 0; 0; 0; 0; 0; 0;
   0; 0; 1; 1; 1; 0; 0;
   0; 0; 1; 0; 1; 0; 0;
   0; 0; 1; 1; 1; 0; 0;
   0; 0; 0; 0; 0; 0; 0;
   0; 0; 0; 0; 0; 0; 0]%Z.
Theorem C94_dark_rows_refuted : (forall i j, (i < 7)%nat -> (j < 7)%nat -> nth (i * 7 + j) small_ring 0 = nth ((6 - i) * 7 + j) small_ring 0 /\ nth (i * 7 + j) small_ring 0 = nth (i * 7 + (6 - j)) small_ring 0) /\
  find_ring_center 7 7 small_ring = Some (0, 0)%nat.
Proof. split; [|vm_compute; reflexivity]. intros i j Hi Hj. do 7 (destruct i as [|i]; [do 7 (destruct j as [|j]; [split; reflexivity|]); lia|]). lia. Qed.
Print Assumptions C94_dark_rows_refuted.
(** C94: so is a ring cut by the edge of the detector, although every row is symmetric about column 3. *)
Definition wide_rows : list Qc := map qz
  [1; 0; 0; 0; 0; 0; 1;
   1; 0; 0; 0; 0; 0; 1;
   1; 0; 0; 0; 0; 0; 1]%Z.
Theorem C94_edge_refuted : exists r, find_ring_center 3 7 wide_rows = Some (r, 0)%nat.
Proof. exists 0%nat. vm_compute. reflexivity. Qed.
Print Assumptions C94_edge_refuted.
(** C94: a background moves the answer. *)
Theorem C94_offset_refuted : exists img b, find_ring_center 3 3 img = Some (2, 1)%nat /\ find_ring_center 3 3 (map (Qcplus b) img) <> Some (2, 1)%nat.
Proof. exists (map qz [0; 1; 0; 0; 1; 0; 1; 1; 1]%Z), (qz 5). split; vm_compute; [reflexivity|discriminate]. Qed.
Print Assumptions C94_offset_refuted.
Example C94_crossings_ex : overlap 9 (2 + 5) = 8%nat /\ overlap 9 (2 * 2) = 5%nat /\ overlap 9 (2 * 5) = 7%nat /\ votes (map qz [0; 0; 4; 0; 0; 4; 0; 0; 0]%Z) 3.
Proof. split; [reflexivity|]. split; [reflexivity|]. split; [reflexivity|]. apply (proj1 (C94_crossings 9 2 5 (qz 4) ltac:(lia) ltac:(lia) ltac:(discriminate))); vm_compute; lia. Qed.
Example C94_ring_ex : find_ring_center 5 6 (map qz [0; 0; 0; 0; 0; 0; 0; 0; 2; 2; 2; 0; 0; 0; 2; 0; 2; 0; 0; 0; 2; 2; 2; 0; 0; 0; 0; 0; 0; 0]%Z) = Some (0, 3)%nat.
Proof. vm_compute. reflexivity. Qed.
Example C94_cross_ex : find_ring_center 3 4 (map qz [0; 0; 3; 0; 3; 3; 3; 3; 0; 0; 3; 0]%Z) = Some (1, 2)%nat.
Proof. vm_compute. reflexivity. Qed.
