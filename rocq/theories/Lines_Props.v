(* C98: regions of interest along lines. *)
From Verif Require Import Common Lines_Model Lines_Spec Lines_Proofs.
Local Open Scope list_scope.
Local Open Scope Z_scope.

(** C98: lines starting before the far sides and ending at non-negative coordinates: each is a connected chain of pixels,
    half a pixel at most off the straight line between its clamped ends; a pixel carries the number of the last line through it. *)
Theorem C98_labels : forall segs h w, 0 < h -> 0 < w -> Forall (clear_line h w) segs ->
  exists img chains, lines (map ends segs) h w = Some img /\ length img = (Z.to_nat h * Z.to_nat w)%nat /\
    Forall2 (fun s pts => traces (start_of s) (stop_of h w s) pts) segs chains /\
    forall i j, 0 <= i < h -> 0 <= j < w -> exists n, nth_error img (Z.to_nat i * Z.to_nat w + Z.to_nat j) = Some n /\ labelled chains (i, j) n.
Proof. exact lines_ok. Qed.
Print Assumptions C98_labels.
Example C98_ex1 : lines [[0; 0; 2; 3]; [2; 0; 0; 2]] 3 4 = Some [1; 0; 2; 0;  0; 2; 1; 0;  2; 0; 0; 1]%nat /\
  Forall (clear_line 3 4) [((0, 0), (2, 3)); ((2, 0), (0, 2))].
Proof. split; [vm_compute; reflexivity|]. constructor; [cbn; lia|]. constructor; [cbn; lia|constructor]. Qed.
(** C98: a line inside the image keeps its ends, so both are labelled unless a later line covers them. *)
Theorem C98_ends : forall h w x0 y0 x1 y1, 0 <= x0 < h -> 0 <= y0 < w -> 0 <= x1 < h -> 0 <= y1 < w ->
  exists img, lines [[x0; y0; x1; y1]] h w = Some img /\
    nth_error img (Z.to_nat x0 * Z.to_nat w + Z.to_nat y0)%nat = Some 1%nat /\
    nth_error img (Z.to_nat x1 * Z.to_nat w + Z.to_nat y1)%nat = Some 1%nat.
Proof.
  intros h w x0 y0 x1 y1 H1 H2 H3 H4.
  destruct (lines_ok [((x0, y0), (x1, y1))] h w ltac:(lia) ltac:(lia)) as [img [ch [E [_ [HT HL]]]]].
  { constructor; [cbn; lia|constructor]. }
  exists img. split; [exact E|]. inversion HT as [|? pts ? ? T N]; subst. inversion N; subst. cbn [start_of stop_of] in T.
  replace (Z.max x0 0) with x0 in T by lia. replace (Z.max y0 0) with y0 in T by lia. replace (Z.min x1 (h - 1)) with x1 in T by lia. replace (Z.min y1 (w - 1)) with y1 in T by lia.
  destruct T as [T1 [T2 _]]. apply nth_error_In in T1, T2.
  assert (G : forall i j, 0 <= i < h -> 0 <= j < w -> In (i, j) pts -> nth_error img (Z.to_nat i * Z.to_nat w + Z.to_nat j)%nat = Some 1%nat).
  { intros i j Hi Hj Hin. destruct (HL i j Hi Hj) as [n [En Hn]]. rewrite En. f_equal. destruct n as [|[|k]]; [|reflexivity|].
    - cbn in Hn. inversion Hn; contradiction.
    - cbn in Hn. destruct Hn as [p [Ep _]]. destruct k; discriminate. }
  split; apply G; assumption.
Qed.
Print Assumptions C98_ends.
Example C98_ex2 : lines [[4; 1; 0; 2]] 5 3 = Some [0; 0; 1;  0; 0; 1;  0; 0; 1;  0; 1; 0;  0; 1; 0]%nat.
Proof. reflexivity. Qed.
(** C98: anything but four coordinates, a start past the far side, or an end before minus the size raises, wherever in the list. *)
Theorem C98_raises : forall eps h w bad, 0 < h -> 0 < w -> In bad eps ->
  (length bad <> 4%nat \/ exists x0 y0 x1 y1, bad = [x0; y0; x1; y1] /\ (h <= x0 \/ w <= y0 \/ x1 < - h \/ y1 < - w)) ->
  lines eps h w = None.
Proof. exact lines_raise. Qed.
Print Assumptions C98_raises.
Example C98_ex3 : lines [[0; 0; 1; 1]; [5; 0; 0; 0]] 5 5 = None. Proof. reflexivity. Qed.
(** C98: an end on the near side of the image, at negative coordinates, is painted on the far side. *)
Theorem C98_negative_end_refuted : forall h w x0 y0 x1 y1, 0 < h -> 0 < w -> 0 <= x0 < h -> 0 <= y0 < w -> - h <= x1 < h -> - w <= y1 < w ->
  exists img, lines [[x0; y0; x1; y1]] h w = Some img /\
    nth_error img (Z.to_nat (wrapped h x1) * Z.to_nat w + Z.to_nat (wrapped w y1))%nat = Some 1%nat.
Proof. exact lines_wrap. Qed.
Print Assumptions C98_negative_end_refuted.
Example C98_ex4 : lines [[1; 1; -1; -1]] 4 4 = Some [1; 0; 0; 0;  0; 1; 0; 0;  0; 0; 0; 0;  0; 0; 0; 1]%nat.
Proof. reflexivity. Qed.
(** C98: an end past the far side bends the line: it runs to the clamped end instead of leaving the image where the line does. *)
Theorem C98_bent_refuted : exists img, lines [[0; 0; 8; 4]] 5 5 = Some img /\
  nth_error img (4 * 5 + 4)%nat = Some 1%nat /\ ~ near (0, 0) (8, 4) (4, 4) /\
  nth_error img (4 * 5 + 2)%nat = Some 0%nat /\ near (0, 0) (8, 4) (4, 2) /\ between (0, 0) (8, 4) (4, 2).
Proof.
  eexists. split; [vm_compute; reflexivity|]. split; [reflexivity|]. split; [unfold near; cbn; lia|]. split; [reflexivity|].
  split; [unfold near; cbn; lia|unfold between; cbn; lia].
Qed.
Print Assumptions C98_bent_refuted.
