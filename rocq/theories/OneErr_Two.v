From Coq Require Import Reals.
From Verif Require Import Common QcArith MultiTau_Model MultiTau_Spec MultiTau_Out TwoTime_Model TwoTime_Spec TwoTime_Main.
From Verif Require OneErr_Model OneErr_Spec OneErr_Proofs.
From Coq Require Import Lra Qreals.
Local Open Scope nat_scope.

(** The numbers of an exact array as reals, [roi][time][time]. *)
Definition real (q : Qc) : R := Q2R (this q).
Definition real_stack (stack : list (list (list (option Qc)))) : list (list (list (option R))) :=
  map (map (map (option_map real))) stack.
Lemma real_0 : real 0%Qc = 0%R.
Proof. unfold real. apply RMicromega.Q2R_0. Qed.
Lemma real_diagonal m j : OneErr_Model.diagonal (map (map (option_map real)) m) j = map (option_map real) (diag m j).
Proof.
  unfold OneErr_Model.diagonal, diag. rewrite map_length, map_map. apply map_ext. intros a. rewrite nth_error_map. destruct (nth_error m a) as [row|]; [|reflexivity]. cbn [option_map].
  rewrite nth_error_map. destruct (nth_error row (a + j)) as [x|]; reflexivity.
Qed.
Lemma zeros_total n : OneErr_Spec.total (repeat 0%R n) = 0%R.
Proof. induction n as [|n IH]; cbn; [reflexivity|]. rewrite IH. lra. Qed.
Lemma zeros_numbers n : OneErr_Spec.the_numbers (repeat (Some 0%R) n) = repeat 0%R n.
Proof. induction n as [|n IH]; cbn; [reflexivity|]. rewrite IH. reflexivity. Qed.
Lemma zeros_ok n : n <> 0 -> OneErr_Model.nanmean (repeat (Some 0%R) n) = Some 0%R /\ OneErr_Model.diag_error (repeat (Some 0%R) n) = Some 0%R.
Proof.
  intros N. pose proof (OneErr_Proofs.nanmean_ok (repeat (Some 0%R) n)) as M. pose proof (OneErr_Proofs.error_ok (repeat (Some 0%R) n)) as E. rewrite zeros_numbers in M, E.
  assert (Ne : repeat 0%R n <> []) by (destruct n; [congruence|discriminate]). assert (Z : OneErr_Spec.is_mean (repeat 0%R n) 0%R) by (unfold OneErr_Spec.is_mean; rewrite zeros_total; ring).
  split.
  - destruct (OneErr_Model.nanmean _) as [m|]; [|congruence]. f_equal. apply (OneErr_Proofs.mean_unique _ _ _ Ne (proj2 M) Z).
  - destruct (OneErr_Model.diag_error _) as [e|]; [|congruence]. destruct E as (_ & P & m & Hm & Q). rewrite (OneErr_Proofs.mean_unique _ _ _ Ne Hm Z) in Q.
    rewrite (proj2 (OneErr_Proofs.scatter_zero _ _)) in Q by (intros x I; apply repeat_spec in I; exact I). rewrite !repeat_length in Q.
    pose proof (OneErr_Proofs.INR_pos n N) as Pn. f_equal. assert (INR n * INR n > 0)%R by nra. assert (e * e = 0)%R by nra. nra.
Qed.
Lemma unreported nb L nf labels images : nb mod 2 = 0 -> 2 <= nb -> 1 <= L -> images <> [] -> 1 <= n_rois labels ->
  (forall im, In im images -> length im = length labels) -> length images <= nf ->
  exists g, two_time_corr labels images nf nb L = Some g /\
  forall q j, q < n_rois labels -> j < nf -> (forall a l k i, ~ on_lag nb L (length images) (a + j) a l k i) ->
  exists row err, nth_error (fst (OneErr_Model.one_time_with_errors (real_stack (to_stack (n_rois labels) g)))) q = Some row /\
    nth_error (snd (OneErr_Model.one_time_with_errors (real_stack (to_stack (n_rois labels) g)))) q = Some err /\
    nth_error row j = Some (Some 0%R) /\ nth_error err j = Some (Some 0%R).
Proof.
  intros He Hb HL Hne HK Him Hn. destruct (tt_main nb L nf labels images He Hb HL Him Hn Hne HK) as (g & E & Hok). exists g. split; [exact E|]. intros q j Hq Hj Hu.
  assert (Lm : length (map (map (fun v : list pix => nth q v None)) g) = nf) by (rewrite map_length; apply Hok).
  assert (D : OneErr_Model.diagonal (map (map (option_map real)) (map (map (fun v : list pix => nth q v None)) g)) j = repeat (Some 0%R) (nf - j)).
  { rewrite real_diagonal. rewrite (diag_stack _ _ _ _ _ _ _ _ Hok Hq Hj), map_map. rewrite <- (map_const_repeat (Some 0%R) (nf - j) 0). apply map_ext_in. intros a Ha. apply in_seq in Ha.
    destruct Hok as (_ & _ & _ & Hsym & _ & Hz). rewrite Hsym by lia. rewrite (Hz q (a + j) a Hq); [cbn; rewrite real_0; reflexivity|lia|apply Hu]. }
  destruct (zeros_ok (nf - j) ltac:(lia)) as [Z1 Z2].
  unfold OneErr_Model.one_time_with_errors, real_stack, to_stack. cbn [fst snd]. rewrite !map_map, !nth_error_map_seq by exact Hq. do 2 eexists. split; [reflexivity|]. split; [reflexivity|].
  rewrite ?Nat.add_0_l. rewrite !(map_length (map (option_map real))), !Lm, !nth_error_map_seq by exact Hj. rewrite ?Nat.add_0_l, D, Z1, Z2. split; reflexivity.
Qed.
(** fewer images than num_frames *)
Lemma numbers_app a b : numbers (a ++ b) = numbers a ++ numbers b.
Proof. induction a as [|[x|] a IH]; cbn; [reflexivity| |exact IH]. rewrite IH. reflexivity. Qed.
Lemma qsum_zeros l n : qsum (l ++ repeat 0%Qc n) = qsum l.
Proof.
  induction l as [|x l IH]; cbn.
  - induction n as [|n IHn]; cbn; [reflexivity|]. rewrite IHn. apply Qc_is_canon. reflexivity.
  - rewrite IH. reflexivity.
Qed.
Lemma padded nb L nf labels images : nb mod 2 = 0 -> 2 <= nb -> 1 <= L -> images <> [] -> 1 <= n_rois labels ->
  (forall im, In im images -> length im = length labels) -> length images <= nf ->
  exists g, two_time_corr labels images nf nb L = Some g /\
  forall q j, q < n_rois labels -> j < nb -> j < length images ->
  let xs := numbers (map (fun a => spec_tt labels images 0 a (a + j) (q + 1)) (seq 0 (length images - j))) in
  exists row, nth_error (one_time_from_two_time (to_stack (n_rois labels) g)) q = Some row /\
    nth_error row j = Some (if length xs + (nf - length images) =? 0 then None else Some (qsum xs / qn (length xs + (nf - length images)))%Qc).
Proof.
  intros He Hb HL Hne HK Him Hn. destruct (tt_main nb L nf labels images He Hb HL Him Hn Hne HK) as (g & E & Hok). exists g. split; [exact E|]. intros q j Hq Hj Hj2 xs.
  assert (Lm : length (map (map (fun v : list pix => nth q v None)) g) = nf) by (rewrite map_length; apply Hok).
  assert (D : numbers (diag (map (map (fun v : list pix => nth q v None)) g) j) = xs ++ repeat 0%Qc (nf - length images)).
  { rewrite (diag_stack _ _ _ _ _ _ _ _ Hok Hq) by lia. replace (nf - j) with ((length images - j) + (nf - length images)) by lia. rewrite seq_app, map_app, numbers_app. unfold xs. f_equal.
    - f_equal. apply map_ext_in. intros a Ha. apply in_seq in Ha. rewrite (tt_level0 nb L nf labels images g q a (a + j)) by (assumption || lia).
      rewrite Nat.min_l, Nat.max_r by lia. reflexivity.
    - rewrite <- numbers_zeros. f_equal. rewrite <- (map_const_repeat (Some 0%Qc) (nf - length images) (0 + (length images - j))). apply map_ext_in. intros a Ha. apply in_seq in Ha.
      destruct Hok as (_ & _ & _ & Hsym & _ & Hz). rewrite Hsym by lia. rewrite (Hz q (a + j) a Hq); [reflexivity|lia|].
      intros l k i (_ & Hik & Hk & s & Hs & Ea & Eb). nia. }
  unfold one_time_from_two_time, to_stack. rewrite map_map, nth_error_map_seq by exact Hq. eexists. split; [reflexivity|]. rewrite ?Nat.add_0_l, Lm, nth_error_map_seq by lia. f_equal.
  rewrite ?Nat.add_0_l. unfold nanmean. rewrite numbers_eq, D, qsum_zeros, app_length, repeat_length.
  destruct (Nat.eqb_spec (length xs + (nf - length images)) 0) as [Z|Z].
  - destruct xs; cbn in Z; [|lia]. replace (nf - length images) with 0 by lia. reflexivity.
  - destruct (xs ++ repeat 0%Qc (nf - length images)) eqn:Q; [|reflexivity]. apply (f_equal (@length Qc)) in Q. rewrite app_length, repeat_length in Q. cbn in Q. lia.
Qed.
