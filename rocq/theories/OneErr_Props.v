(* C119: error bars of one-time values derived from a two-time result. *)
From Coq Require Import Reals.
From Verif Require Import Common QcArith MultiTau_Spec TwoTime_Model TwoTime_Spec OneErr_Model OneErr_Spec OneErr_Proofs OneErr_Two.
From Verif Require TwoTime_Props.
From Coq Require Import Lra.
Local Open Scope R_scope.

Definition err_g : list (list (option R)) := [[Some 1; Some 5; Some 2]; [Some 5; None; Some 7]; [Some 2; Some 7; Some 3]].
(** C119: for every region and lag the value is the mean m of the numbers on the superdiagonal, and the error bar e
    is the non-negative number with e^2 = sum (x - m)^2 / (n * len): n counts the numbers, len also the nans.  Both
    are nan exactly when the superdiagonal holds no number. *)
Theorem C119_error_bar : forall stack q g j d, nth_error stack q = Some g -> (forall row, In row g -> length row = length g) ->
  (j < length g)%nat -> is_diagonal g j d ->
  exists values errors v e, nth_error (fst (one_time_with_errors stack)) q = Some values /\ nth_error (snd (one_time_with_errors stack)) q = Some errors /\
    nth_error values j = Some v /\ nth_error errors j = Some e /\
    (the_numbers d = [] -> v = None /\ e = None) /\
    (the_numbers d <> [] -> exists m s, v = Some m /\ e = Some s /\ is_mean (the_numbers d) m /\ 0 <= s /\
       s * s * (INR (length (the_numbers d)) * INR (length d)) = scatter (the_numbers d) m).
Proof.
  intros stack q g j d Hq Hs Hj Hd. destruct (out_at stack q g Hq Hs j d Hj Hd) as (row & err & E1 & E2 & E3 & E4). exists row, err, (nanmean d), (diag_error d).
  do 4 (split; [assumption|]). pose proof (nanmean_ok d) as M. pose proof (error_ok d) as E. split.
  - intros N. destruct (nanmean d); [destruct M; congruence|]. destruct (diag_error d); [destruct E; congruence|]. split; reflexivity.
  - intros N. destruct (nanmean d) as [m|]; [|congruence]. destruct (diag_error d) as [s|]; [|congruence]. destruct M as [_ M]. destruct E as (_ & P & m' & M' & Q).
    exists m, s. rewrite (mean_unique _ _ _ N M M'). repeat split; assumption.
Qed.
Print Assumptions C119_error_bar.
Example C119_ex : is_diagonal err_g 0 [Some 1; None; Some 3] /\ the_numbers [Some 1; None; Some 3] = [1; 3] /\ is_mean [1; 3] 2 /\ scatter [1; 3] 2 = 2.
Proof.
  split; [|split; [reflexivity|split; [unfold is_mean; cbn; ring|unfold scatter; cbn; ring]]]. split; [reflexivity|]. intros [|[|[|a]]] H; cbn in H; try lia; eexists; split; reflexivity.
Qed.

(** C119: the error bar is 0 exactly when the numbers on the superdiagonal are all equal; so it is always 0, or nan,
    at the last lag. *)
Theorem C119_zero : forall stack q g j d, nth_error stack q = Some g -> (forall row, In row g -> length row = length g) ->
  (j < length g)%nat -> is_diagonal g j d -> the_numbers d <> [] ->
  exists errors e, nth_error (snd (one_time_with_errors stack)) q = Some errors /\ nth_error errors j = Some (Some e) /\
    (e = 0 <-> all_equal (the_numbers d)) /\ (S j = length g -> e = 0).
Proof.
  intros stack q g j d Hq Hs Hj Hd N. destruct (out_at stack q g Hq Hs j d Hj Hd) as (row & err & _ & E2 & _ & E4). pose proof (error_ok d) as E.
  destruct (diag_error d) as [e|]; [|congruence]. destruct E as (_ & P & m & Hm & Q). exists err, e. split; [exact E2|]. split; [exact E4|].
  assert (A : e = 0 <-> all_equal (the_numbers d)).
  { rewrite (mean_equal _ m N Hm), <- scatter_zero, <- Q. split; [intros ->; ring|]. intros Z.
    assert (P1 : 0 < INR (length (the_numbers d))) by (apply INR_pos; destruct (the_numbers d); [congruence|discriminate]).
    assert (P2 : 0 < INR (length d)) by (apply INR_pos; destruct d; [exfalso; apply N; reflexivity|discriminate]).
    apply Rmult_integral in Z as [Z|Z]; [|exfalso; pose proof (Rmult_lt_0_compat _ _ P1 P2); lra]. apply Rmult_integral in Z. lra. }
  split; [exact A|]. intros L. apply A. destruct Hd as [Ld _]. destruct d as [|o [|]]; cbn in Ld; try lia. destruct o as [x|]; [|exfalso; apply N; reflexivity].
  intros y z [<-|[]] [<-|[]]. reflexivity.
Qed.
Print Assumptions C119_zero.

(** C119: against the standard error s of the mean of the n numbers: e^2 len = s^2 n, so e is never larger, and is
    smaller as soon as an entry is nan and the numbers differ. *)
Theorem C119_bad_frames : forall stack q g j d s, nth_error stack q = Some g -> (forall row, In row g -> length row = length g) ->
  (j < length g)%nat -> is_diagonal g j d -> the_numbers d <> [] -> standard_error (the_numbers d) s ->
  exists errors e, nth_error (snd (one_time_with_errors stack)) q = Some errors /\ nth_error errors j = Some (Some e) /\
    e * e * INR (length d) = s * s * INR (length (the_numbers d)) /\ e <= s /\
    (e < s <-> In None d /\ ~ all_equal (the_numbers d)).
Proof.
  intros stack q g j d s Hq Hs Hj Hd N S. destruct (out_at stack q g Hq Hs j d Hj Hd) as (row & err & _ & E2 & _ & E4). pose proof (error_ok d) as E.
  destruct (diag_error d) as [e|]; [|congruence]. destruct E as (_ & P & m & Hm & Q). exists err, e. split; [exact E2|]. split; [exact E4|].
  assert (C : (length (the_numbers d) <= length d)%nat /\ ((length (the_numbers d) < length d)%nat <-> In None d)).
  { clear. induction d as [|[x|] d [IH1 IH2]]; cbn [the_numbers length In].
    - split; [lia|]. split; [lia|intros []].
    - split; [lia|]. split; [intros H; right; apply IH2; lia|intros [D|I]; [discriminate|apply IH2 in I; lia]].
    - split; [lia|]. split; [left; reflexivity|lia]. }
  destruct C as [C1 C2]. rewrite <- C2. exact (se_compare _ _ m e s N C1 Hm P Q S).
Qed.
Print Assumptions C119_bad_frames.
(** C119: so with one bad frame the error bar is not the standard error of the mean. *)
Theorem C119_standard_error_refuted : exists g d s, (forall row, In row g -> length row = length g) /\ is_diagonal g 0 d /\ standard_error (the_numbers d) s /\
  exists errors e, nth_error (snd (one_time_with_errors [g])) 0 = Some errors /\ nth_error errors 0 = Some (Some e) /\ e < s.
Proof.
  exists err_g, [Some 1; None; Some 3], (sqrt (1 / 2)). assert (Sq : forall row, In row err_g -> length row = length err_g) by (intros row [<-|[<-|[<-|[]]]]; reflexivity).
  assert (Se : standard_error (the_numbers [Some 1; None; Some 3]) (sqrt (1 / 2))).
  { split; [apply sqrt_pos|]. exists 2. split; [unfold is_mean; cbn; ring|]. rewrite sqrt_sqrt by lra. unfold scatter. cbn. field. }
  split; [exact Sq|]. split; [exact (proj1 C119_ex)|]. split; [exact Se|].
  destruct (C119_bad_frames [err_g] 0 err_g 0 _ _ eq_refl Sq ltac:(cbn; lia) (proj1 C119_ex) ltac:(discriminate) Se) as (er & e & E1 & E2 & _ & _ & K).
  exists er, e. split; [exact E1|]. split; [exact E2|]. apply K. split; [right; left; reflexivity|]. intros A. specialize (A 1 3 (or_introl eq_refl) (or_intror (or_introl eq_refl))). lra.
Qed.
Print Assumptions C119_standard_error_refuted.

(** C119: scaling all entries by a and adding b scales the error bars by |a|. *)
Theorem C119_scale : forall a b stack, (forall g row, In g stack -> In row g -> length row = length g) ->
  snd (one_time_with_errors (map (map (map (option_map (fun x => a * x + b)))) stack)) = map (map (option_map (Rmult (Rabs a)))) (snd (one_time_with_errors stack)).
Proof.
  intros a b stack Hs. unfold one_time_with_errors. cbn [snd]. rewrite !map_map. apply map_ext_in. intros g Ig. rewrite map_length, !map_map. apply map_ext_in. intros j Hj. apply in_seq in Hj.
  rewrite <- affine_error with (b := b). f_equal. unfold diagonal, affine. rewrite map_length, map_map. apply map_ext. intros k. rewrite nth_error_map.
  destruct (nth_error g k) as [row|]; [|reflexivity]. cbn [option_map]. rewrite nth_error_map. destruct (nth_error row (k + j)); reflexivity.
Qed.
Print Assumptions C119_scale.

(** C119: on a two-time result, lags that two_time_corr never computes are reported as 0 with error 0. *)
Theorem C119_unreported : forall nb L nf labels images, (nb mod 2 = 0)%nat -> (2 <= nb)%nat -> (1 <= L)%nat -> images <> [] -> (1 <= n_rois labels)%nat ->
  (forall im, In im images -> length im = length labels) -> (length images <= nf)%nat ->
  exists g, two_time_corr labels images nf nb L = Some g /\
  forall q j, (q < n_rois labels)%nat -> (j < nf)%nat -> (forall a l k i, ~ on_lag nb L (length images) (a + j) a l k i) ->
  exists row err, nth_error (fst (one_time_with_errors (real_stack (to_stack (n_rois labels) g)))) q = Some row /\
    nth_error (snd (one_time_with_errors (real_stack (to_stack (n_rois labels) g)))) q = Some err /\
    nth_error row j = Some (Some 0) /\ nth_error err j = Some (Some 0).
Proof. exact unreported. Qed.
Print Assumptions C119_unreported.
Example C119_unreported_ex : forall a l k i, ~ on_lag 2 1 5 (a + 3) a l k i.
Proof. intros a l k i ((Hl & Hi & _) & Hik & Hk & s & Hs & Ea & Eb). assert (l = 0)%nat by lia. subst l. cbn [Nat.pow] in *. lia. Qed.

(** C119: fewer images than num_frames: the frames never given count as zeros, so at the lags below num_bufs the
    value is the sum of the numbers over their count plus the missing frames. *)
Theorem C119_missing_frames : forall nb L nf labels images, (nb mod 2 = 0)%nat -> (2 <= nb)%nat -> (1 <= L)%nat -> images <> [] -> (1 <= n_rois labels)%nat ->
  (forall im, In im images -> length im = length labels) -> (length images <= nf)%nat ->
  exists g, two_time_corr labels images nf nb L = Some g /\
  forall q j, (q < n_rois labels)%nat -> (j < nb)%nat -> (j < length images)%nat ->
  let xs := numbers (map (fun a => spec_tt labels images 0 a (a + j) (q + 1)) (seq 0 (length images - j))) in
  exists row, nth_error (one_time_from_two_time (to_stack (n_rois labels) g)) q = Some row /\
    nth_error row j = Some (if (length xs + (nf - length images) =? 0)%nat then None else Some (qsum xs / qn (length xs + (nf - length images)))%Qc).
Proof. exact padded. Qed.
Print Assumptions C119_missing_frames.
(** a signal that never changes, 3 images of the 4 announced: 3/4 and 2/3 instead of 1 *)
Example C119_missing_ex : option_map (map (map (option_map this)))
   (TwoTime_Main.one_time_of 2 1 4 [1; 1]%Z (repeat (TwoTime_Props.tt_im [2; 2]%Z) 3)) = Some [[Some (3 # 4); Some (2 # 3); Some 0; Some 0]]%Q.
Proof. vm_compute. reflexivity. Qed.
