From Coq Require Import Permutation Sorted.
From Verif Require Import Common Peak_Model Peak_Spec Peak_Proofs Peak_Lsq.
From Coq Require Import Reals Lra.
Local Open Scope R_scope.

(** a least squares solver exists *)
Theorem C56_solver_exists : exists lstsq, least_squares lstsq.
Proof. exact (ex_intro _ lsq lsq_ok). Qed.
Print Assumptions C56_solver_exists.
Example three_ex : three_points [0; 1; 2; 5].
Proof. exists 0, 1, 2. cbn. repeat split; auto; lra. Qed.

(** *** fit_quad_to_peak and the two refiners *)
(** an exact parabola is recovered: curvature, centre, height, R^2 = 1 *)
Theorem C87_fit_exact lstsq xs a c h : least_squares lstsq -> a <> 0 -> three_points xs -> fit_quad_to_peak lstsq xs (map (parabola a c h) xs) = Some ((a, Some c, Some h), Some 1).
Proof. intros L. now apply fit_exact. Qed.
Print Assumptions C87_fit_exact.
Example C87_fit_exact_ex : fit_quad_to_peak lsq [0; 1; 2; 5] (map (parabola (-2) 3 7) [0; 1; 2; 5]) = Some ((-2, Some 3, Some 7), Some 1).
Proof. apply C87_fit_exact; [apply lsq_ok|lra|apply three_ex]. Qed.
(** R^2 lies between 0 and 1 *)
Theorem C87_r2_range lstsq xs ys : least_squares lstsq -> (3 <= length xs)%nat -> length xs = length ys -> (exists u v, In u ys /\ In v ys /\ u <> v) ->
  exists q r, fit_quad_to_peak lstsq xs ys = Some (q, Some r) /\ 0 <= r <= 1.
Proof. intros L. now apply r2_range. Qed.
Print Assumptions C87_r2_range.
Example C87_r2_range_ex : exists q r, fit_quad_to_peak lsq [0; 1; 2; 5] [1; 1; 4; 2] = Some (q, Some r) /\ 0 <= r <= 1.
Proof. apply C87_r2_range; [apply lsq_ok|cbn; lia|reflexivity|]. exists 1, 4. cbn. repeat split; auto; lra. Qed.
(** peaks and dips alike: nothing checks the sign of the curvature *)
Theorem C87_dip_is_a_peak_refuted : exists xs ys c h, refine_quadratic lsq (Some 1) xs ys = Found (Some c, Some h) /\ (exists y, In y ys /\ h < y) /\ forall y, In y ys -> h <= y.
Proof.
  exists [0; 1; 2; 5], (map (parabola 2 1 7) [0; 1; 2; 5]), 1, 7. split; [|split].
  - apply refine_quadratic_exact; [apply lsq_ok|lra|apply three_ex|intros t [= <-]; lra].
  - exists (parabola 2 1 7 0). split; [now left|]. unfold parabola. lra.
  - intros y I. apply in_map_iff in I as (x & <- & _). unfold parabola. pose proof (sq_nn (x - 1)). lra.
Qed.
Print Assumptions C87_dip_is_a_peak_refuted.
Theorem C87_refine_quadratic lstsq thr xs a c h : least_squares lstsq -> a <> 0 -> three_points xs -> (forall t, thr = Some t -> t <= 1) ->
  refine_quadratic lstsq thr xs (map (parabola a c h) xs) = Found (Some c, Some h).
Proof. intros L. now apply refine_quadratic_exact. Qed.
Print Assumptions C87_refine_quadratic.
Example C87_refine_quadratic_ex : refine_quadratic lsq None [0; 1; 2; 5] (map (parabola (-2) 3 7) [0; 1; 2; 5]) = Found (Some 3, Some 7).
Proof. apply C87_refine_quadratic; [apply lsq_ok|lra|apply three_ex|discriminate]. Qed.
Theorem C87_refine_log_quadratic lstsq thr xs h c s : least_squares lstsq -> 0 < h -> s <> 0 -> three_points xs -> (forall t, thr = Some t -> t <= 1) ->
  refine_log_quadratic lstsq thr xs (map (gauss_peak h c s) xs) = Found (Some c, Some h).
Proof. intros L. now apply refine_log_exact. Qed.
Print Assumptions C87_refine_log_quadratic.
Example C87_refine_log_quadratic_ex : refine_log_quadratic lsq (Some (1/2)) [0; 1; 2; 5] (map (gauss_peak 3 2 4) [0; 1; 2; 5]) = Found (Some 2, Some 3).
Proof. apply C87_refine_log_quadratic; [apply lsq_ok|lra|lra|apply three_ex|intros t [= <-]; lra]. Qed.
(** the range of useful thresholds *)
Theorem C87_threshold lstsq t xs ys : least_squares lstsq -> (3 <= length xs)%nat -> length xs = length ys -> (exists u v, In u ys /\ In v ys /\ u <> v) ->
  (1 < t -> refine_quadratic lstsq (Some t) xs ys = Rejected) /\ (t <= 0 -> exists p, refine_quadratic lstsq (Some t) xs ys = Found p).
Proof. intros L. now apply refine_quadratic_threshold. Qed.
Print Assumptions C87_threshold.
Example C87_threshold_ex : refine_quadratic lsq (Some 2) [0; 1; 2; 5] [1; 1; 4; 2] = Rejected.
Proof. apply C87_threshold; [apply lsq_ok|cbn; lia|reflexivity| |lra]. exists 1, 4. cbn. repeat split; auto; lra. Qed.
(** fewer than three points: not a rejection, an exception *)
Theorem C87_short lstsq thr xs ys : (length xs < 3)%nat -> refine_quadratic lstsq thr xs ys = Raised /\ refine_log_quadratic lstsq thr xs ys = Raised.
Proof. now apply refine_quadratic_short. Qed.
Print Assumptions C87_short.
Example C87_short_ex : refine_quadratic lsq None [1; 2] [3; 4] = Raised.
Proof. apply C87_short. cbn. lia. Qed.

(** *** peak_refinement *)
Theorem C57_refinement {A B C} (refine : list A -> list A -> refined (B * C)) x y cands w : length x = length y -> valid_cands x cands -> (0 <= w)%Z ->
  forall out, (forall c xs ys, In c cands -> around x c w xs -> around y c w ys -> out c = refine xs ys) ->
  (peak_refinement refine x y cands w = None <-> exists c, In c cands /\ out c = Raised) /\
  (forall l, survivors out cands l -> peak_refinement refine x y cands w = Some (match l with [] => None | _ => Some (map fst l, map snd l) end)) /\
  ((forall c, In c cands -> out c <> Raised) -> exists l, survivors out cands l).
Proof. exact (refinement_ok refine x y cands w). Qed.
Print Assumptions C57_refinement.
(** a toy refiner: reject windows of two samples, otherwise report the sums *)
Definition toy (xs ys : list nat) : refined (nat * nat) := match xs with [_; _] => Rejected | _ => Found (fold_right Nat.add 0%nat xs, fold_right Nat.add 0%nat ys) end.
Example C57_refinement_ex : peak_refinement toy [1; 2; 3; 4; 5]%nat [10; 20; 30; 40; 50]%nat [1; 0; 3]%Z 1 = Some (Some ([6; 12], [60; 120])%nat).
Proof. reflexivity. Qed.
(** what the window is *)
Theorem C57_window {A} (l : list A) i w r : (0 <= i < Z.of_nat (length l))%Z -> (0 <= w)%Z -> around l i w r ->
  forall v, In v r <-> exists k, (Z.abs (Z.of_nat k - i) <= w)%Z /\ nth_error l k = Some v.
Proof. exact (around_in l i w r). Qed.
Print Assumptions C57_window.
Example C57_window_ex : around [1; 2; 3; 4; 5]%nat 3 2 [2; 3; 4; 5]%nat.
Proof. exists 1%Z. repeat split. Qed.
(** nothing found: one empty tuple instead of two arrays *)
Theorem C57_two_arrays_refuted : peak_refinement toy [1; 2; 3]%nat [1; 2; 3]%nat [0; 2]%Z 1 = Some None.
Proof. reflexivity. Qed.
Print Assumptions C57_two_arrays_refuted.
(** one candidate on the border makes the whole call fail with the package's refiners *)
Theorem C57_border_refuted lstsq thr x y cands : length x = length y -> (3 <= length x)%nat -> valid_cands x cands -> In 0%Z cands -> peak_refinement (refine_quadratic lstsq thr) x y cands 1 = None.
Proof.
  intros L N V I. set (out := fun c => refine_quadratic lstsq thr (window_of (Z.of_nat (length x)) x c 1) (window_of (Z.of_nat (length y)) y c 1)).
  destruct (refinement_ok (refine_quadratic lstsq thr) x y cands 1 L V ltac:(lia) out) as ([_ H] & _).
  - intros c xs ys Ic A1 A2. eapply Forall_forall in V; [|exact Ic]. unfold out. f_equal; eapply around_unique; [apply window_around; lia|assumption|apply window_around; lia|assumption].
  - apply H. exists 0%Z. split; [exact I|]. apply refine_quadratic_short. destruct (window_around x 0 1 ltac:(lia) ltac:(lia)) as (lo & -> & W & _). lia.
Qed.
Print Assumptions C57_border_refuted.

(** *** the filters *)
Theorem C58_n_largest argsort y cands N : sorts argsort -> valid_cands y cands -> (0 < N)%Z ->
  exists r dropped, filter_n_largest argsort y cands N = inl r /\ Permutation (r ++ dropped) cands /\ length r = Nat.min (Z.to_nat N) (length cands) /\
  StronglySorted (fun a b => (height y b <= height y a)%Qc) r /\ forall a b, In a r -> In b dropped -> (height y b <= height y a)%Qc.
Proof. exact (n_largest argsort y cands N). Qed.
Print Assumptions C58_n_largest.
Theorem C58_n_largest_bad argsort y cands N : (N <= 0)%Z -> filter_n_largest argsort y cands N = inr ValueErr.
Proof. exact (n_largest_bad argsort y cands N). Qed.
Print Assumptions C58_n_largest_bad.
(** insertion sort of the positions *)
Fixpoint ins (h : list Qc) (i : nat) (l : list nat) : list nat := match l with [] => [i] | j :: r => if Qc_leb (nth i h 0%Qc) (nth j h 0%Qc) then i :: l else j :: ins h i r end.
Definition isort (h : list Qc) : list nat := fold_right (ins h) [] (seq 0 (length h)).
Example isort_sorts : sorts isort.
Proof.
  intros h. assert (P : forall i l, Permutation (ins h i l) (i :: l)).
  { intros i. induction l as [|j l IH]; cbn; [reflexivity|]. destruct (Qc_leb _ _); [reflexivity|]. rewrite IH. apply perm_swap. }
  unfold isort. generalize (seq 0 (length h)). intros l. induction l as [|i l [IP IS]]; cbn; [split; constructor|]. split; [rewrite P; now constructor|]. clear IP. revert IS.
  generalize (fold_right (ins h) [] l). intros m IS. induction IS as [|j m IS IH F]; cbn; [repeat constructor|]. destruct (Qc_leb_spec (nth i h 0%Qc) (nth j h 0%Qc)) as [H|H].
  - constructor; [now constructor|]. constructor; [exact H|]. eapply Forall_impl; [|exact F]. intros k K. eapply Qcle_trans; eauto.
  - constructor; [exact IH|]. apply Forall_forall. intros k I. apply (Permutation_in _ (P i m)) in I as [<-|I]; [apply Qclt_le_weak; now apply Qcnot_le_lt|]. eapply Forall_forall in F; eauto.
Qed.
Example C58_n_largest_ex : filter_n_largest isort (map qz [5; 9; 2; 7]%Z) [0; 1; 2; 3]%Z 2 = inl [1; 3]%Z.
Proof. reflexivity. Qed.
Theorem C58_height y cands t w : valid_cands y cands -> (0 <= w)%Z ->
  exists keep, filter_peak_height y cands t w = Some (filter keep cands) /\
  forall c, In c cands -> keep c = true <-> exists i j a b, (Z.abs (Z.of_nat i - c) <= w)%Z /\ (Z.abs (Z.of_nat j - c) <= w)%Z /\ nth_error y i = Some a /\ nth_error y j = Some b /\ (t < a - b)%Qc.
Proof. exact (height_filter y cands t w). Qed.
Print Assumptions C58_height.
Example C58_height_ex : filter_peak_height (map qz [5; 9; 2; 7; 7]%Z) [0; 4; 1; 3]%Z (qz 4) 1 = Some [1; 3]%Z.
Proof. reflexivity. Qed.

(** *** find_largest_peak *)
Theorem C56_window lstsq x h c s j w xs : least_squares lstsq -> 0 < h -> 0 < s -> first_max (map (gauss_peak h c s) x) j -> (0 <= w <= Z.of_nat j)%Z -> around x (Z.of_nat j) w xs -> three_points xs ->
  find_largest_peak lstsq x (map (gauss_peak h c s) x) (Some w) = Some (Some c, Some h, Some s).
Proof. intros L. now apply largest_peak_window. Qed.
Print Assumptions C56_window.
Lemma gauss_lt h c s x x' : 0 < h -> 0 < s -> Rabs (x - c) < Rabs (x' - c) -> gauss_peak h c s x' < gauss_peak h c s x.
Proof.
  intros H S L. unfold gauss_peak. apply Rmult_lt_compat_l; [exact H|]. apply exp_increasing. apply Rsqr_lt_abs_1 in L. unfold Rsqr in L. unfold Rdiv. apply Rmult_lt_compat_r; [apply Rinv_0_lt_compat; nra|lra].
Qed.
Example C56_window_ex : find_largest_peak lsq [0; 1; 2; 5] (map (gauss_peak 3 1 4) [0; 1; 2; 5]) (Some 1%Z) = Some (Some 1, Some 3, Some 4).
Proof.
  assert (M : forall x, In x [0; 2; 5] -> gauss_peak 3 1 4 x < gauss_peak 3 1 4 1).
  { intros x I. apply gauss_lt; [lra|lra|]. replace (1 - 1) with 0 by ring. rewrite Rabs_R0. apply Rabs_pos_lt. destruct I as [<-|[<-|[<-|[]]]]; lra. }
  apply (C56_window lsq _ 3 1 4 1%nat 1 [0; 1; 2]); [apply lsq_ok|lra|lra| |lia| |exists 0, 1, 2; cbn; repeat split; auto; lra].
  - exists (gauss_peak 3 1 4 1). split; [reflexivity|]. split.
    + intros v I. cbn in I. destruct I as [<-|[<-|[<-|[<-|[]]]]]; try (left; apply M; cbn; tauto). lra.
    + intros [|i] v I E; [|lia]. cbn in E. injection E as <-. apply M. now left.
  - exists 0%Z. repeat split. intros [|[|[|k]]] K; cbn in *; try reflexivity; lia.
Qed.
Theorem C56_all lstsq x h c s xs last : least_squares lstsq -> 0 < h -> 0 < s -> x = xs ++ [last] -> three_points xs -> find_largest_peak lstsq x (map (gauss_peak h c s) x) None = Some (Some c, Some h, Some s).
Proof. intros L. now apply largest_peak_all. Qed.
Print Assumptions C56_all.
Example C56_all_ex : find_largest_peak lsq [0; 1; 2; 5] (map (gauss_peak 3 1 4) [0; 1; 2; 5]) None = Some (Some 1, Some 3, Some 4).
Proof. apply (C56_all lsq _ 3 1 4 [0; 1; 2] 5); [apply lsq_ok|lra|lra|reflexivity|]. exists 0, 1, 2. cbn. repeat split; auto; lra. Qed.
(** three samples and no window: the last one is left out and the fit fails *)
Theorem C56_no_window_drops_last_refuted lstsq a b c ya yb yc : find_largest_peak lstsq [a; b; c] [ya; yb; yc] None = None.
Proof.
  unfold find_largest_peak. cbn [argmax bind]. change (pyslice [ya; yb; yc] 0 (-1)) with [ya; yb]. change (pyslice [a; b; c] 0 (-1)) with [a; b].
  now destruct (all_pos [ya; yb]).
Qed.
Print Assumptions C56_no_window_drops_last_refuted.
(** a peak nearer to the left border than the window *)
Theorem C56_left_border_refuted lstsq x y j w : length x = length y -> first_max y j -> (Z.of_nat j < w)%Z -> (2 * w < Z.of_nat (length y))%Z -> find_largest_peak lstsq x y (Some w) = None.
Proof. exact (largest_peak_left lstsq x y j w). Qed.
Print Assumptions C56_left_border_refuted.
Example C56_left_border_ex : find_largest_peak lsq [0; 1; 2; 3; 4] [3; 5; 4; 2; 1] (Some 2%Z) = None.
Proof.
  apply (C56_left_border_refuted lsq _ _ 1); try reflexivity. exists 5. split; [reflexivity|]. split; [cbn; intros v I; intuition lra|].
  intros [|i] v I E; [|lia]. injection E as <-. lra.
Qed.

(** *** align_and_scale *)
Theorem C88_aligned find ds : (forall d e h c s, In d ds -> d = (e, (h, c, s)) -> 0 < h /\ 0 < s /\ find e (map (gauss_peak h c s) e) = Some (c, h, s)) ->
  exists out, align_and_scale find (map spectrum ds) = Some out /\ length out = length ds /\
  forall d0 e0 h0 c0 s0 i e h c s, nth_error ds 0 = Some d0 -> d0 = (e0, (h0, c0, s0)) -> nth_error ds i = Some (e, (h, c, s)) ->
    exists es, nth_error out i = Some (es, map (gauss_peak h c s) e) /\ map (gauss_peak h 0 s0) es = map (gauss_peak h c s) e /\ length es = length e.
Proof. exact (aligned find ds). Qed.
Print Assumptions C88_aligned.
(** the default finder, with all three numbers finite *)
Definition default_find lstsq (x y : list R) : option (R * R * R) := match find_largest_peak lstsq x y None with Some (Some c, Some h, Some s) => Some (c, h, s) | _ => None end.
Example C88_aligned_ex : exists out, align_and_scale (default_find lsq) (map spectrum [([0; 1; 2; 5], (3, 1, 4)); ([0; 2; 4; 6; 8], (5, 3, 2))]) = Some out /\ length out = 2%nat.
Proof.
  destruct (C88_aligned (default_find lsq) [([0; 1; 2; 5], (3, 1, 4)); ([0; 2; 4; 6; 8], (5, 3, 2))]) as (out & E & L & _); [|eauto].
  intros d e h c s [<-|[<-|[]]] [= <- <- <- <-]; (split; [lra|split; [lra|]]); unfold default_find.
  - rewrite (C56_all lsq _ 3 1 4 [0; 1; 2] 5); [reflexivity|apply lsq_ok|lra|lra|reflexivity|]. exists 0, 1, 2. cbn. repeat split; auto; lra.
  - rewrite (C56_all lsq _ 5 3 2 [0; 2; 4; 6] 8); [reflexivity|apply lsq_ok|lra|lra|reflexivity|]. exists 0, 2, 4. cbn. repeat split; auto; lra.
Qed.
