(* C107: the map fit on several processes. *)
From Coq Require Import Reals.
From Verif Require Import Common Xrf_Model XrfFit_Model XrfFit_Proofs Pool_Model Pool_Spec Pool_Proofs.
Open Scope nat_scope.
Open Scope list_scope.

(** C107: whatever the processes do, a call that returns has the result of row k at place k, one for every row, and has
    stopped the pool; *)
Theorem C107_rows_in_order {Row Res Exn} (fit : Row -> Res + Exn) rows workers n s l :
  run fit rows workers n init s -> main s = Returned l ->
  length l = length rows /\ alive s = false /\
  forall k, k < length rows -> exists r v, nth_error rows k = Some r /\ nth_error l k = Some v /\ fit r = inl v.
Proof.
  intros R E. destruct (returned fit rows workers n s l R E) as (_ & L & A). split; [exact L|]. split; [exact A|].
  intros k B. exact (all_computed fit rows workers n s l k R E B).
Qed.
Print Assumptions C107_rows_in_order.
(** ... a call that raises does so with the exception of the first row, in row order, that fails, *)
Theorem C107_first_failure {Row Res Exn} (fit : Row -> Res + Exn) rows workers n s e :
  run fit rows workers n init s -> main s = Raised e ->
  exists k r, nth_error rows k = Some r /\ fit r = inr e /\
    forall j r', j < k -> nth_error rows j = Some r' -> exists v, fit r' = inl v.
Proof. intros R E. apply serial_first. exact (proj1 (raised fit rows workers n s e R E)). Qed.
Print Assumptions C107_first_failure.
(** ... and leaves the pool running. *)
Theorem C107_cleanup_refuted {Row Res Exn} (fit : Row -> Res + Exn) rows workers n s e :
  run fit rows workers n init s -> main s = Raised e -> alive s = true.
Proof. intros R E. exact (proj2 (raised fit rows workers n s e R E)). Qed.
Print Assumptions C107_cleanup_refuted.
(** C107: two complete calls end alike, also with different numbers of processes. *)
Theorem C107_schedule_free {Row Res Exn} (fit : Row -> Res + Exn) rows w1 w2 n1 n2 s1 s2 :
  run fit rows w1 n1 init s1 -> run fit rows w2 n2 init s2 -> over s1 -> over s2 -> main s1 = main s2.
Proof.
  intros R1 R2 O1 O2. unfold over in *.
  destruct (main s1) as [| |l1|e1] eqn:E1; try contradiction; destruct (main s2) as [| |l2|e2] eqn:E2; try contradiction.
  - destruct (returned _ _ _ _ _ _ R1 E1) as [A _], (returned _ _ _ _ _ _ R2 E2) as [B _]. congruence.
  - destruct (returned _ _ _ _ _ _ R1 E1) as [A _], (raised _ _ _ _ _ _ R2 E2) as [B _]. congruence.
  - destruct (raised _ _ _ _ _ _ R1 E1) as [A _], (returned _ _ _ _ _ _ R2 E2) as [B _]. congruence.
  - destruct (raised _ _ _ _ _ _ R1 E1) as [A _], (raised _ _ _ _ _ _ R2 E2) as [B _]. congruence.
Qed.
Print Assumptions C107_schedule_free.
(** C107: no schedule goes on for ever, *)
Theorem C107_bounded {Row Res Exn} (fit : Row -> Res + Exn) rows workers n s :
  run fit rows workers n init s -> n <= 4 * length rows + 2.
Proof. intros R. pose proof (run_bound fit rows workers n _ _ R (inv_init fit rows)) as B. unfold left_over in B. cbn in B. lia. Qed.
Print Assumptions C107_bounded.
(** ... and none gets stuck before the call is over. *)
Theorem C107_no_deadlock {Row Res Exn} (fit : Row -> Res + Exn) rows workers n s :
  0 < workers -> run fit rows workers n init s -> ~ over s -> exists s', step fit rows workers s s'.
Proof.
  intros W R O. pose proof (progress fit rows workers s W (inv_run _ _ _ _ _ _ R (inv_init fit rows))) as P.
  unfold over in O. destruct (main s); auto; tauto.
Qed.
Print Assumptions C107_no_deadlock.

(** Three rows on two processes, the second row finished first. *)
Definition inc (r : nat) : nat + nat := inl (S r).
Example C107_out_of_order : exists n s, run inc [10; 20; 30] 2 n init s /\ main s = Returned [11; 21; 31] /\
  exists m s1, run inc [10; 20; 30] 2 m init s1 /\ slots s1 = [None; Some (inl 21); None] /\ run inc [10; 20; 30] 2 (n - m) s1 s.
Proof.
  set (s1 := {| main := Collecting 0 []; queue := [2]; busy := [0]; slots := [None; Some (inl 21); None]; alive := true |} : state nat nat).
  assert (A : run inc [10; 20; 30] 2 7 init s1).
  { unfold init, s1.
    eapply run_cons; [eapply submit; reflexivity|]. cbn. eapply run_cons; [eapply submit; reflexivity|]. cbn.
    eapply run_cons; [eapply submit; reflexivity|]. cbn. eapply run_cons; [apply submitted; reflexivity|].
    eapply run_cons; [apply take; cbn; lia|]. eapply run_cons; [apply take; cbn; lia|].
    eapply run_cons; [eapply (finish _ _ _ _ _ [] 1 [0]); reflexivity|]. apply run_nil. }
  assert (B : run inc [10; 20; 30] 2 7 s1 {| main := Returned [11; 21; 31]; queue := []; busy := [];
     slots := [Some (inl 11); Some (inl 21); Some (inl 31)]; alive := false |}).
  { unfold s1. eapply run_cons; [apply take; cbn; lia|].
    eapply run_cons; [eapply (finish _ _ _ _ _ [] 2 [0]); reflexivity|]. cbn.
    eapply run_cons; [eapply (finish _ _ _ _ _ [] 0 []); reflexivity|]. cbn.
    do 3 (eapply run_cons; [eapply get; reflexivity|]; cbn).
    eapply run_cons; [apply finished; reflexivity|]. apply run_nil. }
  assert (App : forall a b x y z, run inc [10; 20; 30] 2 a x y -> run inc [10; 20; 30] 2 b y z -> run inc [10; 20; 30] 2 (a + b) x z).
  { intros a b x y z H. revert b. induction H; intros b H'; [exact H'|]. cbn. econstructor; [eassumption|]. apply IHrun, H'. }
  exists 14. eexists. split; [exact (App 7 7 _ _ _ A B)|]. split; [reflexivity|]. exists 7, s1. split; [exact A|]. split; [reflexivity|exact B].
Qed.
(** The first row fails while the second waits: the call is over, the pool still has work. *)
Definition bad (r : nat) : nat + nat := if r =? 10 then inr 99 else inl (S r).
Example C107_left_running : exists n s, run bad [10; 20] 1 n init s /\ main s = Raised 99 /\ queue s = [1] /\ alive s = true.
Proof.
  do 2 eexists. split; [|split; [|split]].
  - eapply run_cons; [eapply submit; reflexivity|]. cbn. eapply run_cons; [eapply submit; reflexivity|]. cbn.
    eapply run_cons; [apply submitted; reflexivity|]. eapply run_cons; [apply take; cbn; lia|].
    eapply run_cons; [eapply (finish _ _ _ _ _ [] 0 []); reflexivity|]. cbn.
    eapply run_cons; [eapply get_raises; reflexivity|]. apply run_nil.
  - reflexivity.
  - reflexivity.
  - reflexivity.
Qed.

(** The worker of the code, 1542: fit_per_line_nnls on one row of the map. *)
Definition fit_line nnls snip (M : matrix) (use_snip : bool) (data : list (list R)) : list (list R * R * option R) + unit :=
  match fit_per_line_nnls nnls snip data M use_snip with Ret x => inl x | UnboundLocal => inr tt end.
(** C107: with the default use_snip a map with one pixel or more always ends in an UnboundLocalError; *)
Theorem C107_default_raises nnls snip M rows workers n s : (exists row, In row rows /\ row <> []) ->
  run (fit_line nnls snip M false) rows workers n init s -> over s -> main s = Raised tt.
Proof.
  intros (row & I & N) R O. unfold over in O. destruct (main s) as [| |l|[]] eqn:E; try contradiction; [|reflexivity].
  destruct (C107_rows_in_order _ _ _ _ _ _ R E) as (_ & _ & P). destruct (In_nth_error _ _ I) as [k K].
  destruct (P k) as (r & v & A & _ & B); [apply nth_error_Some; congruence|].
  rewrite K in A. injection A as <-. destruct row as [|y row]; [congruence|].
  unfold fit_line in B. rewrite (fit_unbound nnls snip y row M) in B. discriminate B.
Qed.
Print Assumptions C107_default_raises.
(** ... with use_snip the map of the fits of every pixel is returned. *)
Theorem C107_map nnls snip M rows workers n s : run (fit_line nnls snip M true) rows workers n init s -> over s ->
  main s = Returned (map (map (fun y => let '(x, r) := nnls M (zipw Rminus y (snip y)) in (x, rsum (snip y), goodness y r))) rows).
Proof.
  intros R O. unfold over in O. destruct (main s) as [| |l|[]] eqn:E; try contradiction.
  - f_equal. destruct (C107_rows_in_order _ _ _ _ _ _ R E) as (L & _ & P). apply nth_error_ext. intros k.
    rewrite nth_error_map. destruct (Nat.lt_ge_cases k (length rows)) as [B|B].
    + destruct (P k B) as (r & v & A1 & A2 & A3). rewrite A1, A2. cbn. f_equal. unfold fit_line in A3. rewrite (fit_snip nnls snip M r) in A3.
      injection A3 as <-. reflexivity.
    + rewrite (proj2 (nth_error_None l k)), (proj2 (nth_error_None rows k)) by lia. reflexivity.
  - destruct (C107_first_failure _ _ _ _ _ _ R E) as (k & r & _ & F & _). unfold fit_line in F. rewrite (fit_snip nnls snip M r) in F. discriminate F.
Qed.
Print Assumptions C107_map.
(** Complete calls exist for every map. *)
Example C107_complete : exists n s, run (fit_line (fun _ y => (y, 0%R)) (fun y => y) [] false) [[]; [[1%R]]] 4 n init s /\ main s = Raised tt.
Proof.
  destruct (completes (fit_line (fun _ y => (y, 0%R)) (fun y => y) [] false) [[]; [[1%R]]] 4 ltac:(lia) init (inv_init _ _)) as (n & s & R & O).
  exists n, s. split; [exact R|]. refine (C107_default_raises _ _ _ _ _ _ _ _ R O). exists [[1%R]]. split; [cbn; auto|discriminate].
Qed.
