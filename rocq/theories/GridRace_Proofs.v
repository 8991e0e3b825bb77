From Verif Require Import Common QcArith Sums Grid_Model Grid_Proofs GridRace_Model.

Fixpoint tsteps (size n j : nat) (t : thread) : option (nat * thread) :=
  match n with 0 => Some (j, t) | S n' => r <- tstep size j t ;; tsteps size n' (fst r) (snd r) end.
Lemma tsteps_add size n k j t : tsteps size (n + k) j t = (r <- tsteps size n j t ;; tsteps size k (fst r) (snd r)).
Proof.
  revert j t. induction n as [|n IH]; intros j t; cbn [tsteps Nat.add bind fst snd]; [reflexivity|].
  destruct (tstep size j t) as [[j' t']|]; cbn [bind fst snd]; [apply IH|reflexivity].
Qed.

Definition zeroed (i : nat) (l : list Qc) : list Qc := repeat 0%Qc i ++ skipn i l.
Lemma upd_zeroed i l : i < length l -> upd (zeroed i l) i 0%Qc = Some (zeroed (S i) l).
Proof.
  unfold zeroed. revert l. induction i as [|i IH]; intros [|x l] H; cbn in *; try lia; [reflexivity|].
  rewrite IH by lia. reflexivity.
Qed.
Lemma zeroed_all l : zeroed (length l) l = repeat 0%Qc (length l).
Proof. unfold zeroed. rewrite skipn_all, app_nil_r. reflexivity. Qed.

Definition clr (i : nat) (g : acc) := mkAcc (zeroed i (a_d g)) (zeroed i (a_d2 g)) (zeroed i (a_n g)).
Definition sized (size : nat) (g : acc) := length (a_d g) = size /\ length (a_d2 g) = size /\ length (a_n g) = size.
Lemma clr_0 g : clr 0 g = g. Proof. destruct g; reflexivity. Qed.
Lemma clr_all size g : sized size g -> clr size g = cleared size.
Proof.
  intros [H1 [H2 H3]]. unfold clr, cleared. f_equal.
  - rewrite <- H1. apply zeroed_all.
  - rewrite <- H2. apply zeroed_all.
  - rewrite <- H3. apply zeroed_all.
Qed.
Lemma iter_once size i g : sized size g -> i < size ->
  tsteps size 6 i (mkT PTest (clr i g)) = Some (S i, mkT PTest (clr (S i) g)).
Proof.
  intros [H1 [H2 H3]] Hi. cbn [tsteps tstep t_pc t_acc].
  destruct (Nat.ltb_spec i size) as [_|]; [|lia]. cbn [tsteps tstep bind fst snd t_pc t_acc clr a_d a_d2 a_n].
  rewrite upd_zeroed by lia. cbn [tsteps tstep bind fst snd t_pc t_acc a_d a_d2 a_n].
  rewrite upd_zeroed by lia. cbn [tsteps tstep bind fst snd t_pc t_acc a_d a_d2 a_n].
  rewrite upd_zeroed by lia. reflexivity.
Qed.
Lemma iter_many size n i g : sized size g -> i + n <= size ->
  tsteps size (n * 6) i (mkT PTest (clr i g)) = Some (i + n, mkT PTest (clr (i + n) g)).
Proof.
  intros W. revert i. induction n as [|n IH]; intros i H; cbn [Nat.mul].
  - rewrite Nat.add_0_r. reflexivity.
  - rewrite tsteps_add, iter_once by (auto; lia). cbn [bind fst snd]. rewrite IH by lia.
    replace (S i + n) with (i + S n) by lia. reflexivity.
Qed.
Lemma loop_prefix size j g n : sized size g -> n <= size ->
  tsteps size (1 + n * 6) j (mkT PInit g) = Some (n, mkT PTest (clr n g)).
Proof.
  intros W H. rewrite tsteps_add. cbn [tsteps tstep t_pc t_acc bind fst snd].
  rewrite <- (clr_0 g) at 1. apply (iter_many size n 0 g W). exact H.
Qed.
Lemma loop_all size j g : sized size g ->
  tsteps size (1 + size * 6 + 1) j (mkT PInit g) = Some (size, mkT PDone (cleared size)).
Proof.
  intros W. rewrite tsteps_add, loop_prefix by auto. cbn [bind fst snd tsteps tstep t_pc t_acc].
  rewrite Nat.ltb_irrefl, clr_all by exact W. reflexivity.
Qed.

Lemma upd_upd {A} (l : list A) k a b l1 : upd l k a = Some l1 -> upd l1 k b = upd l k b.
Proof.
  revert k l1. induction l as [|x l IH]; intros [|k] l1 H; cbn in H; try discriminate.
  - injection H as <-. reflexivity.
  - destruct (upd l k a) as [r|] eqn:E; [|discriminate]. injection H as <-. cbn. rewrite (IH _ _ E). reflexivity.
Qed.
Lemma upd_self {A} (l : list A) k a : nth_error l k = Some a -> upd l k a = Some l.
Proof.
  revert k. induction l as [|x l IH]; intros [|k] H; cbn in H; try discriminate.
  - injection H as ->. reflexivity.
  - cbn. rewrite (IH _ H). reflexivity.
Qed.
Lemma run_own size k n : forall j ts t, nth_error ts k = Some t ->
  run_schedule size (repeat k n) (j, ts) =
    (r <- tsteps size n j t ;; ts' <- upd ts k (snd r) ;; Some (fst r, ts')).
Proof.
  unfold run_schedule. induction n as [|n IH]; intros j ts t H.
  - cbn. rewrite (upd_self _ _ _ H). reflexivity.
  - cbn [repeat foldM tsteps sstep]. rewrite H. cbn [bind].
    destruct (tstep size j t) as [[j' t']|]; cbn [bind fst snd]; [|reflexivity].
    assert (Hk : k < length ts) by (apply nth_error_Some; congruence).
    destruct (upd_some ts k t' Hk) as [ts1 E1]. rewrite E1. cbn [bind].
    rewrite (IH j' ts1 t' (upd_nth_eq _ _ _ _ E1)).
    destruct (tsteps size n j' t') as [[j2 t2]|]; cbn [bind fst snd]; [|reflexivity].
    rewrite (upd_upd _ _ _ _ _ E1). reflexivity.
Qed.
Lemma run_app size s1 s2 st : run_schedule size (s1 ++ s2) st =
  (st' <- run_schedule size s1 st ;; run_schedule size s2 st').
Proof. apply foldM_app. Qed.

(** A thread left alone from entry to exit clears its own arrays and nothing else. *)
Theorem alone_ok size j ts k g : nth_error ts k = Some (mkT PInit g) -> sized size g ->
  exists ts', run_schedule size (repeat k (1 + size * 6 + 1)) (j, ts) = Some (size, ts') /\
    nth_error ts' k = Some (mkT PDone (cleared size)) /\
    forall i, i <> k -> nth_error ts' i = nth_error ts i.
Proof.
  intros H W. rewrite (run_own size k _ j ts _ H), loop_all by exact W. cbn [bind fst snd].
  assert (Hk : k < length ts) by (apply nth_error_Some; congruence).
  destruct (upd_some ts k (mkT PDone (cleared size)) Hk) as [ts' E]. rewrite E. cbn [bind].
  exists ts'. split; [reflexivity|]. split; [eapply upd_nth_eq; eauto|].
  intros i Hi. eapply upd_nth_ne; eauto.
Qed.
(** Hence with one thread the loop is correct whatever malloc returned. *)
Theorem single_ok size g : sized size g ->
  exists sched, run_schedule size sched (0, entering [g]) = Some (size, [mkT PDone (cleared size)]) /\
  forall sched' s', (forall k, In k sched' -> k = 0) -> run_schedule size sched' (0, entering [g]) = Some s' ->
    Forall (fun t => t_pc t = PDone) (snd s') -> s' = (size, [mkT PDone (cleared size)]).
Proof.
  intros W. set (N := 1 + size * 6 + 1).
  assert (HN : run_schedule size (repeat 0 N) (0, entering [g]) = Some (size, [mkT PDone (cleared size)])).
  { rewrite (run_own size 0 N 0 (entering [g]) (mkT PInit g) eq_refl). unfold N. rewrite loop_all by exact W. reflexivity. }
  exists (repeat 0 N). split; [exact HN|].
  intros sched' s' Hs Hr Hf.
  assert (E' : sched' = repeat 0 (length sched')).
  { clear -Hs. induction sched' as [|a l IH]; [reflexivity|]. cbn. rewrite (Hs a (or_introl eq_refl)). f_equal.
    apply IH. intros k Hk. apply Hs. right; exact Hk. }
  assert (Ext : forall n s, Forall (fun t => t_pc t = PDone) (snd s) -> length (snd s) = 1 -> run_schedule size (repeat 0 n) s = Some s).
  { induction n as [|n IH]; intros [j ts] F L; [reflexivity|]. destruct ts as [|[p a] [|]]; try discriminate L.
    apply Forall_inv in F. cbn in F. subst p.
    unfold run_schedule. cbn [repeat foldM sstep nth_error bind tstep t_pc upd snd fst].
    apply (IH (j, [mkT PDone a])); repeat constructor. }
  assert (L1 : length (snd s') = 1).
  { rewrite E', (run_own size 0 _ 0 (entering [g]) (mkT PInit g) eq_refl) in Hr.
    destruct (tsteps size (length sched') 0 (mkT PInit g)) as [[j t]|]; [|discriminate].
    cbn in Hr. injection Hr as <-. reflexivity. }
  destruct (Nat.le_ge_cases (length sched') N) as [H|H].
  - assert (EN : repeat 0 N = sched' ++ repeat 0 (N - length sched')).
    { rewrite E' at 1. rewrite <- repeat_app. f_equal. lia. }
    rewrite EN, run_app, Hr in HN. cbn [bind] in HN. rewrite Ext in HN by assumption. congruence.
  - assert (EN : sched' = repeat 0 N ++ repeat 0 (length sched' - N)).
    { rewrite E' at 1. rewrite <- repeat_app. f_equal. lia. }
    rewrite EN, run_app, HN in Hr. cbn [bind] in Hr. rewrite Ext in Hr by repeat constructor. congruence.
Qed.

(** With two threads: thread 1 initialises j, thread 0 runs its whole loop, thread 1
    finds j = size and skips the loop. *)
Definition skip_sched (size : nat) : list nat := [1] ++ repeat 0 (1 + size * 6 + 1) ++ [1].
Theorem skip_ok size g0 g1 : sized size g0 -> sized size g1 ->
  run_schedule size (skip_sched size) (0, entering [g0; g1]) =
    Some (size, [mkT PDone (cleared size); mkT PDone g1]).
Proof.
  intros W0 W1. unfold skip_sched. rewrite run_app.
  change (run_schedule size [1] (0, entering [g0; g1])) with (Some (0, [mkT PInit g0; mkT PTest g1])).
  cbn [bind]. rewrite run_app, (run_own size 0 _ 0 [mkT PInit g0; mkT PTest g1] (mkT PInit g0) eq_refl), loop_all by exact W0.
  cbn [bind fst snd upd]. unfold run_schedule. cbn [foldM sstep nth_error bind tstep t_pc t_acc fst snd upd].
  rewrite Nat.ltb_irrefl. reflexivity.
Qed.
(** Thread 1 passes the test at j = size-1; thread 0 increments j; thread 1 writes
    one element past its array. *)
Definition oob_sched (size : nat) : list nat :=
  [1] ++ repeat 0 (1 + (size - 1) * 6) ++ [1] ++ repeat 0 6 ++ [1].
Theorem oob_ok size g0 g1 : size <> 0 -> sized size g0 -> sized size g1 ->
  run_schedule size (oob_sched size) (0, entering [g0; g1]) = None.
Proof.
  intros Hs W0 W1. unfold oob_sched. rewrite run_app.
  change (run_schedule size [1] (0, entering [g0; g1])) with (Some (0, [mkT PInit g0; mkT PTest g1])).
  cbn [bind]. rewrite run_app, (run_own size 0 _ 0 [mkT PInit g0; mkT PTest g1] (mkT PInit g0) eq_refl), loop_prefix by (auto; lia).
  cbn [bind fst snd upd]. rewrite run_app. unfold run_schedule at 1. cbn [foldM sstep nth_error bind tstep t_pc t_acc fst snd upd].
  destruct (Nat.ltb_spec (size - 1) size) as [_|]; [|lia]. cbn [bind].
  rewrite run_app, (run_own size 0 _ _ [mkT PTest (clr (size - 1) g0); mkT PW1 g1] (mkT PTest (clr (size - 1) g0)) eq_refl), iter_once by (auto; lia).
  cbn [bind fst snd upd]. unfold run_schedule. cbn [foldM sstep nth_error bind tstep t_pc t_acc fst snd].
  destruct W1 as [L1 _]. rewrite upd_none by lia. reflexivity.
Qed.

Theorem garbage_counts ax ay az g0 g1 p0 p1 :
  good_gaxis ax -> good_gaxis ay -> good_gaxis az ->
  let size := gsize ax ay az in sized size g0 -> sized size g1 ->
  exists sched j ts, run_schedule size sched (0, entering [g0; g1]) = Some (j, ts) /\ Forall (fun t => t_pc t = PDone) ts /\
    exists out good, c_grid3d ax ay az (combine (map t_acc ts) [p0; p1]) = Some out /\
      grid ax ay az [p0; p1] = Some good /\
      forall c, c < size -> exists o og, nth_error out c = Some o /\ nth_error good c = Some og /\
        o_total o = (o_total og + nth c (a_d g1) 0)%Qc /\ o_occ o = (o_occ og + nth c (a_n g1) 0)%Qc.
Proof.
  intros Gx Gy Gz size W0 W1. exists (skip_sched size), size, [mkT PDone (cleared size); mkT PDone g1].
  split; [apply skip_ok; assumption|]. split; [repeat constructor|]. cbn [map t_acc combine].
  destruct (grid_two ax ay az Gx Gy Gz (cleared size) g1 p0 p1) as [out [E1 N1]]; [repeat split; apply repeat_length|exact W1|].
  destruct (grid_two ax ay az Gx Gy Gz (cleared size) (cleared size) p0 p1) as [good [E2 N2]];
    [repeat split; apply repeat_length|repeat split; apply repeat_length|].
  exists out, good. split; [exact E1|]. split; [exact E2|]. intros c Hc.
  destruct (N1 c Hc) as [o [A1 [A2 A3]]]. destruct (N2 c Hc) as [og [B1 [B2 B3]]].
  exists o, og. split; [exact A1|]. split; [exact B1|]. rewrite A2, A3, B2, B3. cbn [cleared a_d a_n].
  rewrite !nth_repeat. split; ring.
Qed.
Theorem oob_exists : forall size g0 g1, size <> 0 -> sized size g0 -> sized size g1 ->
  exists sched, run_schedule size sched (0, entering [g0; g1]) = None /\ forall k, In k sched -> k < 2.
Proof.
  intros size g0 g1 Hs W0 W1. exists (oob_sched size). split; [apply oob_ok; assumption|].
  intros k Hk. unfold oob_sched in Hk. repeat (apply in_app_or in Hk; destruct Hk as [Hk|Hk]);
    try (apply repeat_spec in Hk; lia); destruct Hk as [<-|[]]; lia.
Qed.
