(* The pool: invariant, bound on the number of steps, progress. *)
From Verif Require Import Common Pool_Model Pool_Spec.

Section P.
Context {Row Res Exn : Type} (fit : Row -> Res + Exn) (rows : list Row) (workers : nat).
Notation state := (state Res Exn).
Notation step := (step fit rows workers).
Notation run := (run fit rows workers).

Lemma firstn_snoc {A} (l : list A) k r : nth_error l k = Some r -> firstn (S k) l = firstn k l ++ [r].
Proof. revert k; induction l as [|a l IH]; intros [|k] H; cbn in *; try discriminate; [injection H as ->; reflexivity|]. f_equal. apply IH, H. Qed.

Lemma serial_prefix_raises k got r e : map inl got = map fit (firstn k rows) -> nth_error rows k = Some r -> fit r = inr e -> serial fit rows = inr e.
Proof.
  revert k got. induction rows as [|a l IH]; intros [|k] got E N F; cbn in *; try discriminate.
  - injection N as ->. rewrite F. reflexivity.
  - destruct got as [|v got]; [discriminate|]. cbn in E. injection E as E1 E2. rewrite <- E1, (IH k got E2 N F). reflexivity.
Qed.
Lemma serial_all got : map inl got = map fit rows -> serial fit rows = inl got.
Proof.
  revert got. induction rows as [|a l IH]; intros [|v got] E; cbn in *; try discriminate; [reflexivity|].
  injection E as E1 E2. rewrite <- E1, (IH got E2). reflexivity.
Qed.

Definition count (s : state) : nat := match main s with Submitting k => k | _ => length rows end.
Record inv (s : state) : Prop := {
  i_le : count s <= length rows;
  i_len : length (slots s) = count s;
  i_slot : forall k v, nth_error (slots s) k = Some (Some v) -> exists r, nth_error rows k = Some r /\ v = fit r;
  i_todo : alive s = true -> forall k, nth_error (slots s) k = Some None -> In k (queue s) \/ In k (busy s);
  i_task : forall k, In k (queue s) \/ In k (busy s) -> k < length (slots s);
  i_alive : match main s with Returned _ => alive s = false | _ => alive s = true end;
  i_main : match main s with
           | Submitting _ => True
           | Collecting k got => k <= length rows /\ map inl got = map fit (firstn k rows)
           | Returned got => map inl got = map fit rows
           | Raised e => serial fit rows = inr e
           end }.

Lemma inv_init : inv init.
Proof.
  split; cbn; try lia; auto.
  - intros [|k] v H; discriminate H.
  - intros _ [|k] H; discriminate H.
Qed.

Lemma inv_step s s' : step s s' -> inv s -> inv s'.
Proof.
  intros H [L N S T K A M]. destruct H; cbn in *; unfold count in *; cbn in *.
  - assert (Hk : k < length rows) by (apply nth_error_Some; congruence).
    split; cbn; unfold count; cbn; auto.
    + rewrite app_length; cbn; lia.
    + intros j v E. destruct (Nat.lt_ge_cases j (length sl)) as [B|B].
      * rewrite nth_error_app1 in E by exact B. apply (S j v E).
      * rewrite nth_error_app2 in E by exact B. destruct (j - length sl) as [|[|m]]; discriminate E.
    + intros E j J. rewrite in_app_iff. destruct (Nat.lt_ge_cases j (length sl)) as [B|B].
      * rewrite nth_error_app1 in J by exact B. destruct (T E j J); auto.
      * rewrite nth_error_app2 in J by exact B. destruct (j - length sl) as [|m] eqn:Q; [|destruct m; discriminate J].
        left; right; left. lia.
    + intros j J. rewrite app_length, in_app_iff in *; cbn in *. destruct J as [[J|[J|[]]]|J]; [|lia|].
      * specialize (K j (or_introl J)). lia.
      * specialize (K j (or_intror J)). lia.
  - assert (k = length rows) by (apply nth_error_None in H; lia). subst k.
    split; cbn; unfold count; cbn; auto. split; [lia|reflexivity].
  - split; cbn; unfold count; cbn; auto.
    + intros E j J. destruct (T E j J) as [[->|J']|J']; auto.
    + intros j J. apply K. destruct J as [J|[->|J]]; auto.
  - pose proof (upd_length _ _ _ _ H0) as UL. split; cbn; unfold count; cbn; auto.
    + rewrite UL. exact N.
    + intros j v E. destruct (Nat.eq_dec j k) as [->|D].
      * rewrite (upd_nth_eq _ _ _ _ H0) in E. injection E as <-. eauto.
      * rewrite (upd_nth_ne _ _ _ _ _ H0 D) in E. apply (S j v E).
    + intros E j J. destruct (Nat.eq_dec j k) as [->|D].
      * rewrite (upd_nth_eq _ _ _ _ H0) in J. discriminate J.
      * rewrite (upd_nth_ne _ _ _ _ _ H0 D) in J. destruct (T E j J) as [J'|J']; auto.
        right. rewrite in_app_iff in *. destruct J' as [J'|[J'|J']]; auto. congruence.
    + intros j J. rewrite UL. apply K. rewrite in_app_iff in *. cbn. tauto.
  - destruct M as [M1 M2]. destruct (S _ _ H) as (r & R1 & R2).
    assert (k < length rows) by (apply nth_error_Some; congruence).
    split; cbn; unfold count; cbn; auto. split; [lia|].
    change (map inl (got ++ [v]) = map fit (firstn (Datatypes.S k) rows)).
    rewrite (firstn_snoc _ _ _ R1), !map_app, M2. cbn [map]. rewrite R2. reflexivity.
  - destruct M as [M1 M2]. destruct (S _ _ H) as (r & R1 & R2).
    split; cbn; unfold count; cbn; auto. apply (serial_prefix_raises k got r e M2 R1). auto.
  - destruct M as [M1 M2]. apply nth_error_None in H. assert (k = length rows) by lia. subst k.
    split; cbn; unfold count; cbn; auto; try discriminate.
    + intros j [[]|[]].
    + rewrite firstn_all in M2. exact M2.
Qed.
Lemma inv_run n s s' : run n s s' -> inv s -> inv s'.
Proof. induction 1; auto. intros I. apply IHrun, (inv_step _ _ H I). Qed.

(** every step uses up a part of the work *)
Definition left_over (s : state) : nat :=
  match main s with
  | Submitting k => 3 * (length rows - k) + (length rows + 2)
  | Collecting k _ => length rows - k + 1
  | _ => 0
  end + 2 * length (queue s) + length (busy s).
Lemma step_less s s' : step s s' -> inv s -> left_over s' < left_over s.
Proof.
  intros H [L N S T K A M]. destruct H; cbn in *; unfold count, left_over in *; cbn in *; rewrite ?app_length; cbn; try lia.
  - assert (Hk : k < length rows) by (apply nth_error_Some; congruence). lia.
  - destruct M as [M1 M2]. destruct (S _ _ H) as (r & R1 & R2).
    assert (k < length rows) by (apply nth_error_Some; congruence). lia.
Qed.
Lemma run_bound n s s' : run n s s' -> inv s -> n + left_over s' <= left_over s.
Proof. induction 1; intros I; [lia|]. specialize (IHrun (inv_step _ _ H I)). pose proof (step_less _ _ H I). lia. Qed.

Lemma progress s : 0 < workers -> inv s -> match main s with Returned _ | Raised _ => True | _ => exists s', step s s' end.
Proof.
  intros W [L N S T K A M]. destruct s as [m q b sl al]; cbn in *; unfold count in *; cbn in *. destruct m as [k|k got|got|e]; auto.
  - destruct (nth_error rows k) as [r|] eqn:E; eexists; [eapply submit|eapply submitted]; eassumption.
  - destruct M as [M1 M2]. destruct (nth_error sl k) as [[[v|e]|]|] eqn:E.
    + eexists; eapply get; eassumption.
    + eexists; eapply get_raises; eassumption.
    + subst al. destruct b as [|j b].
      * destruct (T eq_refl k E) as [I|[]]. destruct q as [|j q]; [destruct I|]. eexists; eapply take; cbn; lia.
      * assert (J : j < length sl) by (apply K; right; left; reflexivity).
        destruct (nth_error rows j) as [r|] eqn:R; [|apply nth_error_None in R; lia].
        destruct (upd_some sl j (Some (fit r)) J) as [sl' U].
        eexists. eapply (finish _ _ _ _ _ []); eassumption.
    + eexists; eapply finished; eassumption.
Qed.

Definition over (s : state) : Prop := match main s with Returned _ | Raised _ => True | _ => False end.
Lemma run_snoc n s s' s'' : run n s s' -> step s' s'' -> run (S n) s s''.
Proof. induction 1; intros H'; [econstructor; [exact H'|constructor]|]. econstructor; [eassumption|]. apply IHrun, H'. Qed.
Lemma completes : 0 < workers -> forall s, inv s -> exists n s', run n s s' /\ over s'.
Proof.
  intros W. intros s. remember (left_over s) as m eqn:E. revert s E.
  induction m as [m IH] using lt_wf_ind. intros s -> I.
  pose proof (progress s W I) as P. destruct (main s) as [k|k got|got|e] eqn:Q.
  1,2: destruct P as [s' P]; destruct (IH _ (step_less _ _ P I) s' eq_refl (inv_step _ _ P I)) as (n & s'' & R & O);
       exists (S n), s''; split; [econstructor; eassumption|exact O].
  all: exists 0, s; split; [constructor|]; unfold over; rewrite Q; exact Logic.I.
Qed.

Lemma returned n s l : run n init s -> main s = Returned l -> serial fit rows = inl l /\ length l = length rows /\ alive s = false.
Proof.
  intros R E. pose proof (inv_run _ _ _ R inv_init) as [L N S T K A M]. rewrite E in *. split; [exact (serial_all _ M)|]. split; [|exact A].
  apply (f_equal (@length _)) in M. rewrite !map_length in M. exact M.
Qed.
Lemma raised n s e : run n init s -> main s = Raised e -> serial fit rows = inr e /\ alive s = true.
Proof. intros R E. pose proof (inv_run _ _ _ R inv_init) as [L N S T K A M]. rewrite E in *. auto. Qed.
Lemma all_computed n s l k : run n init s -> main s = Returned l -> k < length rows ->
  exists r v, nth_error rows k = Some r /\ nth_error l k = Some v /\ fit r = inl v.
Proof.
  intros R E B. pose proof (inv_run _ _ _ R inv_init) as [_ _ _ _ _ _ M]. rewrite E in M.
  destruct (nth_error rows k) as [r|] eqn:Q; [|apply nth_error_None in Q; lia]. exists r.
  apply (f_equal (fun x => nth_error x k)) in M. rewrite (map_nth_error fit k rows Q) in M.
  rewrite nth_error_map in M. destruct (nth_error l k) as [v|]; [|discriminate M]. exists v. cbn in M. injection M as M. auto.
Qed.
End P.

(** serial on a list of rows, cut at the first failure *)
Lemma serial_first {Row Res Exn} (fit : Row -> Res + Exn) rows e :
  serial fit rows = inr e <-> exists k r, nth_error rows k = Some r /\ fit r = inr e /\
    forall j r', j < k -> nth_error rows j = Some r' -> exists v, fit r' = inl v.
Proof.
  induction rows as [|a l IH]; cbn.
  - split; [discriminate|]. intros ([|k] & r & H & _); discriminate H.
  - destruct (fit a) as [v|e'] eqn:F.
    + destruct (serial fit l) as [vs|e''] eqn:Q.
      * split; [discriminate|]. intros (k & r & H1 & H2 & H3). destruct k as [|k]; [cbn in H1; congruence|].
        enough (X : inl (B := Exn) vs = inr e) by discriminate X. apply IH. exists k, r. repeat split; auto.
        intros j r' J N. apply (H3 (S j) r'); [lia|exact N].
      * rewrite IH. split.
        -- intros (k & r & H1 & H2 & H3). exists (S k), r. repeat split; auto. intros [|j] r' J N; cbn in N; [injection N as <-; eauto|]. apply (H3 j r'); [lia|exact N].
        -- intros (k & r & H1 & H2 & H3). destruct k as [|k]; [cbn in H1; congruence|]. exists k, r. repeat split; auto.
           intros j r' J N. apply (H3 (S j) r'); [lia|exact N].
    + split.
      * intros X. injection X as ->. exists 0, a. repeat split; auto. intros j r' J; lia.
      * intros (k & r & H1 & H2 & H3). destruct k as [|k]; [cbn in H1; congruence|].
        destruct (H3 0 a ltac:(lia) eq_refl) as [v V]. congruence.
Qed.
