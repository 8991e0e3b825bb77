From Coq Require Import Reals.
From Verif Require Import Common OneErr_Model OneErr_Spec.
From Coq Require Import Lra.
Local Open Scope R_scope.

Lemma keep_numbers l : keep l = the_numbers l.
Proof. unfold keep. induction l as [|[x|] l IH]; cbn; congruence. Qed.
Lemma rsum_total l : rsum l = total l.
Proof. induction l as [|x l IH]; cbn; [reflexivity|]. unfold rsum in IH. rewrite IH. reflexivity. Qed.
Lemma INR_pos n : n <> 0%nat -> 0 < INR n.
Proof. intros H. apply lt_0_INR. lia. Qed.
Lemma mean_unique l m m' : l <> [] -> is_mean l m -> is_mean l m' -> m = m'.
Proof.
  unfold is_mean. intros Hl H H'. assert (P : 0 < INR (length l)) by (apply INR_pos; destruct l; [congruence|discriminate]).
  apply (Rmult_eq_reg_l (INR (length l))); lra.
Qed.
Lemma nanmean_ok d : match nanmean d with Some m => the_numbers d <> [] /\ is_mean (the_numbers d) m | None => the_numbers d = [] end.
Proof.
  unfold nanmean. rewrite keep_numbers. destruct (the_numbers d) as [|x xs]; [reflexivity|]. split; [discriminate|]. unfold is_mean. rewrite <- rsum_total.
  field. apply Rgt_not_eq, INR_pos. discriminate.
Qed.
Lemma scatter_nonneg l m : 0 <= scatter l m.
Proof. unfold scatter. induction l as [|x l IH]; cbn; [lra|]. pose proof (Rle_0_sqr (x - m)) as Q. unfold Rsqr in Q. lra. Qed.
Lemma scatter_zero l m : scatter l m = 0 <-> forall x, In x l -> x = m.
Proof.
  induction l as [|x l IH]; cbn; [split; [intros _ ? []|reflexivity]|]. unfold scatter in *. cbn. pose proof (Rle_0_sqr (x - m)) as Q. unfold Rsqr in Q.
  pose proof (scatter_nonneg l m) as N. unfold scatter in N. split.
  - intros E y [<-|I].
    + assert (S : (x - m) * (x - m) = 0) by lra. apply Rmult_integral in S. lra.
    + apply IH; [lra|exact I].
  - intros H. rewrite (H x (or_introl eq_refl)). rewrite (proj2 IH); [lra|]. intros y I. apply H. right. exact I.
Qed.
Lemma mean_equal l m : l <> [] -> is_mean l m -> (all_equal l <-> forall x, In x l -> x = m).
Proof.
  intros Hl Hm. split; [|intros H x y Ix Iy; rewrite (H x Ix), (H y Iy); reflexivity]. intros A. destruct l as [|x0 l]; [congruence|].
  assert (E : forall y, In y (x0 :: l) -> y = x0) by (intros y I; apply (A y x0 I); left; reflexivity).
  assert (T : is_mean (x0 :: l) x0).
  { unfold is_mean. clear - E. remember (x0 :: l) as k. clear Heqk. induction k as [|a k IH]; [cbn; lra|]. cbn [total length]. rewrite IH by (intros; apply E; right; assumption).
    rewrite (E a (or_introl eq_refl)), S_INR. ring. }
  rewrite (mean_unique _ _ _ Hl Hm T). exact E.
Qed.
(** the error bar of a list *)
Lemma error_ok d : match diag_error d with
  | Some e => the_numbers d <> [] /\ 0 <= e /\ exists m, is_mean (the_numbers d) m /\ e * e * (INR (length (the_numbers d)) * INR (length d)) = scatter (the_numbers d) m
  | None => the_numbers d = []
  end.
Proof.
  unfold diag_error, nanstd, nanvar. pose proof (nanmean_ok d) as H. destruct (nanmean d) as [m|]; cbn [bind option_map]; [|exact H]. destruct H as [Hn Hm].
  split; [exact Hn|]. rewrite keep_numbers, rsum_total. set (n := length (the_numbers d)).
  assert (Pn : 0 < INR n) by (apply INR_pos; unfold n; destruct (the_numbers d); [congruence|discriminate]).
  assert (Pl : 0 < INR (length d)) by (apply INR_pos; destruct d; [exfalso; apply Hn; reflexivity|discriminate]).
  pose proof (sqrt_lt_R0 _ Pl) as Ps. pose proof (scatter_nonneg (the_numbers d) m) as Sn. unfold scatter in Sn.
  set (S := total (map (fun x => (x - m) * (x - m)) (the_numbers d))) in *. assert (Nv : 0 <= S / INR n) by (apply Rmult_le_pos; [exact Sn|left; apply Rinv_0_lt_compat, Pn]).
  split; [apply Rmult_le_pos; [apply sqrt_pos|left; apply Rinv_0_lt_compat, Ps]|]. exists m. split; [exact Hm|]. unfold scatter. fold S.
  pose proof (sqrt_sqrt (S / INR n) Nv) as E1. pose proof (sqrt_sqrt (INR (length d)) (Rlt_le _ _ Pl)) as E2.
  replace (sqrt (S / INR n) / sqrt (INR (length d)) * (sqrt (S / INR n) / sqrt (INR (length d))))
     with ((sqrt (S / INR n) * sqrt (S / INR n)) / (sqrt (INR (length d)) * sqrt (INR (length d)))) by (field; lra).
  rewrite E1, E2. field. lra.
Qed.
Lemma diagonal_ok g j : (forall row, In row g -> length row = length g) -> (j < length g)%nat -> is_diagonal g j (diagonal g j).
Proof.
  intros Hs Hj. unfold is_diagonal, diagonal. rewrite map_length, seq_length. split; [lia|]. intros a Ha. destruct (nth_error g a) as [row|] eqn:E.
  - exists row. split; [reflexivity|]. rewrite nth_error_map, nth_error_seq by lia. cbn [option_map]. rewrite Nat.add_0_l, E.
    destruct (nth_error row (a + j)) eqn:F; [reflexivity|]. apply nth_error_None in F. rewrite (Hs row (nth_error_In _ _ E)) in F. lia.
  - apply nth_error_None in E. lia.
Qed.
Lemma diagonal_unique g j d d' : is_diagonal g j d -> is_diagonal g j d' -> d = d'.
Proof.
  intros [L H] [L' H']. assert (E : length d = length d') by lia. apply nth_error_ext. intros a. destruct (Nat.lt_ge_cases a (length d)) as [B|B].
  - destruct (H a B) as (r & E1 & E2). destruct (H' a ltac:(lia)) as (r' & E1' & E2'). congruence.
  - rewrite (proj2 (nth_error_None d a)), (proj2 (nth_error_None d' a)) by lia. reflexivity.
Qed.
Section Stack.
Context (stack : list (list (list (option R)))) (q : nat) (g : list (list (option R))).
Hypothesis Hq : nth_error stack q = Some g.
Hypothesis Hs : forall row, In row g -> length row = length g.
Lemma out_at j d : (j < length g)%nat -> is_diagonal g j d -> exists row err,
  nth_error (fst (one_time_with_errors stack)) q = Some row /\ nth_error (snd (one_time_with_errors stack)) q = Some err /\
  nth_error row j = Some (nanmean d) /\ nth_error err j = Some (diag_error d).
Proof.
  intros Hj Hd. rewrite (diagonal_unique g j _ _ Hd (diagonal_ok g j Hs Hj)). unfold one_time_with_errors. cbn [fst snd]. rewrite !nth_error_map, Hq. cbn [option_map].
  do 2 eexists. split; [reflexivity|]. split; [reflexivity|]. rewrite !nth_error_map, nth_error_seq by exact Hj. split; reflexivity.
Qed.
End Stack.
Lemma se_compare l len m e s : l <> [] -> (length l <= len)%nat -> is_mean l m -> 0 <= e -> e * e * (INR (length l) * INR len) = scatter l m -> standard_error l s ->
  e * e * INR len = s * s * INR (length l) /\ e <= s /\ (e < s <-> (length l < len)%nat /\ ~ all_equal l).
Proof.
  intros Hl Hn Hm He Ee (Hs & m' & Hm' & Es). rewrite (mean_unique l m' m Hl Hm' Hm) in Es. assert (Pn : 0 < INR (length l)) by (apply INR_pos; destruct l; [congruence|discriminate]).
  apply le_INR in Hn as Hr. assert (Q : e * e * INR len = s * s * INR (length l)).
  { apply (Rmult_eq_reg_l (INR (length l))); [|lra]. rewrite <- Rmult_assoc in Es, Ee |- *. lra. }
  split; [exact Q|]. assert (LE : e <= s).
  { destruct (Rle_lt_dec e s) as [K|K]; [exact K|exfalso]. assert (s * s < e * e) by nra. assert (s * s * INR (length l) < e * e * INR (length l)) by (apply Rmult_lt_compat_r; assumption).
    assert (0 <= e * e) by nra. assert (e * e * INR (length l) <= e * e * INR len) by (apply Rmult_le_compat_l; assumption). lra. }
  split; [exact LE|]. split.
  - intros K. split.
    + destruct (Nat.eq_dec (length l) len) as [E|]; [|lia]. rewrite E in Q. rewrite E in Pn. apply Rmult_eq_reg_r in Q; [|lra]. exfalso. nra.
    + intros A. pose proof (proj2 (scatter_zero l m) (proj1 (mean_equal l m Hl Hm) A)) as Z. rewrite Z in Es. assert (s = 0); [|lra].
      assert (s * s = 0) by (apply (Rmult_eq_reg_r (INR (length l) * INR (length l))); nra). nra.
  - intros [K A]. destruct (Rlt_le_dec e s) as [|K']; [assumption|exfalso]. assert (e = s) by lra. subst s. apply lt_INR in K.
    assert (e * e = 0) by nra. apply A. apply (mean_equal l m Hl Hm), scatter_zero. rewrite <- Ee. rewrite H. ring.
Qed.
(** affine changes *)
Definition affine (a b : R) (l : list (option R)) : list (option R) := map (option_map (fun x => a * x + b)) l.
Lemma affine_numbers a b l : the_numbers (affine a b l) = map (fun x => a * x + b) (the_numbers l).
Proof. induction l as [|[x|] l IH]; cbn; [reflexivity| |exact IH]. f_equal. exact IH. Qed.
Lemma affine_mean a b l m : is_mean l m -> is_mean (map (fun x => a * x + b) l) (a * m + b).
Proof.
  unfold is_mean. rewrite map_length. intros H. assert (T : total (map (fun x => a * x + b) l) = a * total l + INR (length l) * b).
  { clear. induction l as [|x l IH]; [cbn; ring|]. cbn [map total length]. rewrite IH, S_INR. ring. }
  rewrite T, H. ring.
Qed.
Lemma affine_scatter a b l m : scatter (map (fun x => a * x + b) l) (a * m + b) = a * a * scatter l m.
Proof. unfold scatter. induction l as [|x l IH]; [cbn; ring|]. cbn [map total]. rewrite IH. ring. Qed.
Lemma affine_error a b d : diag_error (affine a b d) = option_map (Rmult (Rabs a)) (diag_error d).
Proof.
  pose proof (error_ok d) as H. pose proof (error_ok (affine a b d)) as H'. assert (L : length (affine a b d) = length d) by apply map_length. rewrite affine_numbers, L in H'.
  destruct (diag_error d) as [e|], (diag_error (affine a b d)) as [e'|]; cbn [option_map].
  - destruct H as (N & P & m & Hm & E). destruct H' as (N' & P' & m' & Hm' & E'). rewrite map_length in E'.
    rewrite (mean_unique _ _ _ N' Hm' (affine_mean a b _ _ Hm)), affine_scatter, <- E in E'. f_equal.
    assert (P1 : 0 < INR (length (the_numbers d))) by (apply INR_pos; destruct (the_numbers d); [congruence|discriminate]).
    assert (P2 : 0 < INR (length d)) by (apply INR_pos; destruct d; [exfalso; apply N; reflexivity|discriminate]).
    assert (Q : e' * e' = (Rabs a * e) * (Rabs a * e)).
    { replace (Rabs a * e * (Rabs a * e)) with ((Rabs a * Rabs a) * (e * e)) by ring. replace (Rabs a * Rabs a) with (a * a) by (unfold Rabs; destruct (Rcase_abs a); ring).
      apply (Rmult_eq_reg_r (INR (length (the_numbers d)) * INR (length d))); [|apply Rgt_not_eq, Rmult_lt_0_compat; assumption]. lra. }
    apply Rsqr_inj; [exact P'|apply Rmult_le_pos; [apply Rabs_pos|exact P]|exact Q].
  - destruct H as (N & _). apply map_eq_nil in H'. congruence.
  - destruct H' as (N & _). rewrite H in N. cbn in N. congruence.
  - reflexivity.
Qed.
