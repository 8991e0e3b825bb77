(* Accumulating a list of (index, value) updates into an array.  Nothing here
   models a particular function of /repo. *)
From Verif Require Import Common Sums.
From Coq Require Import Permutation.

(** data[i] += v, [None] when the index is out of bounds. *)
Definition add_at (l : list Qc) (i : nat) (v : Qc) : option (list Qc) :=
  x <- nth_error l i ;; upd l i (x + v)%Qc.

Definition hits (c : nat) (ws : list (nat * Qc)) : list Qc :=
  map snd (filter (fun p => fst p =? c) ws).
Definition scatter (ws : list (nat * Qc)) (l : list Qc) : option (list Qc) :=
  foldM (fun s p => add_at s (fst p) (snd p)) ws l.

Lemma add_at_ok l i v : i < length l -> exists l', add_at l i v = Some l' /\
  length l' = length l /\ forall c, nth c l' 0%Qc = (nth c l 0 + (if i =? c then v else 0))%Qc.
Proof.
  intros Hi. unfold add_at. rewrite (nth_error_nth_lt l i 0%Qc Hi). cbn.
  destruct (upd_some l i (nth i l 0 + v)%Qc Hi) as [l' E]. rewrite E. exists l'.
  split; [reflexivity|]. split; [eapply upd_length; eauto|]. intros c.
  destruct (Nat.eqb_spec i c) as [<-|Hne].
  - pose proof (upd_nth_eq _ _ _ _ E) as H. apply nth_error_nth with (d := 0%Qc) in H. rewrite H. reflexivity.
  - pose proof (upd_nth_ne _ _ c _ _ E ltac:(lia)) as H.
    assert (Hn : nth c l' 0%Qc = nth c l 0%Qc).
    { destruct (nth_error l c) as [x|] eqn:Ex.
      - rewrite (nth_error_nth _ _ 0%Qc Ex), (nth_error_nth _ _ 0%Qc H). reflexivity.
      - apply nth_error_None in Ex. pose proof (proj1 (nth_error_None _ _) H).
        rewrite !nth_overflow by lia. reflexivity. }
    rewrite Hn. ring.
Qed.
Lemma add_at_none l i v : length l <= i -> add_at l i v = None.
Proof. intros H. unfold add_at. rewrite (proj2 (nth_error_None l i) H). reflexivity. Qed.

Lemma scatter_ok ws : forall l, (forall p, In p ws -> fst p < length l) ->
  exists l', scatter ws l = Some l' /\ length l' = length l /\
    forall c, nth c l' 0%Qc = (nth c l 0 + qsum (hits c ws))%Qc.
Proof.
  induction ws as [|[i v] ws IH]; intros l H.
  - exists l. repeat split. intros c. cbn. ring.
  - destruct (add_at_ok l i v) as [l1 [E1 [L1 N1]]]; [exact (H _ (or_introl eq_refl))|].
    destruct (IH l1) as [l2 [E2 [L2 N2]]].
    { intros p Hp. rewrite L1. apply H. right. exact Hp. }
    exists l2. unfold scatter in *. cbn [foldM fst snd]. rewrite E1. cbn [bind]. split; [exact E2|].
    split; [congruence|]. intros c. rewrite N2, N1. unfold hits. cbn [filter fst].
    destruct (i =? c); cbn [map snd qsum]; ring.
Qed.
Lemma hits_app c a b : hits c (a ++ b) = hits c a ++ hits c b.
Proof. unfold hits. rewrite filter_app, map_app. reflexivity. Qed.
Lemma Permutation_filter' {A} (f : A -> bool) a b : Permutation a b -> Permutation (filter f a) (filter f b).
Proof.
  induction 1 as [|x a b _ IH|x y a|a b c _ IH1 _ IH2]; cbn; auto.
  - destruct (f x); auto.
  - destruct (f x), (f y); auto. constructor.
  - eapply perm_trans; eauto.
Qed.
Lemma hits_perm c a b : Permutation a b -> Permutation (hits c a) (hits c b).
Proof. intros H. unfold hits. apply Permutation_map, Permutation_filter'. exact H. Qed.
