From Verif Require Import Common QcArith Utils_Model.

Lemma centers_length e : length (bin_edges_to_centers e) = length e - 1.
Proof.
  induction e as [|a e IH]; [reflexivity|]. destruct e as [|b r]; [reflexivity|].
  change (bin_edges_to_centers (a :: b :: r)) with (((a + b) * (qz 1 / qz 2))%Qc :: bin_edges_to_centers (b :: r)).
  cbn [length]. rewrite IH. cbn [length]. lia.
Qed.
Lemma centers_nth e : forall k a b, nth_error e k = Some a -> nth_error e (S k) = Some b ->
  exists c, nth_error (bin_edges_to_centers e) k = Some c /\ (c - a = b - c)%Qc.
Proof.
  induction e as [|x e IH]; intros [|k] a b Ha Hb; try discriminate.
  - cbn in Ha. apply some_inj in Ha. subst a. destruct e as [|y r]; [discriminate|]. cbn in Hb. apply some_inj in Hb. subst y.
    exists ((x + b) * (qz 1 / qz 2))%Qc. split; [reflexivity|].
    assert (E : (qz 1 / qz 2 + qz 1 / qz 2 = 1)%Qc) by (apply Qc_is_canon; reflexivity).
    assert (E2 : ((x + b) * (qz 1 / qz 2) + (x + b) * (qz 1 / qz 2) = x + b)%Qc).
    { transitivity ((x + b) * (qz 1 / qz 2 + qz 1 / qz 2))%Qc; [ring|]. rewrite E. ring. }
    set (c := ((x + b) * (qz 1 / qz 2))%Qc) in *.
    transitivity (c + c - c - x)%Qc; [ring|]. rewrite E2. ring.
  - destruct e as [|y r]; [discriminate|]. cbn [nth_error] in Ha, Hb.
    destruct (IH k a b Ha Hb) as [c [E H]]. exists c. split; [exact E|exact H].
Qed.
Lemma centers_inside e k a b : nth_error e k = Some a -> nth_error e (S k) = Some b -> (a < b)%Qc ->
  exists c, nth_error (bin_edges_to_centers e) k = Some c /\ (a < c)%Qc /\ (c < b)%Qc.
Proof.
  intros Ha Hb Hlt. destruct (centers_nth e k a b Ha Hb) as [c [E H]]. exists c. split; [exact E|]. split; qclra.
Qed.
Lemma pairwise_length {A} (l : list A) : length (pairwise l) = length l - 1.
Proof. unfold pairwise. rewrite combine_length. destruct l; [reflexivity|cbn [tl List.length]; lia]. Qed.
Lemma pairwise_nth {A} (l : list A) : forall k p,
  nth_error (pairwise l) k = Some p <-> nth_error l k = Some (fst p) /\ nth_error l (S k) = Some (snd p).
Proof.
  induction l as [|x l IH]; intros k [a b]; cbn [fst snd].
  - split; [destruct k; discriminate|]. intros [H _]. destruct k; discriminate.
  - destruct l as [|y r].
    + cbn. split; [destruct k; discriminate|]. intros [_ H]. destruct k; discriminate.
    + change (pairwise (x :: y :: r)) with ((x, y) :: pairwise (y :: r)). destruct k as [|k].
      * cbn. split; [intros E; injection E as -> ->; auto|intros [E1 E2]; congruence].
      * cbn [nth_error]. rewrite (IH k (a, b)). reflexivity.
Qed.
