(* C105: automatic search for rings. *)
From Verif Require Import Common QcArith Utils_Model RingAuto_Model RingAuto_Spec RingAuto_Proofs.
From Coq Require Import Permutation.
Local Open Scope list_scope.

(** C105: every ring is fitted to the edge points, as (x, y), that are not inliers of an earlier ring; the radii are those of
    the circles in this order, the centre is the whole part of that of the first circle, and the image is the grey image with
    the numbers 1, 2, ... of the rings painted over it, all of them about that centre. *)
Theorem C105_rings ransac perimeter h w image edges n c img radii :
  auto_find_center_rings ransac perimeter h w image edges n = Some (c, img, radii) ->
  exists rounds rings left, length rounds = n /\ 0 < n /\ (forall k rd, nth_error rounds k = Some rd -> good_round ransac k rd) /\
    chained (map (fun p => (snd p, fst p)) edges) rounds left /\ Permutation (map (fun p => (snd p, fst p)) edges) (concat (map inliers rounds) ++ left) /\
    radii = map radius rounds /\ center_of c rounds /\ Forall2 (drawn perimeter c) rounds rings /\ painted h w image img rings.
Proof. exact (auto_sound ransac perimeter h w image edges n c img radii). Qed.
Print Assumptions C105_rings.
(** it succeeds if all fits do *)
Theorem C105_succeeds ransac perimeter h w image edges n : length image = h * w -> 0 < n ->
  (forall k pts, k < n -> exists c m, ransac k pts = Some (c, m) /\ length m = length pts) ->
  (forall y x r p, In p (perimeter y x r) -> fst p < h /\ snd p < w) ->
  exists c img radii, auto_find_center_rings ransac perimeter h w image edges n = Some (c, img, radii).
Proof. exact (auto_complete ransac perimeter h w image edges n). Qed.
Print Assumptions C105_succeeds.
(** and raises when no ring is asked for or the first fit fails *)
Theorem C105_raises ransac perimeter h w image edges n : n = 0 \/ ransac 0 (map (fun p => (snd p, fst p)) edges) = None ->
  auto_find_center_rings ransac perimeter h w image edges n = None.
Proof. exact (auto_fails ransac perimeter h w image edges n). Qed.
Print Assumptions C105_raises.
(** the centres of the later circles have no influence: rings about another centre are painted in the wrong place *)
Theorem C105_later_centres_refuted ransac ransac' perimeter h w image edges n :
  (forall pts, ransac 0 pts = ransac' 0 pts) ->
  (forall k pts, 0 < k -> match ransac k pts, ransac' k pts with
                          | Some ((_, _, r), m), Some ((_, _, r'), m') => r = r' /\ m = m'
                          | None, None => True | _, _ => False end) ->
  auto_find_center_rings ransac perimeter h w image edges n = auto_find_center_rings ransac' perimeter h w image edges n.
Proof. exact (later_centers ransac ransac' perimeter h w image edges n). Qed.
Print Assumptions C105_later_centres_refuted.
Lemma nth_repeat_q n k : k < n -> nth k (repeat 1%Qc n) 0%Qc = qn 1.
Proof. intros H. change (qn 1) with 1%Qc. revert k H. induction n as [|n IH]; intros [|k] H; cbn; try lia; [reflexivity|]. apply IH. lia. Qed.
(** the image is not that of "indices of pixels that belong to the rings": from a white image comes a white image, wherever the ring is *)
Theorem C105_image_refuted ransac perimeter h w edges c img radii :
  auto_find_center_rings ransac perimeter h w (repeat 1%Qc (h * w)) edges 1 = Some (c, img, radii) -> img = repeat 1%Qc (h * w).
Proof.
  intros H. destruct (C105_rings _ _ _ _ _ _ _ _ _ _ H) as (rds & rings & left & L & _ & _ & _ & _ & _ & _ & F2 & LI & P).
  assert (LR : length rings = 1) by (clear - F2 L; revert rings F2; destruct rds as [|a [|b t]]; try discriminate L; intros rings F2; inversion F2 as [|? ? ? ? _ F3]; subst; inversion F3; reflexivity).
  apply nth_error_ext. intros k. destruct (Nat.lt_ge_cases k (h * w)) as [Hk|Hk].
  - assert (W : w <> 0) by (intros ->; lia).
    destruct (P (k / w) (k mod w)) as (n & O & V); [apply Nat.div_lt_upper_bound; lia|apply Nat.mod_upper_bound; exact W|].
    replace (k / w * w + k mod w) with k in V by (rewrite (Nat.mul_comm (k / w)); apply Nat.div_mod; exact W). rewrite V. destruct n as [|n]; [reflexivity|].
    destruct O as (ring & R & _). assert (n < length rings) by (apply nth_error_Some; congruence). assert (n = 0) by lia. subst n.
    symmetry. rewrite (nth_error_nth' _ 0%Qc) by (rewrite repeat_length; exact Hk). f_equal. apply nth_repeat_q. exact Hk.
  - rewrite (proj2 (nth_error_None img k)) by (rewrite LI, repeat_length; exact Hk). symmetry. apply nth_error_None. rewrite repeat_length. exact Hk.
Qed.
Print Assumptions C105_image_refuted.

(** two rings in a 3x3 image; the circle of radius r through the pixel r columns right of the centre *)
Definition ex_ransac (k : nat) (pts : list (nat * nat)) : option (circle * list bool) :=
  match k with
  | 0 => Some ((qz 5 / qz 4, qz 1 / qz 2, qz 1)%Qc, map (fun p => fst p =? 2) pts)
  | _ => Some ((qz 0, qz 2, qz 3 / qz 2)%Qc, map (fun _ => true) pts)
  end.
Definition ex_perimeter (y x r : Z) : list (nat * nat) :=
  filter (fun p => (fst p <? 3) && (snd p <? 3)) [(Z.to_nat y, Z.to_nat (x + r)); (Z.to_nat (y + r), Z.to_nat x)].
Example C105_ex1 : exists img, auto_find_center_rings ex_ransac ex_perimeter 3 3 (map qz [5; 5; 5; 5; 5; 5; 5; 5; 5]%Z) [(0, 2); (1, 0)] 2 =
  Some ((1, 0)%Z, img, [qz 1; qz 3 / qz 2])%Qc /\ map this img = [5; 5; 2; 5; 2; 5; 5; 5; 5]%Q.
Proof. eexists. split; vm_compute; reflexivity. Qed.
Example C105_ex2 : exists img c r, auto_find_center_rings ex_ransac ex_perimeter 3 3 (repeat 1%Qc 9) [(0, 2); (1, 0)] 1 = Some (c, img, r) /\ img = repeat 1%Qc 9.
Proof.
  destruct (C105_succeeds ex_ransac ex_perimeter 3 3 (repeat 1%Qc 9) [(0, 2); (1, 0)] 1) as (c & img & r & E); [reflexivity|lia| | |].
  - intros [|k] pts _; eexists; eexists; (split; [reflexivity|apply map_length]).
  - intros y x r p H. apply filter_In in H. lia.
  - exists img, c, r. split; [exact E|]. exact (C105_image_refuted _ _ _ _ _ _ _ _ E).
Qed.
