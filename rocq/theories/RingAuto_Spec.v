(* What finding rings one after the other means. *)
From Verif Require Import Common.
From Coq Require Import Permutation.
Local Open Scope list_scope.

(** the points with mark [b] *)
Inductive marked {A} (b : bool) : list A -> list bool -> list A -> Prop :=
| marked_nil : marked b [] [] []
| marked_yes a l m r : marked b l m r -> marked b (a :: l) (b :: m) (a :: r)
| marked_no a l m r : marked b l m r -> marked b (a :: l) (negb b :: m) r.
(** one round: the points offered, the circle fitted to them, its inliers and the points left *)
Record round := mkRound { offered : list (nat * nat); fitted : Qc * Qc * Qc; inliers : list (nat * nat); remaining : list (nat * nat) }.
Definition radius (r : round) : Qc := snd (fitted r).
(** the last ring through the pixel, counted from 1; 0 if there is none *)
Definition on_ring (rings : list (list (nat * nat))) (p : nat * nat) (n : nat) : Prop :=
  match n with
  | O => Forall (fun ring => ~ In p ring) rings
  | S k => exists ring, nth_error rings k = Some ring /\ In p ring /\ forall j ring', k < j -> nth_error rings j = Some ring' -> ~ In p ring'
  end.
(** the whole part of a number, cut towards zero *)
Definition whole (q : Qc) (z : Z) : Prop :=
  (0 <= q /\ qz z <= q /\ q < qz (z + 1) \/ q < 0 /\ qz (z - 1) < q /\ q <= qz z)%Qc.
Section Rounds.
Variables (ransac : nat -> list (nat * nat) -> option ((Qc * Qc * Qc) * list bool)) (perimeter : Z -> Z -> Z -> list (nat * nat)) (h w : nat).
(** one round of the loop, as far as the points go *)
Definition good_round (k : nat) (rd : round) : Prop :=
  exists m, ransac k (offered rd) = Some (fitted rd, m) /\ marked true (offered rd) m (inliers rd) /\ marked false (offered rd) m (remaining rd).
(** the rounds follow each other, from all points on *)
Fixpoint chained (pts : list (nat * nat)) (rds : list round) (last : list (nat * nat)) : Prop :=
  match rds with [] => last = pts | r :: t => offered r = pts /\ chained (remaining r) t last end.
(** the centre: whole parts of the centre of the first circle, x first *)
Definition center_of (c : Z * Z) (rds : list round) : Prop :=
  exists r, nth_error rds 0 = Some r /\ whole (fst (fst (fitted r))) (fst c) /\ whole (snd (fst (fitted r))) (snd c).
(** the pixels painted for a round: its radius about the centre [c] = (x, y); perimeter takes the row first *)
Definition drawn (c : Z * Z) (rd : round) (pixels : list (nat * nat)) : Prop := exists z, whole (radius rd) z /\ pixels = perimeter (snd c) (fst c) z.
(** the image returned: numbers of the rings over the grey values *)
Definition painted (image img : list Qc) (rings : list (list (nat * nat))) : Prop :=
  length img = length image /\ forall i j, i < h -> j < w -> exists n, on_ring rings (i, j) n /\
    nth_error img (i * w + j) = match n with O => nth_error image (i * w + j) | S _ => Some (qn n) end.

End Rounds.
