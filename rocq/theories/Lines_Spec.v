(* What drawing labelled lines means. *)
From Verif Require Import Common.
Local Open Scope list_scope.
Local Open Scope Z_scope.

Definition adjacent (p q : Z * Z) : Prop := Z.max (Z.abs (fst q - fst p)) (Z.abs (snd q - snd p)) = 1.
(** a pixel at most half a pixel away from the straight line through p and q, measured across the longer direction *)
Definition near (p q x : Z * Z) : Prop :=
  2 * Z.abs ((fst x - fst p) * (snd q - snd p) - (snd x - snd p) * (fst q - fst p)) <= Z.max (Z.abs (fst q - fst p)) (Z.abs (snd q - snd p)).
Definition between (p q x : Z * Z) : Prop :=
  Z.min (fst p) (fst q) <= fst x <= Z.max (fst p) (fst q) /\ Z.min (snd p) (snd q) <= snd x <= Z.max (snd p) (snd q).
(** a connected chain of pixels from p to q along the line *)
Definition traces (p q : Z * Z) (pts : list (Z * Z)) : Prop :=
  nth_error pts 0 = Some p /\ nth_error pts (length pts - 1) = Some q /\
  Z.of_nat (length pts) = Z.max (Z.abs (fst q - fst p)) (Z.abs (snd q - snd p)) + 1 /\
  (forall k a b, nth_error pts k = Some a -> nth_error pts (S k) = Some b -> adjacent a b) /\
  Forall (near p q) pts /\ Forall (between p q) pts.
(** the number of the last chain through the pixel, counted from 1; 0 if there is none *)
Definition labelled (chains : list (list (Z * Z))) (x : Z * Z) (n : nat) : Prop :=
  match n with
  | O => Forall (fun pts => ~ In x pts) chains
  | S k => exists pts, nth_error chains k = Some pts /\ In x pts /\
           forall j pts', (k < j)%nat -> nth_error chains j = Some pts' -> ~ In x pts'
  end.
(** a line (start, end); its end points as passed; the ends after clamping; negative coordinates counted from the far side *)
Definition ends (s : Z * Z * (Z * Z)) : list Z := let '((x0, y0), (x1, y1)) := s in [x0; y0; x1; y1].
Definition start_of (s : Z * Z * (Z * Z)) : Z * Z := let '((x0, y0), _) := s in (Z.max x0 0, Z.max y0 0).
Definition stop_of (h w : Z) (s : Z * Z * (Z * Z)) : Z * Z := let '(_, (x1, y1)) := s in (Z.min x1 (h - 1), Z.min y1 (w - 1)).
Definition clear_line (h w : Z) (s : Z * Z * (Z * Z)) : Prop :=
  let '((x0, y0), (x1, y1)) := s in x0 < h /\ y0 < w /\ 0 <= x1 /\ 0 <= y1.
Definition wrapped (n i : Z) : Z := if i <? 0 then n + i else i.
