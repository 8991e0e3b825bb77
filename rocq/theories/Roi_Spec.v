(* What region-of-interest label arrays should contain. *)
From Verif Require Import Common.

(** Pixel (i, j) lies in the rectangle with corner (x, y), extent wd along axis 0
    and ht along axis 1. *)
Definition in_rect (r : Z * Z * Z * Z) (i j : nat) : Prop :=
  let '(x, y, wd, ht) := r in
  (x <= Z.of_nat i < x + wd)%Z /\ (y <= Z.of_nat j < y + ht)%Z.
(** The rectangle does not end before the first row or column. *)
Definition reaches_image (r : Z * Z * Z * Z) : Prop :=
  let '(x, y, wd, ht) := r in (0 <= x + wd)%Z /\ (0 <= y + ht)%Z.
(** k is the right label of a pixel: 0 if it is in no shape, k if in the k-th. *)
Definition right_label {S} (inside : S -> Prop) (shapes : list S) (k : nat) : Prop :=
  (k = 0 /\ forall s, In s shapes -> ~ inside s) \/
  (exists s, k <> 0 /\ nth_error shapes (k - 1) = Some s /\ inside s).
(** Two different shapes of the list share something. *)
Definition overlapping {S} (both : S -> S -> Prop) (shapes : list S) : Prop :=
  exists a b s t, a < b /\ nth_error shapes a = Some s /\ nth_error shapes b = Some t /\ both s t.

(** The flat edge list as intervals [lo, hi). *)
Fixpoint intervals {A} (edges : list A) : list (A * A) :=
  match edges with lo :: hi :: r => (lo, hi) :: intervals r | _ => [] end.

(** Consecutive rings: widths and gaps as requested. *)
Fixpoint rings_from (r0 : Qc) (widths spacings : list Qc) (out : list (Qc * Qc)) : Prop :=
  match widths, out with
  | [], [] => True
  | w :: ws, (a, b) :: os =>
      a = r0 /\ (b - a = w)%Qc /\
      match spacings with
      | [] => ws = [] /\ os = []
      | s :: ss => rings_from (b + s)%Qc ws ss os
      end
  | _, _ => False
  end.

(** Sub-list of the entries whose position satisfies P, in order. *)
Inductive picked {A} (P : nat -> Prop) : nat -> list A -> list A -> Prop :=
| picked_nil i : picked P i [] []
| picked_yes i x l r : P i -> picked P (S i) l r -> picked P i (x :: l) (x :: r)
| picked_no i x l r : ~ P i -> picked P (S i) l r -> picked P i (x :: l) r.

(** m is the largest of the list and 0. *)
Definition is_max0 (m : Qc) (l : list Qc) : Prop :=
  (0 <= m)%Qc /\ (forall x, In x l -> (x <= m)%Qc) /\ (m = 0%Qc \/ In m l).

(** The mean of the pixels labelled n; None (NaN) when there are none. *)
Definition mean_is (labels : list Z) (img : list Qc) (n : Z) (r : option Qc) : Prop :=
  exists vs, picked (fun p => nth_error labels p = Some n) 0 img vs /\
    r = match vs with [] => None | _ => Some (qsum vs / qn (length vs))%Qc end.
(** Edges that never step down; a value in a half-open interval. *)
Definition nondecreasing (l : list Qc) : Prop :=
  forall k a b, nth_error l k = Some a -> nth_error l (k + 1) = Some b -> (a <= b)%Qc.
Definition half_open (x : Qc) (iv : Qc * Qc) : Prop := (fst iv <= x)%Qc /\ (x < snd iv)%Qc.
(** The value that decides the label of pixel (i, j) of a bar. *)
Definition bar_value (w : nat) (horizontal : bool) (values : option (list Qc)) (i j : nat) : option Qc :=
  if horizontal then match values with Some v => nth_error v (i * w + j) | None => Some (qn i) end
  else Some (qn j).
