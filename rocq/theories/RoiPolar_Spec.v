(* Polar position of a pixel, rings and segments, by their defining equations. *)
From Coq Require Import Reals.
From Verif Require Import Common.
Local Open Scope R_scope.
(** r is the distance of pixel (i, j) from the centre (row, column). *)
Definition is_radius (center : R * R) (i j : nat) (r : R) : Prop :=
  0 <= r /\ r * r = (INR j - snd center) * (INR j - snd center) + (INR i - fst center) * (INR i - fst center).
(** t is the angle of pixel (i, j), measured from the +column axis towards +row. *)
Definition is_angle (center : R * R) (i j : nat) (t : R) : Prop :=
  0 <= t < 2 * PI /\ exists r, is_radius center i j r /\ 0 < r /\
    INR j - snd center = r * cos t /\ INR i - fst center = r * sin t.
(** r lies in the k-th (counting from 0) half-open ring of the flat edge list. *)
Definition in_ring (edges : list R) (k : nat) (r : R) : Prop :=
  exists lo hi, nth_error edges (2 * k) = Some lo /\ nth_error edges (2 * k + 1) = Some hi /\ lo <= r < hi.
(** t lies in the k-th half-open segment between consecutive edges. *)
Definition in_segment (edges : list R) (k : nat) (t : R) : Prop :=
  exists lo hi, nth_error edges k = Some lo /\ nth_error edges (k + 1) = Some hi /\ lo <= t < hi.
Definition increasing (l : list R) : Prop :=
  forall k a b, nth_error l k = Some a -> nth_error l (k + 1) = Some b -> a <= b.
(** The angle of any pixel; 0 at the centre itself. *)
Definition angle_of (center : R * R) (i j : nat) (t : R) : Prop :=
  is_angle center i j t \/ (is_radius center i j 0 /\ t = 0).
(** t lies in the k-th of n equal sectors counted from the offset angle. *)
Definition in_sector (n : nat) (off : R) (k : nat) (t : R) : Prop :=
  (k < n)%nat /\ 2 * PI * INR k / INR n + off <= t < 2 * PI * INR (k + 1) / INR n + off.
(** The edges of the segments: a given list turned by the offset, or n + 1 equally spaced angles. *)
Definition turned (l : list R) (off : R) (segs : list R) : Prop :=
  length segs = length l /\ forall k a, nth_error l k = Some a -> nth_error segs k = Some (a + off).
Definition equally_spaced (n : nat) (off : R) (segs : list R) : Prop :=
  length segs = S n /\ forall k, (k <= n)%nat -> nth_error segs k = Some (2 * PI * INR k / INR n + off).
(** Segment edges may also fall. *)
Definition falling (l : list R) : Prop :=
  forall k a b, nth_error l k = Some a -> nth_error l (k + 1) = Some b -> b <= a.
Definition in_falling_segment (edges : list R) (k : nat) (t : R) : Prop :=
  exists hi lo, nth_error edges k = Some hi /\ nth_error edges (k + 1) = Some lo /\ lo <= t < hi.
