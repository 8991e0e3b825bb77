(* What construct_circ_avg_image must do, said without the model. *)
From Coq Require Import Reals Sorted.
From Verif Require Import Common.
Local Open Scope R_scope.
Local Open Scope list_scope.
(** v lies on the straight line between two neighbouring samples around x, or is the value of the sample at x. *)
Definition on_line (radii vals : list R) (x v : R) : Prop :=
  (exists k, nth_error radii k = Some x /\ nth_error vals k = Some v) \/
  (exists k a b u w, nth_error radii k = Some a /\ nth_error radii (S k) = Some b /\ nth_error vals k = Some u /\ nth_error vals (S k) = Some w /\
     a < x < b /\ (v - u) * (b - a) = (w - u) * (x - a)).
(** r is the distance of pixel (i, j) from the centre. *)
Definition pixel_radius (center size : R * R) (i j : nat) (r : R) : Prop :=
  0 <= r /\ r * r = fst size * (INR i - fst center) * (fst size * (INR i - fst center)) + snd size * (INR j - snd center) * (snd size * (INR j - snd center)).
(** the value at distance r: the first sample's inside the first radius, 0 outside the last one *)
Definition profile (radii vals : list R) (r v : R) : Prop :=
  exists first final v0, nth_error radii 0 = Some first /\ nth_error radii (length radii - 1) = Some final /\ nth_error vals 0 = Some v0 /\
    (r < first -> v = v0) /\ (final < r -> v = 0) /\ (first <= r <= final -> on_line radii vals r v).
(** middle of the image *)
Definition middle (h w : nat) : R * R := ((INR h - 1) / 2, (INR w - 1) / 2).
(** m is the nearest number of pixels to the largest radius, halves rounded up *)
Definition reach (radii : list R) (size : R) (m : nat) : Prop := exists M, In M radii /\ (forall r, In r radii -> r <= M) /\ (INR m - 1 / 2) * size <= M < (INR m + 1 / 2) * size.
