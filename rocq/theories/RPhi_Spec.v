(* What construct_rphi_avg_image must do, said without the model. *)
From Coq Require Import Reals Sorted.
From Verif Require Import Common ImgCirc_Spec.
Local Open Scope R_scope.
Local Open Scope list_scope.

(** phi is the direction of pixel (i, j) from the centre, from +column towards +row; 0 at the centre *)
Definition direction (center size : R * R) (i j : nat) (phi : R) : Prop :=
  - PI < phi <= PI /\ exists r, pixel_radius center size i j r /\ snd size * (INR j - snd center) = r * cos phi /\ fst size * (INR i - fst center) = r * sin phi /\ (r = 0 -> phi = 0).
(** b follows the l-th measured angle a on the circle, and is measured in column l' *)
Definition follows (angles : list R) (l : nat) (a b : R) (l' : nat) : Prop :=
  nth_error angles l = Some a /\
  (nth_error angles (S l) = Some b /\ l' = S l \/ S l = length angles /\ l' = 0%nat /\ exists a0, nth_error angles 0 = Some a0 /\ b = a0 + 2 * PI).
(** v at radius r and direction phi blends the four surrounding measurements, whole turns apart; an unknown
    one makes it unknown *)
Definition blended (radii angles : list R) (meas : nat -> nat -> option R) (r phi : R) (v : option R) : Prop :=
  exists k r0 r1 l a b l' z, nth_error radii k = Some r0 /\ nth_error radii (S k) = Some r1 /\ r0 <= r <= r1 /\ follows angles l a b l' /\
    let t := phi + 2 * PI * IZR z in a <= t <= b /\
    match meas k l, meas k l', meas (S k) l, meas (S k) l' with
    | Some v00, Some v01, Some v10, Some v11 =>
        exists x, v = Some x /\ x * ((r1 - r0) * (b - a)) = v00 * (r1 - r) * (b - t) + v01 * (r1 - r) * (t - a) + v10 * (r - r0) * (b - t) + v11 * (r - r0) * (t - a)
    | _, _, _, _ => v = None
    end.
(** a set of angles the function can use: ascending, within less than one turn *)
Definition one_turn (angles : list R) : Prop := StronglySorted Rlt angles /\ exists a0 a1, nth_error angles 0 = Some a0 /\ nth_error angles (length angles - 1) = Some a1 /\ a1 < a0 + 2 * PI.
(** the measurement at radius k and angle l: nan where the mask is 0 *)
Definition seen (cols : nat) (data : list (option R)) (mask : option (list bool)) (k l : nat) : option R :=
  match mask with
  | Some m => if nth (k * cols + l) m false then nth (k * cols + l) data None else None
  | None => nth (k * cols + l) data None
  end.
