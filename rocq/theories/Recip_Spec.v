(* What C41, C42 and C76 mean. *)
From Coq Require Import Reals List Lia.
Import ListNotations.
Local Open Scope R_scope.
Notation vec := (R * R * R)%type.
Definition vx (v : vec) : R := fst (fst v). Definition vy (v : vec) : R := snd (fst v). Definition vz (v : vec) : R := snd v.
Definition inner (a b : vec) : R := vx a * vx b + vy a * vy b + vz a * vz b.
Definition len (v : vec) : R := sqrt (inner v v).
Definition minus (a b : vec) : vec := (vx a - vx b, vy a - vy b, vz a - vz b).
Definition times (k : R) (a : vec) : vec := (k * vx a, k * vy a, k * vz a).
(** Directions of the outgoing and the incoming beam in the theta frame. *)
Definition kf_dir (del gam theta : R) : vec := (- sin gam, cos (del - theta) * cos gam, sin (del - theta) * cos gam).
Definition ki_dir (mu theta : R) : vec := (sin mu, cos theta * cos mu, - sin theta * cos mu).
(** Rotations about the y and the x axis. *)
Definition rot_y (t : R) (v : vec) : vec := (cos t * vx v - sin t * vz v, vy v, sin t * vx v + cos t * vz v).
Definition rot_x (t : R) (v : vec) : vec := (vx v, cos t * vy v + sin t * vz v, - sin t * vy v + cos t * vz v).
(** A 3 x 3 matrix as nine numbers, row by row, applied to a vector. *)
Definition apply9 (m : list R) (v : vec) : vec :=
  match m with
  | [a; b; c; d; e; f; g; h; i] => (inner (a, b, c) v, inner (d, e, f) v, inner (g, h, i) v)
  | _ => v
  end.
(** the axes in the order the UB matrix uses *)
Definition to_ub (v : vec) : vec := (vz v, vy v, - vx v).
(** The value at a pixel: the six angles in the documented order. *)
Definition q_value (mode : nat) (del theta chi phi mu gam : R) (lambda : R) (ubinv : list R) : vec :=
  let q := times (2 * PI / lambda) (minus (kf_dir del gam theta) (ki_dir mu theta)) in
  match mode with
  | 1%nat => q
  | 4%nat => apply9 ubinv (to_ub (rot_x phi (rot_y chi q)))
  | _ => rot_x phi (rot_y chi q)
  end.
