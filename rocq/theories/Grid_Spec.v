(* Gridding irregular points: what each cell should report. *)
From Verif Require Import Common Hist_Spec.

(** [lo, hi) split into n slabs; the cell (i,j,k) of a 3-D grid. *)
Definition in_grid_cell (ax ay az : nat * Qc * Qc) (i j k : nat) (p : Qc * Qc * Qc) : Prop :=
  let '(x, y, z) := p in
  in_cell [ax; ay; az] [i; j; k] [x; y; z].

(** Intensities (NaN ones skipped) of the points satisfying P. *)
Inductive collects (P : Qc * Qc * Qc -> Prop) : list (Qc * Qc * Qc * option Qc) -> list Qc -> Prop :=
| col_nil : collects P [] []
| col_in p v l vs : P p -> collects P l vs -> collects P ((p, Some v) :: l) (v :: vs)
| col_out p v l vs : ~ P p -> collects P l vs -> collects P ((p, v) :: l) vs
| col_nan p l vs : collects P l vs -> collects P ((p, None) :: l) vs.

Definition mean_of (vs : list Qc) : Qc := (qsum vs / qn (length vs))%Qc.
(** Square of the standard error: population variance over n. *)
Definition sem2_of (vs : list Qc) : Qc :=
  (qsum (map (fun v => (v - mean_of vs) * (v - mean_of vs)) vs) / qn (length vs) / qn (length vs))%Qc.

(** [kept keep i l r]: r are the rows of l (numbered from i) whose number is kept. *)
Inductive kept {A} (keep : nat -> bool) : nat -> list A -> list A -> Prop :=
| kept_nil i : kept keep i [] []
| kept_yes i x l r : keep i = true -> kept keep (S i) l r -> kept keep i (x :: l) (x :: r)
| kept_no i x l r : keep i = false -> kept keep (S i) l r -> kept keep i (x :: l) r.
