(* Cell selection in IEEE double arithmetic: the gridder of src/ctrans.c, the
   default bounds of skbeam/core/utils.py grid3d, and the histogram of
   skbeam/core/accumulators/histogram.pyx. *)
From Coq Require Import ZArith Reals List Bool.
From Verif Require Import F64.
Import ListNotations.
Open Scope Z_scope.

(** src/ctrans.c:474-476  pos_double[a] = (data_ptr[a] - grid_start[a]) / grid_len[a],
    with grid_len[a] = grid_stop[a] - grid_start[a] (421-423). *)
Definition grid_pos (x start stop : f64) : f64 := fdiv (fsub x start) (fsub stop start).

(** src/ctrans.c:478-480  (pos >= 0) && (pos < 1) on one axis. *)
Definition grid_accepts (pos : f64) : bool := fleb fzero pos && fltb pos fone.

(** src/ctrans.c:483-485  grid_pos[a] = (int)(pos_double[a] * n_grid[a]);
    the unsigned n_grid is converted to double first.  The C cast truncates
    toward zero; it is only defined when the result fits an int. *)
Definition grid_index (pos : f64) (n : Z) : Z := Btrunc (fmul pos (f64_of_Z n)).

(** src/ctrans.c:487-489  flat index in row-major order. *)
Definition grid_flat (n0 n1 n2 i0 i1 i2 : Z) : Z := i0 * (n1 * n2) + i1 * n2 + i2.

(** np.spacing (used at utils.py:915): distance to the next double away from
    zero, carrying the sign of x; for either zero the smallest positive double. *)
Definition np_spacing (x : f64) : f64 :=
  match x with
  | B754_zero _ => Bsucc fzero
  | _ => if Bsign x then fsub (Bpred x) x else fsub (Bsucc x) x
  end.

(** utils.py:910,915  qmax = np.max(q, axis=0); qmax += np.spacing(qmax). *)
Definition default_stop (qmax : f64) : f64 := fadd qmax (np_spacing qmax).

(** Whether the point x is counted on an axis whose bounds were defaulted from
    the smallest and largest coordinate. *)
Definition default_accepts (x qmin qmax : f64) : bool :=
  grid_accepts (grid_pos x qmin (default_stop qmax)).

(** histogram.pyx:92-93  binsize = (high - low) / nbin. *)
Definition hist_binsize (low high : f64) (nbin : Z) : f64 :=
  fdiv (fsub high low) (f64_of_Z nbin).

(** histogram.pyx:286-289 find_indices; -1 means "not in range". *)
Definition find_indices (pos low high : f64) (nbin : Z) : Z :=
  if fleb low pos && fltb pos high
  then Btrunc (fdiv (fsub pos low) (hist_binsize low high nbin))
  else -1.
