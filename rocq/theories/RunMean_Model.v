(* Model in binary64 arithmetic of the running averages of the correlator and of the photon statistics:
   /repo/skbeam/core/correlation.py 156, arr[t_index] += (binned / num_pixels - arr[t_index]) / normalize, where
   normalize is 1, 2, 3, ... for successive good pairs of images, and /repo/skbeam/core/speckle.py 285, with
   img_per_level - track_bad likewise.  The data are the numbers binned / num_pixels (spe_hist) as computed; the arrays
   start as zeros; the divisor, an integer, is converted to binary64. *)
From Coq Require Import List ZArith.
From Verif Require Import F64.
Import ListNotations.

(** one update with divisor k *)
Definition update (m : f64) (k : Z) (x : f64) : f64 := fadd m (fdiv (fsub x m) (f64_of_Z k)).
Fixpoint updates (m : f64) (k : Z) (data : list f64) : f64 :=
  match data with [] => m | x :: rest => updates (update m k x) (k + 1) rest end.
Definition running_mean (data : list f64) : f64 := updates fzero 1 data.
