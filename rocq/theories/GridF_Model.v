(* One cell of the gridder in binary64 arithmetic: /repo/src/ctrans.c c_grid3d, 490-540, and the mean of
   /repo/skbeam/core/utils.py grid3d, 939.  [chunks] holds, thread by thread, the intensities falling into the cell in
   the order of the data; which points those are is the subject of FloatIndex_Model and Grid_Model.  pow(x, 2) is taken
   as x * x and pow(x, 0.5) as the rounded square root; counts stay below 2^53, so their conversion is exact. *)
From Coq Require Import List ZArith.
From Flocq Require Import IEEE754.BinarySingleNaN.
From Verif Require Import F64.
Import ListNotations.

(** 492: _dout[pos] += data_ptr[3], from 0.0 (456) *)
Definition thread_sum (vs : list f64) : f64 := fold_left fadd vs fzero.
(** 493: _d2out[pos] += data_ptr[3] * data_ptr[3] *)
Definition thread_sum2 (vs : list f64) : f64 := fold_left (fun a v => fadd a (fmul v v)) vs fzero.
(** 514-520: the sums of the other threads are added to those of thread 0 *)
Definition gathered (l : list f64) : f64 := match l with [] => fzero | a :: r => fold_left fadd r a end.
(** 524-528: added to the fresh zeros of the output *)
Definition total (chunks : list (list f64)) : f64 := fadd fzero (gathered (map thread_sum chunks)).
Definition total2 (chunks : list (list f64)) : f64 := fadd fzero (gathered (map thread_sum2 chunks)).
Definition occupancy (chunks : list (list f64)) : Z := fold_left (fun s c => (s + Z.of_nat (length c))%Z) chunks 0%Z.
(** 536: var = (d2out - pow(dout, 2) / nout) / nout *)
Definition variance (chunks : list (list f64)) : f64 :=
  let n := f64_of_Z (occupancy chunks) in
  fdiv (fsub (total2 chunks) (fdiv (fmul (total chunks) (total chunks)) n)) n.
Definition fsqrt : f64 -> f64 := Bsqrt mode_NE.
(** 532-538 *)
Definition std_error (chunks : list (list f64)) : f64 :=
  if (occupancy chunks =? 0)%Z then fzero else fdiv (fsqrt (variance chunks)) (fsqrt (f64_of_Z (occupancy chunks))).
(** utils.py 939: mean = total / occupancy *)
Definition mean (chunks : list (list f64)) : f64 := fdiv (total chunks) (f64_of_Z (occupancy chunks)).
