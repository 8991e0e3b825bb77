(* Model of /repo/skbeam/core/utils.py bin_edges, 747-793, in binary64 arithmetic; arguments are finite doubles.
   range_max, range_min and step given: [edges_min_max_step]; None is an exception: ValueError (752-753, 765-766),
   ZeroDivisionError or, for a negative step, IndexError (ret[-1] of an empty array, 770). *)
From Coq Require Import List ZArith.
From Verif Require Import F64.
Import ListNotations.

(** x = m * 2^e *)
Definition parts (x : f64) : Z * Z :=
  match x with B754_finite s m e _ => (if s then Zneg m else Zpos m, e) | _ => (0, 0)%Z end.
(** fmod of C, which is exact; here for positive arguments *)
Definition fmod (x y : f64) : f64 :=
  let '(a, e) := parts x in let '(b, f) := parts y in let g := Z.min e f in
  f64_of ((a * 2 ^ (e - g)) mod (b * 2 ^ (f - g))) g.
Definition fhalf : f64 := fdiv fone (fadd fone fone).
(** x // y for positive x and y as python and numpy compute it (float_divmod, npy_divmod): the quotient of x less the
    remainder, rounded down, and put up by one if that took off more than a half; then int() *)
Definition floordiv (x y : f64) : Z :=
  let div := fdiv (fsub x (fmod x y)) y in
  let fl := Btrunc div in
  if fltb fhalf (fsub div (f64_of_Z fl)) then (fl + 1)%Z else fl.
(** start + np.arange(n + 1) * step *)
Definition ladder (start step : f64) (n : Z) : list f64 :=
  map (fun i => fadd start (fmul (f64_of_Z (Z.of_nat i)) step)) (seq 0 (Z.to_nat (n + 1))).
(** 763-785 *)
Definition edges_min_max_step (lo hi step : f64) : option (list f64) :=
  if fleb hi lo then None else
  if fltb (fsub hi lo) step then None else
  if fleb step fzero then None else
  let ret := ladder lo step (floordiv (fsub hi lo) step) in
  Some (if fltb hi (last ret fzero) then removelast ret else ret).
(** 787-789 *)
Definition edges_min_step (lo step : f64) (nbins : Z) : option (list f64) :=
  if (nbins <=? 0)%Z then None else Some (ladder lo step nbins).
(** 791-793: range_max - np.arange(nbins + 1)[::-1] * step *)
Definition edges_max_step (hi step : f64) (nbins : Z) : option (list f64) :=
  if (nbins <=? 0)%Z then None else
  Some (map (fun i => fsub hi (fmul (f64_of_Z (Z.of_nat i)) step)) (rev (seq 0 (Z.to_nat (nbins + 1))))).
(** 760-761: np.linspace(range_min, range_max, nbins + 1): arange * (delta / nbins) + start, then the last set to stop;
    numpy's other formula for a step that underflows to zero is not modelled, and the theorem asks for a normal step *)
Definition edges_min_max (lo hi : f64) (nbins : Z) : option (list f64) :=
  if fleb hi lo then None else if (nbins <=? 0)%Z then None else
  let st := fdiv (fsub hi lo) (f64_of_Z nbins) in
  Some (map (fun i => fadd (fmul (f64_of_Z (Z.of_nat i)) st) lo) (seq 0 (Z.to_nat nbins)) ++ [hi]).
