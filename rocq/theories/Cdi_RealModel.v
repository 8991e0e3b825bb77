(* Model of the real-valued parts of /repo/skbeam/core/cdi.py: _dist, gauss,
   generate_disk_support, pi_modulus, find_support, cal_diff_error.  Real arithmetic
   (no rounding).  The discrete Fourier transform and scipy's gaussian_filter are
   parameters.  Arrays are flat lists in row-major order; a complex number is a pair. *)
From Coq Require Import Reals List Lia.
From Verif Require Import Common.
Local Open Scope R_scope.

Fixpoint rsum (l : list R) : R := match l with [] => 0 | a :: r => a + rsum r end.
(** all index tuples of an array, row-major *)
Fixpoint indices (dims : list nat) : list (list nat) :=
  match dims with
  | [] => [[]]
  | d :: ds => flat_map (fun i => map (cons i) (indices ds)) (seq 0 d)
  end.
(** _dist, 66-76: (arange(d) - d // 2) ** 2 summed over the axes *)
Fixpoint dist_sq (dims idx : list nat) : Z :=
  match dims, idx with
  | d :: ds, i :: is => let v := (Z.of_nat i - Z.of_nat d / 2)%Z in (v * v + dist_sq ds is)%Z
  | _, _ => 0%Z
  end.
Definition dist (dims idx : list nat) : R := sqrt (IZR (dist_sq dims idx)).
(** gauss, 95-97; sigma <> 0 *)
Definition gauss_raw (dims : list nat) (sigma : R) (idx : list nat) : R := exp (- ((dist dims idx / sigma) ^ 2) / 2).
Definition gauss (dims : list nat) (sigma : R) : list R :=
  let y := map (gauss_raw dims sigma) (indices dims) in map (fun v => v / rsum y) y.
(** generate_disk_support, 226-229 *)
Definition disk_at (r : R) (dims idx : list nat) : bool := if Rlt_dec (dist dims idx) r then true else false.

(** ** pi_modulus, 119-122 *)
Notation C := (R * R)%type.
Definition cabs (z : C) : R := sqrt (fst z * fst z + snd z * snd z).
Definition cmul (c : R) (z : C) : C := (c * fst z, c * snd z).
Definition modulus1 (offset : R) (p : R * C) : C :=
  if Rlt_dec 0 (fst p) then cmul (fst p / (cabs (snd p) + offset)) (snd p) else snd p.
Definition pi_modulus (F Fi : list C -> list C) (offset : R) (x : list C) (d : list R) : list C :=
  let y := map (cmul (/ sqrt (INR (length x)))) (F x) in
  map (cmul (sqrt (INR (length d)))) (Fi (map (modulus1 offset) (combine d y))).
(** cal_diff_error, 165-166 *)
Definition norm2 (l : list R) : R := sqrt (rsum (map (fun v => v * v) l)).
Definition diff_error (F : list C -> list C) (x : list C) (d : list R) : R :=
  let y := map (fun z => cabs z / sqrt (INR (length x))) (F x) in
  norm2 (map (fun p => fst p - snd p) (combine y d)) / norm2 d.
(** find_support, 143-146; [blur] is gaussian_filter *)
Definition rmaxl (l : list R) : R := match l with [] => 0 | a :: r => fold_left Rmax r a end.
Definition find_support (blur : list R -> list R) (threshold : R) (x : list C) : list bool :=
  let conv := blur (map cabs x) in
  map (fun v => if Rle_dec (threshold * rmaxl conv) v then true else false) conv.
