(* What C39, C40 and C74 mean, without reference to the model's functions (only to its
   image type). *)
From Coq Require Import Reals.
From Verif Require Import Common Sums Dpc_Model.

(** A bad pixel entry names pixel (i, j); negative entries count from the end. *)
Definition names (h w : nat) (b : Z * Z) (i j : nat) : bool :=
  ((fst b =? Z.of_nat i)%Z || (fst b =? Z.of_nat i - Z.of_nat h)%Z) && ((snd b =? Z.of_nat j)%Z || (snd b =? Z.of_nat j - Z.of_nat w)%Z).
Definition in_bounds (h w : nat) (b : Z * Z) : Prop :=
  (- Z.of_nat h <= fst b < Z.of_nat h)%Z /\ (- Z.of_nat w <= snd b < Z.of_nat w)%Z.
Definition clean (im : img) (bad : list (Z * Z)) (i j : nat) : Qc :=
  if existsb (fun b => names (ih im) (iw im) b i j) bad then 0%Qc else px im i j.
(** The sum over the pixels of rows r..r+row-1, columns c..c+col-1. *)
Definition in_window (r c row col : Z) (i j : nat) : bool :=
  (r <=? Z.of_nat i)%Z && (Z.of_nat i <? r + row)%Z && (c <=? Z.of_nat j)%Z && (Z.of_nat j <? c + col)%Z.
Definition total (im : img) (keep : nat -> nat -> bool) (v : nat -> nat -> Qc) : Qc :=
  sumn (ih im) (fun i => sumn (iw im) (fun j => if keep i j then v i j else 0%Qc)).
Definition column_total (im : img) (keep : nat -> nat -> bool) (v : nat -> nat -> Qc) (j : nat) : Qc :=
  sumn (ih im) (fun i => if keep i j then v i j else 0%Qc).
Definition row_total (im : img) (keep : nat -> nat -> bool) (v : nat -> nat -> Qc) (i : nat) : Qc :=
  sumn (iw im) (fun j => if keep i j then v i j else 0%Qc).

(** The map of a scan after the patterns [vals]: raster order, the rest zero. *)
Definition raster {V} (zero : V) (rows cols : nat) (vals : list V) (g : list (list V)) : Prop :=
  length g = rows /\ forall i row, nth_error g i = Some row -> length row = cols /\
  forall j v, nth_error row j = Some v -> v = nth (i * cols + j) vals zero.

(** Frequency of entry k of a transform of length n (as numpy.fft.fftfreq, times n). *)
Definition freq (n k : nat) : Z := if (2 * k <? n) then Z.of_nat k else (Z.of_nat k - Z.of_nat n)%Z.
Definition wave (n : nat) (step : R) (k : nat) : R := (2 * PI * IZR (freq n k) / (INR n * step))%R.
(** 1j * r * z *)
Definition jmul (r : R) (z : R * R) : R * R := (- (r * snd z), r * fst z)%R.

(** entry k of a pattern of length n is the reference attenuated by v0 and with the phase
    gradient v1 *)
Definition shifted (n : nat) (v0 v1 : R) (ref : R * R) (k : nat) : R * R :=
  let t := (v1 * IZR (Z.of_nat k - Z.of_nat n / 2))%R in
  ((v0 * (fst ref * cos t - snd ref * sin t))%R, (v0 * (fst ref * sin t + snd ref * cos t))%R).

(** P is the array of the transforms: g in the middle one of (2 padding + 1)^2 tiles, zero in the others *)
Definition tiled (rows cols padding : nat) (g : nat -> nat -> R) (P : nat -> nat -> R * R) : Prop :=
  (forall i j, i < rows -> j < cols -> P (padding * rows + i) (padding * cols + j) = (g i j, 0%R)) /\
  (forall a b i j, i < rows -> j < cols -> a <> padding \/ b <> padding -> P (a * rows + i) (b * cols + j) = (0%R, 0%R)).
