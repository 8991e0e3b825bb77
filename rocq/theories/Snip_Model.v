(* Model of /repo/skbeam/core/fitting/background.py: snip_method, over the reals (no rounding,
   no overflow: the np.isfinite repair at the end never applies).  e_lin is not 0 and the
   spectrum has no value below 0, so that no nan arises. *)
From Coq Require Import Reals.
From Verif Require Import Common.
From Coq Require Import Lra.
Local Open Scope R_scope.

Inductive out (A : Type) := Running | Raises | Val (a : A).
Arguments Running {A}. Arguments Raises {A}. Arguments Val {A} a.

(** ndarray.astype(np.int64) truncates towards zero. *)
Definition trunc (x : R) : Z := if Rlt_dec x 0 then (- Int_part (- x))%Z else Int_part x.
(** np.clip(x, lo, hi) = minimum(maximum(x, lo), hi) *)
Definition clip (x lo hi : R) : R := Rmin (Rmax x lo) hi.
Definition nthR (l : list R) (i : nat) : R := nth i l 0.
Definition amax (l : list R) : R := match l with [] => 0 | a :: r => fold_right Rmax a r end.

Section Snip.
Context (e_off e_lin e_quad xmin xmax epsilon width decrease_factor : R) (spectral_binning : option R)
        (con_val iter_num : option nat) (width_threshold : R).
(** 125-135; _defaults, 49 *)
Definition con_val' : nat := match con_val with Some c => c | None => match spectral_binning with None => 3%nat | Some _ => 5%nat end end.
Definition iter_num' : nat := match iter_num with Some c => c | None => match spectral_binning with None => 3%nat | Some _ => 5%nat end end.
(** 140-151 *)
Definition energy (k : nat) : R :=
  let e := match spectral_binning with Some b => INR k * b | None => INR k end in e_off + e * e_lin + e * e * e_quad.
Definition std_fwhm : R := 2 * sqrt (2 * ln 2).
Definition fwhm (k : nat) : R :=
  let tmp := (e_off / std_fwhm) * (e_off / std_fwhm) + energy k * epsilon * e_lin in
  std_fwhm * sqrt (if Rlt_dec tmp 0 then 0 else tmp).
(** 163-165 *)
Definition window_p (k : nat) : R :=
  let w := width * fwhm k / e_lin in
  match spectral_binning with Some b => if Rlt_dec 0 b then w / 2 else w | None => w end.
(** scipy.signal.convolve(background, boxcar(c), mode="same") / c, 154-161: entry i is the sum
    of the c entries that end at i + (c - 1) // 2 *)
Fixpoint sumr (n : nat) (f : nat -> R) : R := match n with O => 0 | S m => sumr m f + f m end.
Definition at_z (l : list R) (z : Z) : R := if (z <? 0)%Z then 0 else nth (Z.to_nat z) l 0.
Definition smooth (l : list R) : list R :=
  let c := con_val' in
  map (fun i => sumr c (fun k => at_z l (Z.of_nat i + Z.of_nat ((c - 1) / 2) - Z.of_nat k)) / INR c) (seq 0 (length l)).
(** lo_index and hi_index, 173-174 and 185-186 *)
Definition lo_lim : R := Rmax xmin 0.
Definition hi_lim (n : nat) : R := Rmin xmax (INR n - 1).
Definition index_of (n i : nat) (w : R) : option nat := pyindex (Z.of_nat n) (trunc (clip (INR i + w) lo_lim (hi_lim n))).
(** one snipping, 173-179 *)
Definition point (bg ws : list R) (i : nat) : option R :=
  lo <- index_of (length bg) i (- nthR ws i) ;; hi <- index_of (length bg) i (nthR ws i) ;;
  let temp := (nthR bg lo + nthR bg hi) / 2 in
  Some (if Rlt_dec temp (nthR bg i) then temp else nthR bg i).
Fixpoint all_some {A} (l : list (option A)) : option (list A) :=
  match l with [] => Some [] | a :: r => x <- a ;; y <- all_some r ;; Some (x :: y) end.
Definition snip1 (bg ws : list R) : option (list R) := all_some (map (point bg ws) (seq 0 (length bg))).
Fixpoint first (k : nat) (bg ws : list R) : option (list R) :=
  match k with O => Some bg | S m => b <- snip1 bg ws ;; first m b ws end.
(** 181-197 *)
Fixpoint shrink (fuel : nat) (bg ws : list R) : out (list R) :=
  match fuel with
  | O => Running
  | S f => if Rle_dec width_threshold (amax ws) then
             match snip1 bg ws with Some b => shrink f b (map (fun w => w / decrease_factor) ws) | None => Raises end
           else Val bg
  end.
Definition squash (x : R) : R := ln (ln (x + 1) + 1).
Definition stretch (x : R) : R := exp (exp x - 1) - 1.
Definition snip_method (fuel : nat) (spectrum : list R) : out (list R) :=
  match spectrum with
  | [] => Raises
  | _ =>
    let ws := map window_p (seq 0 (length spectrum)) in
    match first iter_num' (map squash (smooth spectrum)) ws with
    | None => Raises
    | Some bg => match shrink fuel bg ws with Val b => Val (map stretch b) | Raises => Raises | Running => Running end
    end
  end.
End Snip.
