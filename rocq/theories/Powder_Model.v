(* Model of HKL, Reflection and PowderStandard of /repo/skbeam/core/constants/xrs.py.
   Angles and lengths are real numbers (the code's nan above q = 4 pi / wavelength is outside the
   domain); the Miller indices are exact rationals that int() truncates. *)
From Coq Require Import Reals.
From Verif Require Import Common QSpace_Model.
From Coq Require Import Qround.
Local Open Scope R_scope.

(** int(x) on a float: towards zero *)
Definition py_int (x : Qc) : Z := if Qc_ltb x 0%Qc then (- Qfloor (- x)%Qc)%Z else Qfloor x.
Definition hkl := (Z * Z * Z)%type.
(** HKL(h, k, l), 57-78; None is the TypeError of a wrong number of arguments *)
Definition make_hkl (l : list Qc) : option hkl := match l with [h; k; m] => Some (py_int h, py_int k, py_int m) | _ => None end.
(** Reflection, 88-104 *)
Record reflection := { d_ : R; hkl_ : hkl; q_ : R }.
(** list.sort(key=...) is stable: x goes before the first element that is not smaller *)
Fixpoint insert (x : reflection) (l : list reflection) : list reflection :=
  match l with [] => [x] | y :: r => if Rle_dec (q_ x) (q_ y) then x :: l else y :: insert x r end.
Definition sort_q (l : list reflection) : list reflection := fold_right insert [] l.
Fixpoint make_all (l : list (R * list Qc * R)) : option (list reflection) :=
  match l with [] => Some [] | (d, h, q) :: r => h <- make_hkl h ;; rest <- make_all r ;; Some ({| d_ := d; hkl_ := h; q_ := q |} :: rest) end.
(** PowderStandard.__init__, 122-125: the sorted reflections *)
Definition powder_standard (l : list (R * list Qc * R)) : option (list reflection) := r <- make_all l ;; Some (sort_q r).
(** convert_2theta, 149-164 *)
Definition convert_2theta (s : list reflection) (wl : R) : list R := map (fun r => q_to_twotheta (q_ r) wl) s.
(** zip(d, hkl, q) with hkl = repeat((0, 0, 0)) when not given *)
Definition zip3 (d : list R) (h : option (list (list Qc))) (q : list R) : list (R * list Qc * R) :=
  combine (combine d (match h with Some h => h | None => repeat [0%Qc; 0%Qc; 0%Qc] (length d) end)) q.
(** from_lambda_2theta_hkl, 167-198 *)
Definition from_lambda_2theta_hkl (wl : R) (tt : list R) (h : option (list (list Qc))) : option (list reflection) :=
  let q := map (fun t => twotheta_to_q t wl) tt in
  powder_standard (zip3 (map q_to_d q) h q).
(** from_d, 201-227 *)
Definition from_d (d : list R) (h : option (list (list Qc))) : option (list reflection) := powder_standard (zip3 d h (map d_to_q d)).
