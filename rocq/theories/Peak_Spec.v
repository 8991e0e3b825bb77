(* What the peak functions must do, said without them. *)
From Coq Require Import Reals Permutation Sorted.
From Verif Require Import Common Peak_Model.
Local Open Scope R_scope.

(** the samples at most w away from position i, in order *)
Definition around {A} (l : list A) (i w : Z) (r : list A) : Prop :=
  exists lo, lo = Z.max 0 (i - w) /\ Z.of_nat (length r) = (Z.min (Z.of_nat (length l)) (i + w + 1) - lo)%Z /\
  forall k, (k < length r)%nat -> nth_error r k = nth_error l (Z.to_nat lo + k).
(** results of the candidates that were not rejected, in order *)
Inductive survivors {P} (out : Z -> refined P) : list Z -> list P -> Prop :=
| s_nil : survivors out [] []
| s_keep c cs p ps : out c = Found p -> survivors out cs ps -> survivors out (c :: cs) (p :: ps)
| s_drop c cs ps : out c = Rejected -> survivors out cs ps -> survivors out (c :: cs) ps.
(** lstsq minimises the sum of squares over all quadratics *)
Definition least_squares (lstsq : list R -> list R -> beta) : Prop :=
  forall xs ys b, length xs = length ys -> sserr (lstsq xs ys) xs ys <= sserr b xs ys.
Definition three_points (xs : list R) : Prop := exists p q r, In p xs /\ In q xs /\ In r xs /\ p <> q /\ p <> r /\ q <> r.
Definition parabola (a c h x : R) : R := a * (x - c) * (x - c) + h.
Definition gauss_peak (h c s x : R) : R := h * exp (- ((x - c) * (x - c)) / (2 * s * s)).
(** np.argsort: some permutation putting the values in ascending order *)
Definition sorts (argsort : list Qc -> list nat) : Prop := forall h,
  Permutation (argsort h) (seq 0 (length h)) /\ StronglySorted (fun i j => (nth i h 0%Qc <= nth j h 0%Qc)%Qc) (argsort h).
Definition height (y : list Qc) (c : Z) : Qc := nth (Z.to_nat c) y 0%Qc.
Definition valid_cands {A} (y : list A) (cands : list Z) : Prop := Forall (fun c => 0 <= c < Z.of_nat (length y))%Z cands.
(** the first position of the largest value *)
Definition first_max (y : list R) (j : nat) : Prop :=
  exists m, nth_error y j = Some m /\ (forall v, In v y -> v <= m) /\ forall i v, (i < j)%nat -> nth_error y i = Some v -> v < m.
