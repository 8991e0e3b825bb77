(* Independent specification of spatial cross-correlation on a region. *)
From Verif Require Import Common.

Definition zpix (m : list (list Qc)) (p : Z * Z) : Qc :=
  let '(i, j) := p in
  if (0 <=? i)%Z && (0 <=? j)%Z then nth (Z.to_nat j) (nth (Z.to_nat i) m []) 0%Qc else 0%Qc.
(** Pixel [p] carries the id in the mask (hh x ww). *)
Definition in_region (mask : list (list nat)) (hh ww id : nat) (p : Z * Z) : bool :=
  let '(i, j) := p in
  (0 <=? i)%Z && (i <? Z.of_nat hh)%Z && (0 <=? j)%Z && (j <? Z.of_nat ww)%Z
  && (nth (Z.to_nat j) (nth (Z.to_nat i) mask []) 0 =? id).
Definition shift (p d : Z * Z) : Z * Z := (fst p - fst d, snd p - snd d)%Z.
Definition grid (hh ww : nat) : list (Z * Z) :=
  map (fun ij => (Z.of_nat (fst ij), Z.of_nat (snd ij))) (list_prod (seq 0 hh) (seq 0 ww)).
(** Pixels p such that p and p - d are both in the region. *)
Definition overlap mask hh ww id (d : Z * Z) : list (Z * Z) :=
  filter (fun p => in_region mask hh ww id p && in_region mask hh ww id (shift p d)) (grid hh ww).

Definition cc_sum mask hh ww id (f g : Z * Z -> Qc) d : Qc :=
  qsum (map (fun p => (f p * g (shift p d))%Qc) (overlap mask hh ww id d)).
Definition region_mean mask hh ww id (f : Z * Z -> Qc) : Qc :=
  let ps := filter (in_region mask hh ww id) (grid hh ww) in
  (qsum (map f ps) / qn (length ps))%Qc.

(** Plain average of the product over the overlap, divided by the two region means. *)
Definition spec_regular mask hh ww id f g d : option Qc :=
  let n := length (overlap mask hh ww id d) in
  let m := (region_mean mask hh ww id f * region_mean mask hh ww id g)%Qc in
  if (n =? 0) || Qc_eqb m 0%Qc then None
  else Some (cc_sum mask hh ww id f g d / qn n / m)%Qc.
(** Symmetric average: divided by the means of both factors over the overlap. *)
Definition spec_symavg mask hh ww id f g d : option Qc :=
  let o := overlap mask hh ww id d in
  let a := qsum (map f o) in
  let b := qsum (map (fun p => g (shift p d)) o) in
  if (length o =? 0) || Qc_eqb a 0%Qc || Qc_eqb b 0%Qc then None
  else Some ((cc_sum mask hh ww id f g d / qn (length o)) /
             ((a / qn (length o)) * (b / qn (length o))))%Qc.

(** What CrossCorrelator.__call__ reports for a lag, per choice of normalisations. *)
Definition spec_call (symavg regular : bool) mask hh ww id f g d : option Qc :=
  match symavg, regular with
  | false, false => Some (cc_sum mask hh ww id f g d)
  | false, true => spec_regular mask hh ww id f g d
  | true, false => spec_symavg mask hh ww id f g d
  | true, true =>
      match spec_symavg mask hh ww id f g d with
      | None => None
      | Some v =>
        let m := (region_mean mask hh ww id f * region_mean mask hh ww id g)%Qc in
        if Qc_eqb m 0%Qc then None
        else Some (v / (qn (length (overlap mask hh ww id d)) * m))%Qc
      end
  end.

Definition neg (d : Z * Z) : Z * Z := (- fst d, - snd d)%Z.

(** A 1-D signal extended by zeros. *)
Definition ext (x : list Qc) (z : Z) : Qc := if (0 <=? z)%Z then nth (Z.to_nat z) x 0%Qc else 0%Qc.
(** The second image is the first one moved right by [s] (left if s < 0),
    nothing falling off. *)
Definition moved_right (x y : list Qc) (s : Z) : Prop :=
  length y = length x /\ forall z, ext y z = ext x (z - s).

