(* Which region stands in which column: the regions of a label array are its positive labels; column j of a
   table by region belongs to the (j+1)-th smallest of them.  Pixels are found by their label, without
   renumbering. *)
From Coq Require Import Sorted Rdefinitions.
From Verif Require Import Common.
From Verif Require RoiPolar_Spec.

(** [us] lists the positive labels that occur, each once, in ascending order *)
Definition regions (labels us : list Z) : Prop :=
  StronglySorted Z.lt us /\ forall z, In z us <-> In z labels /\ (0 < z)%Z.
(** raster positions of the pixels labelled z *)
Definition where_label (labels : list Z) (z : Z) : list nat :=
  filter (fun p => (nth p labels 0 =? z)%Z) (seq 0 (length labels)).
(** the values of an image at the pixels labelled z *)
Definition values_at {A} (d : A) (labels : list Z) (z : Z) (im : list A) : list A :=
  map (fun p => nth p im d) (where_label labels z).
Definition average (l : list Qc) : Qc := (qsum l / qn (length l))%Qc.
(** the numbers of a frame without nan *)
Definition numbers_of (fs : list (list Qc)) : list (list (option Qc)) := map (map Some) fs.
(** the normalised correlation of frames a and b over the pixels labelled z *)
Definition label_corr (labels : list Z) (fs : list (list Qc)) (z : Z) (a b : nat) : option Qc :=
  let ia := values_at 0%Qc labels z (nth a fs []) in
  let ib := values_at 0%Qc labels z (nth b fs []) in
  let d := (average ia * average ib)%Qc in
  if Qc_eqb d 0%Qc then None
  else Some (average (map (fun p => (fst p * snd p)%Qc) (combine ia ib)) / d)%Qc.
(** g2 at lag i over the pixels labelled z: all pairs of frames i apart *)
Definition label_g2 (labels : list Z) (fs : list (list Qc)) (z : Z) (i : nat) : option Qc :=
  let pairs := seq 0 (length fs - i) in
  let im := fun k => values_at 0%Qc labels z (nth k fs []) in
  let d := (average (map (fun k => average (im k)) pairs) * average (map (fun k => average (im (k + i)%nat)) pairs))%Qc in
  if Qc_eqb d 0%Qc then None
  else Some (average (map (fun k => average (map (fun p => (fst p * snd p)%Qc) (combine (im k) (im (k + i)%nat)))) pairs) / d)%Qc.
(** the fraction of the values below M that equal b; the last bin, b = M - 2, also counts M - 1 *)
Definition fraction (M : nat) (vals : list Z) (b : nat) : Qc :=
  let counted := fun f => length (filter f vals) in
  let total := counted (fun v => (0 <=? v)%Z && (v <? Z.of_nat M)%Z) in
  if total =? 0 then 0%Qc
  else (qn (counted (fun v => (v =? Z.of_nat b)%Z) +
            (if b + 2 =? M then counted (fun v => (v =? Z.of_nat M - 1)%Z) else 0)) / qn total)%Qc.
(** some pixel of an h x w image lies in ring m (counted from 0) *)
Definition ring_seen (edges : list Rdefinitions.R) (c : Rdefinitions.R * Rdefinitions.R) (h w m : nat) : Prop :=
  exists i j r, i < h /\ j < w /\ RoiPolar_Spec.is_radius c i j r /\ RoiPolar_Spec.in_ring edges m r.
