(* What the arguments of the binned-statistic classes are documented to mean. *)
From Verif Require Import Common Roi_Spec BinStat_Model BinStat_Spec BinWrap_Model.
Local Open Scope list_scope.

(** the interval the bins cover: the one given, or from the least to the greatest sample *)
Definition covers (range : option (Qc * Qc)) (x : list Qc) (lo hi : Qc) : Prop :=
  match range with
  | Some r => r = (lo, hi)
  | None => In lo x /\ In hi x /\ Forall (fun v => (lo <= v)%Qc /\ (v <= hi)%Qc) x
  end.
(** n bins of equal width over [lo, hi] (over [lo - 1/2, hi + 1/2] if that is one point) *)
Definition equal_bins (n : nat) (lo hi : Qc) (e : list Qc) : Prop :=
  1 <= n /\ (lo <= hi)%Qc /\ length e = S n /\
  exists a b, ((lo < hi)%Qc /\ a = lo /\ b = hi \/ lo = hi /\ a = (lo - Q2Qc (1 # 2))%Qc /\ b = (hi + Q2Qc (1 # 2))%Qc) /\
    forall k, k <= n -> nth_error e k = Some (a + qn k * ((b - a) / qn n))%Qc.
(** edges for one dimension: a number of bins or the edges themselves *)
Inductive axis_meant (lo hi : Qc) : item -> list Qc -> Prop :=
| meant_number n e : equal_bins n lo hi e -> axis_meant lo hi (Num (qn n)) e
| meant_array e : strictly_increasing e -> 2 <= length e -> axis_meant lo hi (Arr e) e.
Inductive meant_1d (lo hi : Qc) : bins_arg -> list Qc -> Prop :=
| meant_count1 n e : equal_bins n lo hi e -> meant_1d lo hi (Count n) e
| meant_edges1 e : strictly_increasing e -> 2 <= length e -> meant_1d lo hi (Seqn (map Num e)) e
| meant_one1 i e : axis_meant lo hi i e -> meant_1d lo hi (Seqn [i]) e.
(** two dimensions, without the case of two shared edges *)
Inductive meant_2d (xlo xhi ylo yhi : Qc) : bins_arg -> list Qc -> list Qc -> Prop :=
| meant_count2 n ex ey : equal_bins n xlo xhi ex -> equal_bins n ylo yhi ey -> meant_2d xlo xhi ylo yhi (Count n) ex ey
| meant_each i j ex ey : axis_meant xlo xhi i ex -> axis_meant ylo yhi j ey -> meant_2d xlo xhi ylo yhi (Seqn [i; j]) ex ey
| meant_shared e : strictly_increasing e -> 3 <= length e -> meant_2d xlo xhi ylo yhi (Seqn (map Num e)) e e.
(** a sample counts unless its mask is 0 *)
Definition kept (mask : option (list bool)) (p : nat) : Prop := forall m, mask = Some m -> nth_error m p = Some true.
Definition fits {A} (mask : option (list bool)) (l : list A) : Prop := forall m, mask = Some m -> length m = length l.
(** the result for bins of one or two dimensions *)
Definition stat_1d (st : stat) (e x : list Qc) (mask : option (list bool)) (values : list Qc) (f : list nat -> option Qc) : Prop :=
  forall k, S k < length e -> exists vs,
    picked (fun p => kept mask p /\ exists v, nth_error x p = Some v /\ in_axis e k v) 0 values vs /\ is_stat st vs (f [k]).
Definition stat_2d (st : stat) (ex ey x y : list Qc) (mask : option (list bool)) (values : list Qc) (f : list nat -> option Qc) : Prop :=
  forall i j, S i < length ex -> S j < length ey -> exists vs,
    picked (fun p => kept mask p /\ exists u v, nth_error x p = Some u /\ nth_error y p = Some v /\ in_axis ex i u /\ in_axis ey j v) 0 values vs /\
    is_stat st vs (f [i; j]).
