(* What an N-dimensional binned statistic should be. *)
From Verif Require Import Common Roi_Spec BinStat_Model.
From Coq Require Import Permutation Sorted.

Definition strictly_increasing (e : list Qc) : Prop :=
  forall k a b, nth_error e k = Some a -> nth_error e (S k) = Some b -> (a < b)%Qc.
(** x lies in the k-th bin: half open, the last bin closed. *)
Definition in_axis (e : list Qc) (k : nat) (x : Qc) : Prop :=
  exists a b, nth_error e k = Some a /\ nth_error e (S k) = Some b /\ (a <= x)%Qc /\
    ((x < b)%Qc \/ (x = b /\ S (S k) = length e)).
Inductive in_cell : list (list Qc) -> list nat -> list Qc -> Prop :=
| in_cell_nil : in_cell [] [] []
| in_cell_cons e es k ks x xs : in_axis e k x -> in_cell es ks xs -> in_cell (e :: es) (k :: ks) (x :: xs).
(** The index names a bin of every axis. *)
Definition valid_index (edges : list (list Qc)) (idx : list nat) : Prop :=
  Forall2 (fun e k => S k < length e) edges idx.
(** x is the right edge, or off it by at least 10^-5 of some bin's width. *)
Definition clear_of_edge (e : list Qc) (x : Qc) : Prop :=
  exists z, nth_error e (length e - 1) = Some z /\
    (x = z \/ exists k a b, nth_error e k = Some a /\ nth_error e (S k) = Some b /\
       ((x + Q2Qc (1 # 100000) * (b - a) <= z)%Qc \/ (z + Q2Qc (1 # 100000) * (b - a) <= x)%Qc)).
(** The requested statistic of the values of a cell; the standard deviation through
    its square, the mean squared distance to the mean. *)
Definition is_stat (st : stat) (vs : list Qc) (r : option Qc) : Prop :=
  let mean := (qsum vs / qn (length vs))%Qc in
  match st with
  | SMean => (vs = [] /\ r = None) \/ (vs <> [] /\ r = Some mean)
  | SStd2 => (vs = [] /\ r = Some 0%Qc) \/
             (vs <> [] /\ r = Some (qsum (map (fun v => (v - mean) * (v - mean))%Qc vs) / qn (length vs))%Qc)
  | SCount => r = Some (qn (length vs))
  | SSum => r = Some (qsum vs)
  | SFun f null => (vs = [] /\ r = null) \/ (vs <> [] /\ exists vs', Permutation vs vs' /\ r = f vs')
  end.
(** [order] sorts every list of keys (as some argsort does). *)
Definition sorts (order : list nat -> list nat) : Prop :=
  forall l, Permutation (order l) (seq 0 (length l)) /\ StronglySorted le (map (fun p => nth p l 0) (order l)).
(** The bin number of a sample along one axis: 0 and [length e] are the outliers. *)
Definition bin_number (e : list Qc) (x : Qc) (n : nat) : Prop :=
  (n = 0 /\ exists a, nth_error e 0 = Some a /\ (x < a)%Qc) \/
  (exists k, n = S k /\ in_axis e k x) \/
  (n = length e /\ exists z, nth_error e (length e - 1) = Some z /\ (z < x)%Qc).
Inductive bin_numbers : list (list Qc) -> list Qc -> list nat -> Prop :=
| bin_numbers_nil : bin_numbers [] [] []
| bin_numbers_cons e es x xs n ns : bin_number e x n -> bin_numbers es xs ns -> bin_numbers (e :: es) (x :: xs) (n :: ns).
