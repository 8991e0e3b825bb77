(* What the mask functions should return. *)
From Coq Require Import Reals.
From Verif Require Import Common Roi_Spec.

(** The value of pixel p of a mask that started as m0 and has seen the images ims. *)
Definition seen (t : Qc) (ims : list (list Qc)) (m0 : list Qc) (p : nat) (v : Qc) : Prop :=
  ((exists im x, In im ims /\ nth_error im p = Some x /\ (t <= x)%Qc) /\ v = 0%Qc) \/
  ((forall im x, In im ims -> nth_error im p = Some x -> (x < t)%Qc) /\ nth_error m0 p = Some v).

Local Open Scope R_scope.
(** x belongs to bin k of a list of edges: half-open, the last bin closed. *)
Definition in_stat_bin (bins : list R) (k : nat) (x : R) : Prop :=
  exists lo hi, nth_error bins k = Some lo /\ nth_error bins (k + 1) = Some hi /\
    lo <= x /\ (x < hi \/ (x = hi /\ (k + 2 = length bins)%nat)).
Definition strictly_increasing (l : list R) : Prop :=
  forall i j a b, (i < j)%nat -> nth_error l i = Some a -> nth_error l j = Some b -> a < b.
Fixpoint total (l : list R) : R := match l with [] => 0 | x :: r => x + total r end.
(** mean and (population) standard deviation of a non-empty list *)
Definition is_mean (l : list R) (m : R) : Prop := l <> [] /\ m * INR (length l) = total l.
Definition is_std (l : list R) (m s : R) : Prop :=
  0 <= s /\ s * s * INR (length l) = total (map (fun x => (x - m) * (x - m)) l).
(** the unmasked image values of bin k *)
Definition bin_values (bins : list R) (r img : list R) (mask : list bool) (k : nat) (vs : list R) : Prop :=
  picked (fun p => nth_error mask p = Some true /\ exists x, nth_error r p = Some x /\ in_stat_bin bins k x) 0 img vs.
(** The bin whose limits a pixel at r is compared with. *)
Definition compared_with (bins : list R) (k : nat) (r : R) : Prop :=
  (exists lo, nth_error bins k = Some lo /\ lo < r /\ (k + 1 < length bins)%nat /\
     forall hi, (k + 2 < length bins)%nat -> nth_error bins (k + 1) = Some hi -> r <= hi) \/
  (exists lo, nth_error bins 0 = Some lo /\ r <= lo /\ (k + 2 = length bins)%nat).
(** a is the k-th of n values spread evenly from x to y. *)
Definition spread (x y : R) (n k : nat) (a : R) : Prop :=
  (k = 0%nat -> a = x) /\ a * INR (n - 1) = x * INR (n - 1 - k) + y * INR k.
