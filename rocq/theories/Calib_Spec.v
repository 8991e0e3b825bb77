(* What calibration.py must do, said without the model. *)
From Coq Require Import Reals Sorted.
From Verif Require Import Common Powder_Model Peak_Spec.
Local Open Scope R_scope.
Local Open Scope list_scope.

(** sample i of y *)
Definition sample (y : list R) (i : Z) (v : R) : Prop := (0 <= i)%Z /\ nth_error y (Z.to_nat i) = Some v.
(** Larger than every other sample up to w away, and neither the first nor the last sample. *)
Definition local_max (y : list R) (w i : Z) : Prop :=
  (0 < i < Z.of_nat (length y) - 1)%Z /\ forall j a b, j <> i -> (Z.abs (j - i) <= w)%Z -> sample y j a -> sample y i b -> a < b.
(** Within w samples the data spans more than a fraction of the overall maximum. *)
Definition tall (y : list R) (w : Z) (thresh : R) (i : Z) : Prop :=
  forall m, In m y -> (forall v, In v y -> v <= m) -> exists j k a b, (Z.abs (j - i) <= w)%Z /\ (Z.abs (k - i) <= w)%Z /\ sample y j a /\ sample y k b /\ thresh * m < a - b.
(** The positions of the peaks, in order. *)
Definition peaks_at (y : list R) (w : Z) (thresh : R) (ps : list Z) : Prop :=
  StronglySorted Z.lt ps /\ forall i, In i ps <-> local_max y w i /\ tall y w thresh i.
(** Around sample p the data is a gaussian with centre c. *)
Definition gaussian_at (x y : list R) (w p : Z) (c : R) : Prop :=
  exists h s xs, 0 < h /\ s <> 0 /\ around x p w xs /\ around y p w (map (gauss_peak h c s) xs) /\ three_points xs.
(** Bragg: the scattering angle of a reflection is th, and t its tangent. *)
Definition reaches (wl : R) (r : reflection) : Prop := 0 <= q_ r * wl <= 4 * PI.
Definition tangent (wl : R) (r : reflection) (t : R) : Prop := exists th, 0 <= th <= PI /\ 4 * PI * sin (th / 2) = q_ r * wl /\ th <> PI / 2 /\ t = tan th.
Fixpoint total (l : list R) : R := match l with [] => 0 | a :: r => a + total r end.
Definition mean_of (l : list R) (m : R) : Prop := INR (length l) * m = total l.
Definition std_of (l : list R) (m s : R) : Prop := 0 <= s /\ INR (length l) * (s * s) = total (map (fun v => (v - m) * (v - m)) l).

(** ** refine_center *)
(** the members of a list that satisfy P, in order *)
Inductive chosen {A} (P : A -> Prop) : list A -> list A -> Prop :=
| ch_nil : chosen P [] []
| ch_keep a l r : P a -> chosen P l r -> chosen P (a :: l) (a :: r)
| ch_drop a l r : ~ P a -> chosen P l r -> chosen P (a :: l) r.
(** The pixels of an image, row by row, as (angle, (distance, intensity)) seen from a centre: rows are
    measured in pixel heights, columns in pixel widths, the angle turns from the column to the row axis. *)
Definition pixel_list (h w : nat) (II : list R) (center size : R * R) (px : list (R * (R * R))) : Prop :=
  length px = (h * w)%nat /\ forall i j, (i < h)%nat -> (j < w)%nat ->
  exists phi r v, nth_error px (i * w + j) = Some (phi, (r, v)) /\ nth_error II (i * w + j) = Some v /\ 0 <= r /\ - PI < phi <= PI /\
    snd size * (INR j - snd center) = r * cos phi /\ fst size * (INR i - fst center) = r * sin phi /\ (r = 0 -> phi = 0).
(** Edge k of n equal parts of a..b. *)
Definition edge (a b : R) (n k : nat) : R := a + INR k * ((b - a) / INR n).
Definition lower (given : option R) (sel : list (R * (R * R))) (lo : R) : Prop :=
  match given with Some m => lo = m | None => (exists p, In p sel /\ lo = fst (snd p)) /\ forall p, In p sel -> lo <= fst (snd p) end.
Definition upper (given : option R) (sel : list (R * (R * R))) (hi : R) : Prop :=
  match given with Some m => hi = m | None => (exists p, In p sel /\ hi = fst (snd p)) /\ forall p, In p sel -> fst (snd p) <= hi end.
(** The radial bins of one sector with summed intensity above 10: centre, sum, number of pixels. *)
Definition averaged (px : list (R * (R * R))) (from to : R) (nx : nat) (min_x max_x : option R) (kept : list (R * R * nat)) : Prop :=
  exists sel lo hi bins,
    chosen (fun p => from < fst p <= to) px sel /\ lower min_x sel lo /\ upper max_x sel hi /\ lo <= hi /\ length bins = nx /\
    (forall j c s n, nth_error bins j = Some (c, s, n) -> exists b,
       chosen (fun p => edge lo hi nx j <= fst (snd p) /\ (fst (snd p) < edge lo hi nx (S j) \/ S j = nx /\ fst (snd p) = edge lo hi nx (S j))) sel b /\
       c = (edge lo hi nx j + edge lo hi nx (S j)) / 2 /\ s = total (map (fun p => snd (snd p)) b) /\ n = length b) /\
    chosen (fun b => 10 < snd (fst b)) bins kept.
(** The rings of the sector are the first few peaks of their averages, reported by the centres of the bins. *)
Definition traced (px : list (R * (R * R))) (from to : R) (nx : nat) (min_x max_x : option R) (w : Z) (thresh : R) (max_peaks : nat) (tr : list R) : Prop :=
  exists kept ps, averaged px from to nx min_x max_x kept /\
    peaks_at (map (fun b : R * R * nat => snd (fst b) / INR (snd b)) kept) w thresh ps /\ ps <> [] /\
    length tr = Nat.min max_peaks (length ps) /\
    forall k t, nth_error tr k = Some t -> exists p b, nth_error ps k = Some p /\ sample (map (fun b => fst (fst b)) kept) p b /\ t = b.
Definition ringless (px : list (R * (R * R))) (from to : R) (nx : nat) (min_x max_x : option R) (w : Z) (thresh : R) : Prop :=
  exists kept, averaged px from to nx min_x max_x kept /\ peaks_at (map (fun b : R * R * nat => snd (fst b) / INR (snd b)) kept) w thresh [].
(** The middle of sector k of n. *)
Definition sector_angle (n k : nat) : R := - PI + (2 * INR k + 1) * PI / INR n.
Fixpoint sum_to (n : nat) (f : nat -> R) : R := match n with O => 0 | S m => sum_to m f + f m end.
Definition entry (t : list R) (j : nat) : R := nth j t 0.
(** The deviation of sector k: averaged over the first m rings, ring radius minus its mean over the sectors. *)
Definition deviation (ts : list (list R)) (m k : nat) (u : R) : Prop :=
  exists t, nth_error ts k = Some t /\ INR m * u = sum_to m (fun j => entry t j - total (map (fun t => entry t j) ts) / INR (length ts)).
