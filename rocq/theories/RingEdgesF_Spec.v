(* What ring_edges is to give: running sums of radius, width, spacing, width, ... *)
From Coq Require Import Reals.
From Flocq Require Import Core BinarySingleNaN.
From Verif Require Import Common F64 RingEdgesF_Model.
Local Open Scope R_scope.
(** r, w1, s1, w2, s2, ..., wn *)
Fixpoint steps (r : R) (ws ss : list R) : list R :=
  match ws with
  | [] => []
  | w :: ws' => r :: w :: match ss with [] => [] | s :: ss' => steps s ws' ss' end
  end.
Definition total (l : list R) : R := fold_right Rplus 0 l.
(** edge k: the inner radius of ring k / 2 for even k, its outer radius for odd k *)
Definition exact_edge (l : list R) (k : nat) : R := total (firstn (S k) l).
Definition flat {A} (l : list (A * A)) : list A := flat_map (fun p => [fst p; snd p]) l.
(** the n widths, the spacings and the first radius an argument stands for *)
Definition width_values (n : nat) (w : widthsF) : list R :=
  match w with Width x => repeat (B2R x) n | Widths l => map B2R l end.
Definition spacing_values (n : nat) (s : spacingsF) : list R :=
  match s with Spacing x => repeat (B2R x) n | Spacings l => map B2R l | IntSpacings l => map IZR l end.
Definition whole_spacings (s : spacingsF) : Prop := exists z l, s = IntSpacings (z :: l).
(** arguments that are finite and not negative; integers up to 2^53 *)
Definition usable (x : f64) : Prop := is_finite x = true /\ 0 <= B2R x.
Definition usable_widths (w : widthsF) : Prop := match w with Width x => usable x | Widths l => Forall usable l end.
Definition usable_spacings (s : spacingsF) : Prop :=
  match s with Spacing x => usable x | Spacings l => Forall usable l | IntSpacings l => Forall (fun z => (0 <= z <= 2 ^ 53)%Z) l end.
(** n rings are asked for, and only one of the two arguments is a list *)
Definition asks_for (n : nat) (w : widthsF) (s : spacingsF) (num_rings : option Z) : Prop :=
  n <> O /\ length (width_values n w) = n /\ length (spacing_values (n - 1) s) = (n - 1)%nat /\
  ((exists x, w = Width x) \/ (exists x, s = Spacing x)) /\
  (num_rings = Some (Z.of_nat n) \/ (num_rings = None /\ ~ ((exists x, w = Width x) /\ (exists x, s = Spacing x)))).
(** the inner radius of the first ring: as given, or rounded down if the spacings are a list of integers *)
Definition first_radius (inner : f64) (s : spacingsF) (r : R) : Prop :=
  match s with
  | IntSpacings (_ :: _) => exists k : Z, r = IZR k /\ IZR k <= B2R inner < IZR k + 1 /\ (k <= 2 ^ 53)%Z
  | _ => r = B2R inner
  end.
