(* What the reconstruction loop and the box support should compute. *)
From Verif Require Import Common Cdi_Model.

(** Laws of the pixel arithmetic. *)
Record laws {V} (O : ops V) : Prop := {
  add_zero : forall a, vadd O a (vzero O) = a;
  add_comm : forall a b, vadd O a b = vadd O b a;
  add_assoc : forall a b c, vadd O a (vadd O b c) = vadd O (vadd O a b) c;
  scale_one : forall a, vscale O 1%Qc a = a;
  scale_add : forall p q a, vscale O (p + q)%Qc a = vadd O (vscale O p a) (vscale O q a);
  scale_null : forall a, vscale O 0%Qc a = vzero O;
  scale_mul : forall p q a, vscale O p (vscale O q a) = vscale O (p * q)%Qc a;
  scale_plus : forall p a b, vscale O p (vadd O a b) = vadd O (vscale O p a) (vscale O p b) }.

(** Elser's difference map x + b (P_S (f_M x) - P_M (f_S x)), with
    f_M x = (1 + 1/b) P_M x - x/b and f_S x = (1 - 1/b) P_S x + x/b, at pixel i. *)
Definition pixel {V} (O : ops V) (x : list V) (i : nat) : V := nth i x (vzero O).
Definition masked {V} (O : ops V) (sup : list bool) (x : list V) (y : list V) : Prop :=
  length y = length x /\ forall i, i < length x -> pixel O y i = (if nth i sup false then pixel O x i else vzero O).
Definition combination {V} (O : ops V) (p q : Qc) (x y z : list V) : Prop :=
  length z = length x /\ forall i, i < length x -> pixel O z i = vadd O (vscale O p (pixel O x i)) (vscale O q (pixel O y i)).
Definition difference_map {V} (O : ops V) (PM : list V -> list V) (b : Qc) (sup : list bool) (x x' : list V) : Prop :=
  exists ps fm fs a, masked O sup x ps /\
    combination O (1 + 1 / b)%Qc (- (1 / b))%Qc (PM x) x fm /\ masked O sup fm a /\
    combination O (1 - 1 / b)%Qc (1 / b)%Qc ps x fs /\
    length x' = length x /\
    forall i, i < length x -> pixel O x' i = vadd O (pixel O x i) (vscale O b (vadd O (pixel O a i) (vscale O (-(1))%Qc (pixel O (PM fs) i)))).
(** Iteration n refines the support. *)
Definition refines (P : params) (n : nat) : Prop :=
  sw_flag P = true /\ (sw_start P * qn (n_iter P) <= qn n)%Qc /\ (qn n <= sw_end P * qn (n_iter P))%Qc /\ Nat.divide (sw_step P) n.
Definition averaged (P : params) (n : nat) : bool := Qc_ltb (start_avg P * qn (n_iter P))%Qc (qn n).
(** Pixelwise sum of a list of arrays of m pixels. *)
Definition total {V} (O : ops V) (xs : list (list V)) (i : nat) : V := fold_left (fun a x => vadd O a (pixel O x i)) xs (vzero O).

(** Pixel idx lies in the box of half-width r around the centre s//2 of every axis. *)
Definition in_box (r : Z) (shape idx : list nat) : Prop :=
  Forall2 (fun s i => Z.of_nat s / 2 - r <= Z.of_nat i < Z.of_nat s / 2 + r)%Z shape idx.
(** What the slices select when the radius exceeds half an axis. *)
Definition in_wrapped (r : Z) (shape idx : list nat) : Prop :=
  Forall2 (fun s i => let c := (Z.of_nat s / 2)%Z in
     if (r <=? c)%Z then (c - r <= Z.of_nat i < c + r)%Z else (Z.of_nat s + c - r <= Z.of_nat i)%Z) shape idx.
(** D is the square of the distance of pixel idx from the central one: entry d//2 of every axis *)
Definition from_centre (dims idx : list nat) (D : Z) : Prop :=
  exists cs, Forall2 (fun d c => d = 2 * c \/ d = 2 * c + 1) dims cs /\ length idx = length dims /\
    D = fold_right Z.add 0%Z (map (fun p => ((Z.of_nat (snd p) - Z.of_nat (fst p)) ^ 2)%Z) (combine cs idx)).
