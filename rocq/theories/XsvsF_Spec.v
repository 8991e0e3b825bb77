(* Exact share of pixels in a bin, its average over images and its variance. *)
From Coq Require Import Reals.
From Verif Require Import Common.
Local Open Scope R_scope.
Definition share (e : Z * Z) : R := if (snd e =? 0)%Z then 0 else IZR (fst e) / IZR (snd e).
Definition counted (e : Z * Z) : Prop := (0 <= fst e <= snd e)%Z /\ (snd e <= 2 ^ 53)%Z.
Definition average (l : list R) : R := fold_right Rplus 0 l / INR (length l).
Definition variance (l : list R) : R := average (map (fun x => (x - average l) * (x - average l)) l).
(** the histograms among the images *)
Definition given {A} (l : list (option A)) : list A := flat_map (fun e => match e with Some x => [x] | None => [] end) l.
