(* What C43 means: which images a level combines, and what is averaged. *)
From Verif Require Import Common Xsvs_Model.

Fixpoint binom (n k : nat) : Z :=
  match n, k with
  | _, 0 => 1%Z
  | 0, S _ => 0%Z
  | S n', S k' => (binom n' k' + binom n' (S k'))%Z
  end.
Fixpoint zsum (n : nat) (f : nat -> Z) : Z := match n with 0 => 0%Z | S m => (zsum m f + f m)%Z end.
(** pixel p of image m; images before the first count as zero *)
Definition pixel (imgs : list frame) (m p : nat) : Z :=
  match nth_error imgs m with Some (Some x) => nth p x 0%Z | _ => 0%Z end.
Definition broken (imgs : list frame) (m : nat) : bool := match nth_error imgs m with Some None => true | _ => false end.
(** the image level [l] holds after frame n: weights binom l k on frame n - k; [conv] is what the
    pixels' type stores for that sum *)
Definition mixed_as (conv : Z -> Z) (npix : nat) (imgs : list frame) (l n : nat) : frame :=
  if existsb (fun k => (k <=? n) && broken imgs (n - k)) (seq 0 (l + 1)) then None
  else Some (map (fun p => conv (zsum (l + 1) (fun k => if k <=? n then (binom l k * pixel imgs (n - k) p)%Z else 0%Z))) (seq 0 npix)).
Definition exactly : Z -> Z := fun z => z.
Notation mixed := (mixed_as exactly).
Definition is_good (f : frame) : bool := match f with Some _ => true | None => false end.
(** mean of [h] over the good frames among the first n; 0 if there is none *)
Definition mean_good (frames : nat -> frame) (h : list Z -> Qc) (n : nat) : Qc :=
  let goods := filter (fun m => is_good (frames m)) (seq 0 n) in
  if length goods =? 0 then 0%Qc
  else (qsum (map (fun m => match frames m with Some px => h px | None => 0%Qc end) goods) / qn (length goods))%Qc.
