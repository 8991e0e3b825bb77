(* C54: raw binary files. *)
From Verif Require Import Common IoBin_Model IoBin_Proofs.

(** C54: element (i, j, k) of the array is item (i*ny + j)*nz + k after the header, zero past the end of the file *)
Theorem C54_read_3d : forall {B A} (decode : list B -> A) zero isize file nx ny nz h, 0 < isize -> nz <> 1 ->
  exists data, read_binary decode zero isize file (Z.of_nat nx) (Z.of_nat ny) (Z.of_nat nz) (Z.of_nat h) = Some (([nx; ny; nz], data), firstn h file) /\ length data = nx * ny * nz /\
  forall i j k, i < nx -> j < ny -> k < nz -> nth_error data ((i * ny + j) * nz + k) = Some (item decode zero isize file h ((i * ny + j) * nz + k)).
Proof. exact @read_3d. Qed.
Print Assumptions C54_read_3d.
Definition le16 (b : list Z) : Z := match b with [x; y] => (x + 256 * y)%Z | _ => (-1)%Z end.
Example C54_case_3d : read_binary le16 0%Z 2 [7;7;7; 1;0; 2;0; 3;1; 4]%Z 2 1 2 3 = Some (([2; 1; 2], [1; 2; 259; 0]%Z), [7;7;7]%Z).
Proof. reflexivity. Qed.

Theorem C54_read_2d : forall {B A} (decode : list B -> A) zero isize file nx ny h, 0 < isize -> ny <> 1 ->
  exists data, read_binary decode zero isize file (Z.of_nat nx) (Z.of_nat ny) 1 (Z.of_nat h) = Some (([nx; ny], data), firstn h file) /\ length data = nx * ny /\
  forall i j, i < nx -> j < ny -> nth_error data (i * ny + j) = Some (item decode zero isize file h (i * ny + j)).
Proof. exact @read_2d. Qed.
Print Assumptions C54_read_2d.
Example C54_case_2d : read_binary le16 0%Z 2 [1;0; 2;0; 3;0; 4;0; 5;0]%Z 1 2 1 2 = Some (([1; 2], [2; 3]%Z), [1; 0]%Z).
Proof. reflexivity. Qed.

(** a single column is returned whole, whatever nx says *)
Theorem C54_read_1d : forall {B A} (decode : list B -> A) zero isize file nx h, 0 < isize ->
  exists data, read_binary decode zero isize file nx 1 1 (Z.of_nat h) = Some (([length data], data), firstn h file) /\ length data = (length file - h) / isize /\
  forall i, i < length data -> nth_error data i = Some (item decode zero isize file h i).
Proof. exact @read_1d. Qed.
Print Assumptions C54_read_1d.
Theorem C54_nx_respected_refuted : ~ (forall {B A} (decode : list B -> A) zero isize file nx ny nz h a hd,
  read_binary decode zero isize file (Z.of_nat nx) (Z.of_nat ny) (Z.of_nat nz) (Z.of_nat h) = Some (a, hd) -> length (snd a) = nx * ny * nz).
Proof. intros H. specialize (H Z Z le16 0%Z 2 [1;0;2;0]%Z 1 1 1 0 _ _ eq_refl). discriminate H. Qed.
Print Assumptions C54_nx_respected_refuted.

(** what was written in C order comes back *)
Theorem C54_round_trip : forall {B A} (decode : list B -> A) zero isize header (xs : list A) enc nx ny nz, 0 < isize -> (forall a, length (enc a) = isize) -> (forall a, decode (enc a) = a) -> nz <> 1 -> length xs = nx * ny * nz ->
  read_binary decode zero isize (header ++ flat_map enc xs) (Z.of_nat nx) (Z.of_nat ny) (Z.of_nat nz) (Z.of_nat (length header)) = Some (([nx; ny; nz], xs), header).
Proof. exact @read_written. Qed.
Print Assumptions C54_round_trip.
Example C54_round_trip_case : read_binary le16 0%Z 2 ([9]%Z ++ flat_map (fun v => [v mod 256; v / 256]%Z) [300; 5]%Z) 1 1 2 1 = Some (([1; 1; 2], [300; 5]%Z), [9]%Z).
Proof. reflexivity. Qed.
