(* Model of sgolay2d of /repo/skbeam/core/smoothing.py, 40-149.
   Values are exact rationals; fftconvolve is the exact convolution; np.linalg.pinv is a parameter of
   the model and the theorems say which of its properties they use.  An image is its shape and a
   function of the two indices.  Images with fewer than half_size + 1 rows or columns are not modelled
   beyond raising (the code raises a ValueError there except for a few shapes that numpy broadcasts). *)
From Verif Require Import Common Sums.

Record image := { rows : Z; cols : Z; px : Z -> Z -> Qc }.
Inductive result (A : Type) := Val (a : A) | ValueError | IndexError.
Arguments Val {A} _. Arguments ValueError {A}. Arguments IndexError {A}.
(** 78: exps *)
Definition exps (order : nat) : list (nat * nat) := flat_map (fun k => map (fun n => (k - n, n)) (seq 0 (S k))) (seq 0 (S order)).
(** 81-85: ind, dx, dy *)
Definition ind (h w : nat) : list Z := map (fun i => (Z.of_nat i - Z.of_nat h)%Z) (seq 0 w).
Definition dxs (h w : nat) : list Z := flat_map (fun x => repeat x w) (ind h w).
Definition dys (h w : nat) : list Z := concat (repeat (ind h w) w).
(** 88-90: the design matrix, as a list of rows *)
Definition design (order h w : nat) : list (list Qc) :=
  map (fun p => map (fun e => (qz (fst p) ^ fst e * qz (snd p) ^ snd e)%Qc) (exps order)) (combine (dxs h w) (dys h w)).
Definition qabs (x : Qc) : Qc := if Qc_ltb x 0%Qc then (- x)%Qc else x.
(** one element *)
Definition get (s : Z -> Z -> Qc) (i j : Z) : Qc := s i j.
(** assignment to the slice [r0:r1, c0:c1] *)
Definition assign (r0 r1 c0 c1 : Z) (v : Z -> Z -> Qc) (s : Z -> Z -> Qc) : Z -> Z -> Qc :=
  fun i j => if ((r0 <=? i) && (i <? r1) && (c0 <=? j) && (j <? c1))%bool%Z then v i j else s i j.
(** 93-134: the padded image *)
Definition pad (h : Z) (m : image) : Z -> Z -> Qc :=
  let f := px m in
  let N := rows m in
  let M := cols m in
  let s0 := fun _ _ => 0%Qc in
  (* 96-97: top band *)
  let s1 := assign 0 h h (M + h) (fun i j => let band := get f 0 (j - h) in (band - qabs (get f (h - i) (j - h) - band))%Qc)%Z s0 in
  (* 99-102: bottom band *)
  let s2 := assign (N + h) (N + 2 * h) h (M + h) (fun i j => let band := get f (N - 1) (j - h) in (band + qabs (get f (N - 2 - (i - N - h)) (j - h) - band))%Qc)%Z s1 in
  (* 104-105: left band *)
  let s3 := assign h (N + h) 0 h (fun i j => let band := get f (i - h) 0 in (band - qabs (get f (i - h) (h - j) - band))%Qc)%Z s2 in
  (* 107-110: right band *)
  let s4 := assign h (N + h) (M + h) (M + 2 * h) (fun i j => let band := get f (i - h) (M - 1) in (band + qabs (get f (i - h) (M - 2 - (j - M - h)) - band))%Qc)%Z s3 in
  (* 112: central band *)
  let s5 := assign h (N + h) h (M + h) (fun i j => get f (i - h) (j - h))%Z s4 in
  (* 115-118: top left corner *)
  let s6 := assign 0 h 0 h (fun i j => let band := get f 0 0 in (band - qabs (get f (h - i) (h - j) - band))%Qc)%Z s5 in
  (* 120-123: bottom right corner *)
  let s7 := assign (N + h) (N + 2 * h) (M + h) (M + 2 * h) (fun i j => let band := get f (N - 1) (M - 1) in (band + qabs (get f (N - 2 - (i - N - h)) (M - 2 - (j - M - h)) - band))%Qc)%Z s6 in
  (* 126-129: top right corner *)
  let s8 := assign 0 h (M + h) (M + 2 * h) (fun i j => let band := get s7 h j in (band - qabs (get s7 (2 * h - i) j - band))%Qc)%Z s7 in
  (* 131-134: bottom left corner *)
  assign (N + h) (N + 2 * h) 0 h (fun i j => let band := get s8 i h in (band - qabs (get s8 i (2 * h - j) - band))%Qc)%Z s8.
(** fftconvolve(s, k, mode="valid") for a w x w kernel, given row by row; the result has the shape of
    the image before padding *)
Definition convolve (w : nat) (kernel : list Qc) (s : Z -> Z -> Qc) : Z -> Z -> Qc :=
  fun i j => sumn w (fun a => sumn w (fun b => (nth (a * w + b) kernel 0 * get s (i + Z.of_nat (w - 1 - a)) (j + Z.of_nat (w - 1 - b)))%Qc)).
Inductive derivative := DNone | DCol | DRow | DBoth | DOther.
(** sgolay2d, 40-149: the images returned (none for an unknown derivative) *)
Section SG.
Variable pinv : list (list Qc) -> list (list Qc).
Definition sgolay2d (m : image) (window order : Z) (d : derivative) : result (list image) :=
  if (window mod 2 =? 0)%Z then ValueError else
  (* window_size**2 < n_terms, doubled *)
  if (2 * (window * window) <? (order + 1) * (order + 2))%Z then ValueError else
  (* 81-85: np.repeat refuses a negative count *)
  if (window <? 0)%Z then ValueError else
  let hz := (window / 2)%Z in
  let h := Z.to_nat hz in
  let w := Z.to_nat window in
  (* 96-112: for half_size = 0 the slice 0:-0 is empty and the central assignment raises *)
  if (hz =? 0)%Z then ValueError else
  if (rows m <? hz + 1)%Z || (cols m <? hz + 1)%Z then ValueError else
  let A := if (order <? 0)%Z then repeat [] (w * w) else design (Z.to_nat order) h w in
  let P := pinv A in
  let s := pad hz m in
  let out k := {| rows := rows m; cols := cols m; px := convolve w k s |} in
  let row i (f : list Qc -> result (list image)) := match nth_error P i with Some r => f r | None => IndexError end in
  match d with
  | DNone => row 0 (fun k => Val [out k])
  | DCol => row 1 (fun k => Val [out (map Qcopp k)])
  | DRow => row 2 (fun k => Val [out (map Qcopp k)])
  | DBoth => row 1 (fun c => row 2 (fun r => Val [out (map Qcopp r); out (map Qcopp c)]))
  | DOther => Val []
  end.
End SG.
