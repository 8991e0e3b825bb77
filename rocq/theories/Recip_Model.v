(* Model of /repo/src/ctrans.c lines 163-299 (processImages and what it calls) and of
   /repo/skbeam/core/recip.py (process_to_q's argument handling, hkl_to_q, gisaxs), over
   the reals (no rounding).  C buffers are lists with checked access: [None] is an access
   outside the buffer.  Each C routine works on the block of one image, pixel by pixel,
   and reads a pixel before it writes it, so a routine is a read of the block, a
   computation per pixel and a write of the block.  int overflow of xSize * ySize,
   malloc failure and threading (the images' blocks are disjoint) are left out. *)
From Coq Require Import Reals.
From Verif Require Import Common.
Local Open Scope R_scope.

Notation V3 := (R * R * R)%type.
Definition v3 (a b c : R) : V3 := (a, b, c).
(** ** Buffers *)
Definition read_block (buf : list R) (off n : nat) : option (list R) :=
  if (off + n <=? length buf)%nat then Some (firstn n (skipn off buf)) else None.
Definition write_block (buf : list R) (off : nat) (vals : list R) : option (list R) :=
  if (off + length vals <=? length buf)%nat then Some (firstn off buf ++ vals ++ skipn (off + length vals) buf) else None.
Fixpoint triples (l : list R) : list V3 := match l with a :: b :: c :: r => v3 a b c :: triples r | _ => [] end.
Fixpoint couples (l : list R) : list (R * R) := match l with a :: b :: r => (a, b) :: couples r | _ => [] end.
Definition flat3 (l : list V3) : list R := flat_map (fun v => [fst (fst v); snd (fst v); snd v]) l.
Definition flat2 (l : list (R * R)) : list R := flat_map (fun v => [fst v; snd v]) l.

(** CCD of ctrans.h *)
Record ccd := Ccd { xSize : nat; ySize : nat; xPixSize : R; yPixSize : R; xCen : R; yCen : R; cdist : R }.
(** calcDeltaGamma, 203 *)
Definition delta_gamma (d : ccd) (delCen gamCen : R) : list (R * R) :=
  let xPix := xPixSize d / cdist d in let yPix := yPixSize d / cdist d in
  flat_map (fun j => map (fun i => (delCen - atan ((INR j - yCen d) * yPix), gamCen - atan ((INR i - xCen d) * xPix)))
                         (seq 0 (xSize d))) (seq 0 (ySize d)).
(** calcQTheta, 222 *)
Definition q_theta (theta mu lambda : R) (dg : R * R) : V3 :=
  let kl := 2 * PI / lambda in let del := fst dg in let gam := snd dg in
  v3 (-1 * sin gam * kl - sin mu * kl)
     (cos (del - theta) * cos gam * kl - cos theta * cos mu * kl)
     (sin (del - theta) * cos gam * kl + sin theta * cos mu * kl).
(** matmulti, 278 *)
Definition mat := (V3 * V3 * V3)%type.
Definition dot (a b : V3) : R := 0 + fst (fst a) * fst (fst b) + snd (fst a) * snd (fst b) + snd a * snd b.
Definition mulv (m : mat) (v : V3) : V3 := v3 (dot (fst (fst m)) v) (dot (snd (fst m)) v) (dot (snd m) v).
(** calcQPhiFromQTheta, 255 *)
Definition phi_matrix (chi phi : R) : mat :=
  (v3 (cos chi) 0 (-1 * sin chi),
   v3 (sin phi * sin chi) (cos phi) (sin phi * cos chi),
   v3 (cos phi * sin chi) (-1 * sin phi) (cos phi * cos chi)).
(** 173-178: the permuted inverse *)
Definition permute (row : V3) : V3 := v3 (-1 * snd row) (snd (fst row)) (fst (fst row)).
Definition ubi (l : list R) : option mat :=
  match l with
  | [a; b; c; d; e; f; g; h; i] => Some (permute (v3 a b c), permute (v3 d e f), permute (v3 g h i))
  | _ => None
  end.
Definition over_block (buf : list R) (off n : nat) (f : V3 -> V3) : option (list R) :=
  b <- read_block buf off n ;; write_block buf off (flat3 (map f (triples b))).
(** one pass of the loop at 181 *)
Definition image_step (d : ccd) (lambda : R) (mode : nat) (angles : list R) (U : mat)
           (st : list R * list R) (i : nat) : option (list R * list R) :=
  let size := (xSize d * ySize d)%nat in let (delgam, q) := st : list R * list R in
  a <- read_block angles (i * 6) 6 ;;
  match a with
  | [del; theta; chi; phi; mu; gam] =>
    delgam' <- write_block delgam (i * size * 2) (flat2 (delta_gamma d del gam)) ;;
    dg <- read_block delgam' (i * size * 2) (size * 2) ;;
    q1 <- write_block q (i * size * 3) (flat3 (map (q_theta theta mu lambda) (couples dg))) ;;
    q2 <- (if (1 <? mode)%nat then over_block q1 (i * size * 3) (size * 3) (mulv (phi_matrix chi phi)) else Some q1) ;;
    q3 <- (if (mode =? 4)%nat then over_block q2 (i * size * 3) (size * 3) (mulv U) else Some q2) ;;
    Some (delgam', q3)
  | _ => None
  end.
(** processImages on fresh buffers; the content of fresh memory is arbitrary *)
Definition process_images (delgam q : list R) (d : ccd) (lambda : R) (mode nimages : nat) (angles ubinv : list R) : option (list R) :=
  u <- read_block ubinv 0 9 ;; U <- ubi u ;;
  st <- foldM (image_step d lambda mode angles U) (seq 0 nimages) (delgam, q) ;;
  Some (snd st).
(** ** hkl_to_q, 196 *)
Definition hkl_to_q (v : V3) : R := sqrt (fst (fst v) * fst (fst v) + snd (fst v) * snd (fst v) + snd v * snd v).

(** ** gisaxs, 248 *)
Definition atan2 (y x : R) : R :=
  if Rlt_dec 0 x then atan (y / x)
  else if Rlt_dec x 0 then (if Rle_dec 0 y then atan (y / x) + PI else atan (y / x) - PI)
  else if Rlt_dec 0 y then PI / 2 else if Rlt_dec y 0 then - (PI / 2) else 0.
Record gis := Gis { alpha_i : R; theta_f : R; alpha_f : R; tilt_angle : R; qx : R; qy : R; qz : R; qr : R }.
(** entry [a][b] of the result for detector_size = (n0, n1): y, x = np.indices(detector_size);
    the pixel sizes are in metres here *)
Definition gisaxs_at (inc refl pixel : R * R) (dist wavelength theta_i : R) (y x : R) : gis :=
  let inc_x := fst inc in let inc_y := snd inc in
  let tilt := atan2 ((fst refl - inc_x) * fst pixel) ((snd refl - inc_y) * snd pixel) in
  let ai := atan2 ((snd refl - inc_y) * snd pixel) dist / 2 in
  let af := atan2 ((y - inc_y) * snd pixel) dist - ai in
  let two_theta := atan2 ((x - inc_x) * fst pixel) dist in
  let tf := two_theta / 2 - theta_i in
  let k := 2 * PI / wavelength in
  let qx_ := (cos af * cos (2 * tf) - cos ai * cos (2 * theta_i)) * k in
  let qy_ := cos af * sin (2 * tf) - cos ai * sin (2 * theta_i) in
  let qz_ := sin af + sin ai in
  let qy1 := (qz_ * sin tilt + qy_ * cos tilt) * k in
  let qz1 := (qz_ * cos tilt - qy_ * sin tilt) * k in
  Gis ai tf af tilt qx_ qy1 qz1 (sqrt (qx_ ^ 2 + qy1 ^ 2)).
Definition gisaxs (inc refl pixel : R * R) (n0 n1 : nat) (dist wavelength theta_i : R) (a b : nat) : option gis :=
  if (a <? n0)%nat && (b <? n1)%nat then Some (gisaxs_at inc refl pixel dist wavelength theta_i (INR a) (INR b)) else None.

(** ** process_to_q, 143-148: the frame_mode argument; None raises KeyError *)
From Coq Require Import String.
Definition frame_names : list string := ["theta"; "phi"; "cart"; "hkl"]%string.
Fixpoint position (s : string) (l : list string) (j : nat) : option nat :=
  match l with [] => None | a :: r => if String.eqb a s then Some j else position s r (S j) end.
Definition frame_mode (s : option string) : option nat :=
  match s with None => Some 4%nat | Some s => match position s frame_names 0 with Some j => Some (j + 1)%nat | None => None end end.
