(* Model of /repo/skbeam/core/dpc.py.  An image is a shape with a pixel function; exact
   arithmetic.  The nonlinear fit of one diffraction pattern (dpc_fit and the transforms
   before it) is a parameter of [lazy_dpc].  [recon] is over the reals with the discrete
   Fourier transform pair as parameters. *)
From Coq Require Import Reals.
From Verif Require Import Common Sums Utils_Model.

(** ** image_reduction, 51-91 *)
Record img := Img { ih : nat; iw : nat; px : nat -> nat -> Qc }.
(** the roi argument: None, a Python sequence, or an ndarray, as the docstring asks for
    ([if roi:] raises ValueError on an array of four elements) *)
Inductive roi_arg := NoRoi | RoiSeq (r c row col : Z) | RoiArray.
(** caller: what the caller's array holds; local: what the name [im] holds; shared:
    whether they are the same object. *)
Record view := View { caller : img; local : img; shared : bool }.
Definition set_px (m : img) (r c : nat) (v : Qc) : img :=
  Img (ih m) (iw m) (fun i j => if (i =? r) && (j =? c) then v else px m i j).
Definition write (s : view) (rc : Z * Z) : option view :=
  r <- pyindex (Z.of_nat (ih (local s))) (fst rc) ;;
  c <- pyindex (Z.of_nat (iw (local s))) (snd rc) ;;
  let m := set_px (local s) r c 0%Qc in
  Some (View (if shared s then m else caller s) m (shared s)).
(** im[lo0:hi0, lo1:hi1] *)
Definition crop (m : img) (lo0 hi0 lo1 hi1 : Z) : img :=
  let a := Z.to_nat (pybound (Z.of_nat (ih m)) lo0) in let b := Z.to_nat (pybound (Z.of_nat (ih m)) hi0) in
  let c := Z.to_nat (pybound (Z.of_nat (iw m)) lo1) in let d := Z.to_nat (pybound (Z.of_nat (iw m)) hi1) in
  Img (b - a) (d - c) (fun i j => px m (a + i) (c + j)).
Definition sum_axis0 (m : img) : list Qc := map (fun j => sumn (ih m) (fun i => px m i j)) (seq 0 (iw m)).
Definition sum_axis1 (m : img) : list Qc := map (fun i => sumn (iw m) (fun j => px m i j)) (seq 0 (ih m)).
(** Result: the caller's image afterwards, xline, yline. *)
Definition image_reduction (im : img) (roi : roi_arg) (bad : list (Z * Z)) : option (img * list Qc * list Qc) :=
  s <- match bad with
       | [] => Some (View im im true)
       | _ => foldM write bad (View im im false)      (* im = im.copy() *)
       end ;;
  m <- match roi with
       | NoRoi => Some (local s)
       | RoiSeq r c row col => Some (crop (local s) r (r + row) c (c + col))
       | RoiArray => None
       end ;;
  Some (caller s, sum_axis0 m, sum_axis1 m).

(** ** lazy_dpc, 342-453 *)
Section Lazy.
Context {I V Rf : Type} (zero : V) (ref_of : I -> Rf)
        (fitx fity : Rf -> I -> V * V).      (* (amplitude, gradient) *)
Record dpc_state := Dpc { ax : list (list V); ay : list (list V); gx : list (list V); gy : list (list V);
                          refd : Rf; index : nat }.
Definition zeros (rows cols : nat) : list (list V) := repeat (repeat zero cols) rows.
(** initialize_state, 412-423 *)
Definition initialize (rows cols : nat) (ref : I) : dpc_state :=
  Dpc (zeros rows cols) (zeros rows cols) (zeros rows cols) (zeros rows cols) (ref_of ref) 0.
(** np.unravel_index: ValueError when out of range *)
Definition unravel (rows cols k : nat) : option (nat * nat) :=
  if k <? rows * cols then Some (k / cols, k mod cols) else None.
Definition set2 (a : list (list V)) (i j : nat) (v : V) : option (list (list V)) :=
  row <- nth_error a i ;; row' <- upd row j v ;; upd a i row'.
(** the loop body, 433-453 *)
Definition step (rows cols : nat) (s : dpc_state) (im : I) : option dpc_state :=
  ij <- unravel rows cols (index s) ;;
  let (i, j) := ij : nat * nat in
  let (a1, g1) := fitx (refd s) im in
  let (a2, g2) := fity (refd s) im in
  gx' <- set2 (gx s) i j g1 ;; gy' <- set2 (gy s) i j g2 ;;
  ax' <- set2 (ax s) i j a1 ;; ay' <- set2 (ay s) i j a2 ;;
  Some (Dpc ax' ay' gx' gy' (refd s) (index s + 1)).
(** Run to exhaustion; the generator yields the (one) state object after every pattern. *)
Definition lazy_dpc (ref : I) (images : list I) (rows cols : nat) (st : option dpc_state) : option dpc_state :=
  let s := match st with Some s => s | None => initialize rows cols ref end in
  foldM (step rows cols) images s.
End Lazy.
Arguments dpc_state : clear implicits.

(** ** reconstruct_phase_from_partial_info, 520-539: what is handed to [recon].
    [nref] = (len(ref_fx), len(ref_fy)). *)
Inductive raised := Weighting | GxNone | ZeroEnergy.
Definition truthy (x : option Qc) : option Qc := match x with Some v => if Qc_eqb v 0%Qc then None else Some v | None => None end.
Definition scaled (sx : Qc) (a : list (list Qc)) : list (list Qc) := map (map (fun v => (v * sx)%Qc)) a.
Definition half_sum (a b : list (list Qc)) : list (list Qc) :=
  map (fun p => map (fun q => ((fst q + snd q) / qz 2)%Qc) (combine (fst p) (snd p))) (combine a b).
Definition gradients {Rf} (s : dpc_state Qc Rf) (nx ny : nat) (energy : Qc) (pixel_size focus : option Qc)
           (negate scale : bool) (weighting : Qc) : (list (list Qc) * list (list Qc) * list (list Qc)) + raised :=
  if Qc_ltb weighting 0%Qc || Qc_ltb 1%Qc weighting then inr Weighting else
  match truthy pixel_size, truthy focus with
  | Some p, Some f =>
    if Qc_eqb energy 0%Qc then inr ZeroEnergy else
    let lambda := (Q2Qc (124 # 100000) / energy)%Qc in
    let sc := (p / (lambda * f))%Qc in
    let gx1 := scaled sc (scaled (qn nx) (gx s)) in
    let gy1 := scaled sc (scaled (qn ny) (gy s)) in
    inl (if negate then scaled (-(1))%Qc gx1 else gx1, gy1, half_sum (ax s) (ay s))
  | _, _ =>
    if negate then inl (scaled (-(1))%Qc (gx s), gy s, half_sum (ax s) (ay s)) else inr GxNone
  end.

(** ** _rss_factory, 113: the grid behind beta (times 1j) *)
Definition beta_grid (n : nat) : list Qc :=
  linspace (qz (- (Z.of_nat n - 1) / 2)) (qz ((Z.of_nat n - 1) / 2)) (n - 1).

(** ** recon, 214-293 *)
Local Open Scope R_scope.
Notation C := (R * R)%type.
Definition czero : C := (0, 0).
Definition cadd (a b : C) : C := (fst a + fst b, snd a + snd b).
Definition cscale (r : R) (a : C) : C := (r * fst a, r * snd a).
Definition mjmul (a : C) : C := (snd a, - fst a).             (* -1j * a *)
Definition arr := nat -> nat -> C.
(** np.zeros((rows*pad, cols*pad)) with the image in the middle *)
Definition padded (rows cols padding : nat) (g : nat -> nat -> R) : arr :=
  fun i j => if ((padding * rows <=? i) && (i <? (padding + 1) * rows) && (padding * cols <=? j) && (j <? (padding + 1) * cols))%nat
             then (g (i - padding * rows)%nat (j - padding * cols)%nat, 0) else czero.
Definition fftshift (n m : nat) (a : arr) : arr :=
  fun i j => a ((i + (n - n / 2)) mod n)%nat ((j + (m - m / 2)) mod m)%nat.
Definition ifftshift (n m : nat) (a : arr) : arr :=
  fun i j => a ((i + n / 2) mod n)%nat ((j + m / 2) mod m)%nat.
(** 2*pi*arange(1 - mid, n - mid + 1)/(n*step), entry i *)
Definition axis (n : nat) (step : R) (i : nat) : R :=
  let mid := (Z.of_nat n / 2 + 1)%Z in 2 * PI * IZR (1 - mid + Z.of_nat i) / (INR n * step).
Definition recon (F Fi : nat -> nat -> arr -> arr) (rows cols : nat) (gx gy : nat -> nat -> R) (xstep ystep : R)
           (padding : nat) (weighting : R) : nat -> nat -> R :=
  let pad := (2 * padding + 1)%nat in
  let n := (rows * pad)%nat in let m := (cols * pad)%nat in
  let tx := fftshift n m (F n m (padded rows cols padding gx)) in
  let ty := fftshift n m (F n m (padded rows cols padding gy)) in
  let kx := fun (i j : nat) => axis m xstep j in
  let ky := fun (i j : nat) => axis n ystep i in
  let div := fun i j => (kx i j) ^ 2 * (1 - weighting) + (ky i j) ^ 2 * weighting in
  let c := fun i j => if Req_EM_T (div i j) 0 then czero else
      cscale (/ div i j) (mjmul (cadd (cscale (kx i j * (1 - weighting)) (tx i j)) (cscale (ky i j * weighting) (ty i j)))) in
  fun i j => fst (Fi n m (ifftshift n m c) (i + padding * rows)%nat (j + padding * cols)%nat).

(** ** _rss, 144-146: sum |diff - ref * v0 * exp(v1 * beta)|^2, arrays of length n *)
Definition cis (t : R) : C := (cos t, sin t).
Definition cprod (a b : C) : C := (fst a * fst b - snd a * snd b, fst a * snd b + snd a * fst b).
Definition residue (v0 v1 : R) (p : Qc * (C * C)) : C :=
  let t := v1 * Q2R (this (fst p)) in
  let y := cprod (cscale v0 (fst (snd p))) (cis t) in
  (fst (snd (snd p)) - fst y, snd (snd (snd p)) - snd y).
Fixpoint sum_sq (l : list C) : R := match l with [] => 0 | a :: r => fst a * fst a + snd a * snd a + sum_sq r end.
Definition rss (n : nat) (v0 v1 : R) (ref diff : list C) : R :=
  sum_sq (map (residue v0 v1) (combine (beta_grid n) (combine ref diff))).
