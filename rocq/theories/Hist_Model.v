(* skbeam/core/accumulators/histogram.pyx: class Histogram, in exact arithmetic
   (the rounding of the index computation is the subject of FloatIndex_Model).
   Not modelled: logging, the translation of scalar/list/tuple coordinates into
   arrays (132-139), weights of unsupported type, negative strides. *)
From Verif Require Import Common Utils_Model Scatter.

(** One axis (nbin, low, high), lines 80-83. *)
Record axis := mkAxis { ax_n : nat; ax_low : Qc; ax_high : Qc }.

(** Element type of a coordinate array: int64, float64, or another of the
    numeric types accepted by the fused type coordnumtype (22-32). *)
Inductive dtype := DInt | DFloat | DOther (tag : nat).
Definition dtype_eqb (a b : dtype) : bool :=
  match a, b with
  | DInt, DInt | DFloat, DFloat => true
  | DOther s, DOther t => s =? t
  | _, _ => false
  end.

(** A one-dimensional numpy array: a window into a buffer.  Element i is
    buffer[offset + i*stride]; a freshly allocated array has stride 1. *)
Record coord := mkCoord { c_type : dtype; c_buf : list Qc; c_off : nat; c_stride : nat; c_len : nat }.
(** x[i] through the buffer protocol (typed arguments of _fill1d, _fill2d). *)
Definition view_get (c : coord) (i : nat) : option Qc := nth_error (c_buf c) (c_off c + i * c_stride c).
(** ptr[i] with ptr = <T*> x.data (46-47 and 231-240): strides are ignored. *)
Definition raw_get (c : coord) (i : nat) : option Qc := nth_error (c_buf c) (c_off c + i).

(** 286-289 find_indices with binsize = (high - low) / nbin (92-93). *)
Definition find_index (a : axis) (x : Qc) : option nat :=
  if Qc_leb (ax_low a) x && Qc_ltb x (ax_high a)
  then Some (Z.to_nat (qtrunc ((x - ax_low a) / ((ax_high a - ax_low a) / qn (ax_n a)))%Qc))
  else None.

(** Effect of a call. [Crash]: read or write outside an array. *)
Inductive result := Done (values : list Qc) | ValueError | TypeError | Crash.
Definition lift (o : option (list Qc)) : result := match o with Some v => Done v | None => Crash end.

(** 77-83,90 prod(nbins) zeros, row-major. *)
Definition size (axes : list axis) : nat := fold_right (fun a s => ax_n a * s) 1 axes.
Definition zeros (axes : list axis) : list Qc := repeat 0%Qc (size axes).

(** weight[wstride * i], wstride = 0 if weight.size == 1 else 1 (172, 192, 242). *)
Definition weight_at (ws : list Qc) (i : nat) : option Qc :=
  nth_error ws (if length ws =? 1 then 0 else i).

(** 165-179 _fill1d *)
Definition fill1d (a : axis) (x : coord) (ws values : list Qc) : option (list Qc) :=
  foldM (fun v i =>
    p <- view_get x i ;;
    match find_index a p with
    | None => Some v
    | Some k => w <- weight_at ws i ;; add_at v k w
    end) (seq 0 (c_len x)) values.

(** 182-201 _fill2d; data[xidx][yidx] of an (nx, ny) array is element
    xidx*ny + yidx of the flat array provided yidx < ny. *)
Definition fill2d (a b : axis) (x y : coord) (ws values : list Qc) : option (list Qc) :=
  foldM (fun v i =>
    p <- view_get x i ;;
    match find_index a p with
    | None => Some v
    | Some k =>
      q <- view_get y i ;;
      match find_index b q with
      | None => Some v
      | Some l => w <- weight_at ws i ;;
                  if l <? ax_n b then add_at v (k * ax_n b + l) w else None
      end
    end) (seq 0 (c_len x)) values.

(** self._values.strides // itemsize of a row-major array. *)
Fixpoint strides (axes : list axis) : list nat :=
  match axes with [] => [] | _ :: r => size r :: strides r end.

Definition is_int (c : coord) : bool := match c_type c with DInt => true | _ => false end.
Definition is_float (c : coord) : bool := match c_type c with DFloat => true | _ => false end.

(** 231-240,245-266 loop over the integer coordinates, then over the floating ones;
    [didx] is abandoned as soon as one coordinate is out of range. *)
Fixpoint flat_index (cs : list (coord * (axis * nat))) (i : nat) (acc : nat) : option (option nat) :=
  match cs with
  | [] => Some (Some acc)
  | (c, (a, s)) :: r =>
    p <- raw_get c i ;;
    match find_index a p with
    | None => Some None
    | Some k => flat_index r i (acc + s * k)
    end
  end.

(** 204-269 _fillnd.  np.argsort(kind='mergesort') of the type indices puts the
    int64 coordinates first and the float64 ones next, each in the given order;
    lows, highs, bin sizes and strides are permuted the same way (215-227). *)
Definition fillnd (axes : list axis) (cs : list coord) (ws values : list Qc) : result :=
  if negb (forallb (fun c => is_int c || is_float c) cs) then TypeError
  else
    let tagged := combine cs (combine axes (strides axes)) in
    let ordered := filter (fun t => is_int (fst t)) tagged ++ filter (fun t => is_float (fst t)) tagged in
    lift (foldM (fun v i =>
      d <- flat_index ordered i 0 ;;
      match d with
      | None => Some v
      | Some k => w <- weight_at ws i ;; add_at v k w
      end) (seq 0 (match cs with [] => 0 | c :: _ => c_len c end)) values).

(** 108-162 fill.  Mixed element types in two dimensions are rejected by the
    dispatch on the fused type (TypeError). *)
Definition fill (axes : list axis) (cs : list coord) (ws values : list Qc) : result :=
  if negb (length cs =? length axes) then ValueError
  else
    let nexpected := match cs with [] => 0 | c :: _ => c_len c end in
    if negb (forallb (fun c => c_len c =? nexpected) cs) then ValueError
    else if negb (length ws =? 1) && negb (length ws =? nexpected) then ValueError
    else match axes, cs with
         | [a], [x] => lift (fill1d a x ws values)
         | [a; b], [x; y] => if dtype_eqb (c_type x) (c_type y)
                             then lift (fill2d a b x y ws values) else TypeError
         | _, _ => fillnd axes cs ws values
         end.

(** 102-105 reset *)
Definition reset (values : list Qc) : list Qc := map (fun _ => 0%Qc) values.

(** A session on one histogram: a failing fill leaves the state of the failing
    call ([None] when memory was corrupted). *)
Inductive op := Fill (cs : list coord) (ws : list Qc) | Reset.
Definition run1 (axes : list axis) (values : list Qc) (o : op) : option (list Qc) :=
  match o with
  | Reset => Some (reset values)
  | Fill cs ws => match fill axes cs ws values with
                  | Done v => Some v
                  | ValueError | TypeError => Some values
                  | Crash => None
                  end
  end.
Definition run (axes : list axis) (ops : list op) : option (list Qc) :=
  foldM (run1 axes) ops (zeros axes).
