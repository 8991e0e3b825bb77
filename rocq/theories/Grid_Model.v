(* src/ctrans.c: c_grid3d (408-553), exact arithmetic, and the masking of
   skbeam/core/utils.py: grid3d (796-953).
   Not modelled: memory allocation failure, the optional output arrays (always
   fresh zeros when called from grid3d), ignore_nan=1, logging.  The square root
   taken for the standard error is not computed: the model returns its square.
   Rounding of the cell index is the subject of FloatIndex_Model. *)
From Verif Require Import Common Utils_Model Scatter.

(** grid_start[a], grid_stop[a], n_grid[a]. *)
Record gaxis := mkG { g_start : Qc; g_stop : Qc; g_n : nat }.
(** One row of data: three coordinates and an intensity (None = NaN). *)
Notation gpoint := (Qc * Qc * Qc * option Qc)%type.

(** 474-485 relative position and cell number on one axis.  With an empty axis
    (stop = start) the quotient is inf or NaN and fails the range test. *)
Definition axis_cell (a : gaxis) (x : Qc) : option nat :=
  let len := (g_stop a - g_start a)%Qc in
  if Qc_eqb len 0%Qc then None
  else let pos := ((x - g_start a) / len)%Qc in
       if Qc_leb 0%Qc pos && Qc_ltb pos 1%Qc then Some (Z.to_nat (qtrunc (pos * qn (g_n a))%Qc)) else None.

(** 487-489 flat position. *)
Definition cell (ax ay az : gaxis) (p : gpoint) : option nat :=
  let '(x, y, z, _) := p in
  match axis_cell ax x, axis_cell ay y, axis_cell az z with
  | Some i, Some j, Some k => Some (i * (g_n ay * g_n az) + j * g_n az + k)
  | _, _, _ => None
  end.

(** Per-thread accumulators _dout, _d2out, _nout (444-446). *)
Record acc := mkAcc { a_d : list Qc; a_d2 : list Qc; a_n : list Qc }.

(** 466-496 body of the loop over the data points; None = write out of bounds. *)
Definition deposit (ax ay az : gaxis) (s : acc) (p : gpoint) : option acc :=
  match snd p with
  | None => Some s
  | Some v =>
    match cell ax ay az p with
    | None => Some s
    | Some c => d <- add_at (a_d s) c v ;;
                d2 <- add_at (a_d2 s) c (v * v)%Qc ;;
                n <- add_at (a_n s) c 1%Qc ;;
                Some (mkAcc d d2 n)
    end
  end.
Definition deposit_all ax ay az (pts : list gpoint) (s : acc) : option acc :=
  foldM (deposit ax ay az) pts s.

Fixpoint zipadd (a b : list Qc) : list Qc :=
  match a, b with x :: a', y :: b' => (x + y)%Qc :: zipadd a' b' | _, _ => [] end.
Definition acc_add (s t : acc) : acc :=
  mkAcc (zipadd (a_d s) (a_d t)) (zipadd (a_d2 s) (a_d2 t)) (zipadd (a_n s) (a_n t)).

(** Thread t runs its share of the points, starting from the array contents left
    by the clearing loop (455-459); see [GridRace_Model] for that loop. *)
Fixpoint run_threads ax ay az (work : list (acc * list gpoint)) : option (list acc) :=
  match work with
  | [] => Some []
  | (s, pts) :: r => a <- deposit_all ax ay az pts s ;; l <- run_threads ax ay az r ;; Some (a :: l)
  end.

(** 514-520 gather into thread 0. *)
Definition gather (l : list acc) : option acc :=
  match l with [] => None | a :: r => Some (fold_left acc_add r a) end.

(** 524-539 outputs (fresh zero arrays plus the gathered sums) and the squared
    standard error: var = (d2 - d^2/n)/n, stderror = sqrt(var)/sqrt(n). *)
Record cellout := mkOut { o_total : Qc; o_occ : Qc; o_mean : option Qc; o_se2 : Qc }.
Definition finish (d d2 n : Qc) : cellout :=
  mkOut d n
    (if Qc_eqb n 0%Qc then None else Some (d / n)%Qc)      (* utils.py:939 mean = total / occupancy *)
    (if Qc_eqb n 0%Qc then 0%Qc else ((d2 - d * d / n) / n / n)%Qc).
Fixpoint finish_all (d d2 n : list Qc) : list cellout :=
  match d, d2, n with
  | x :: d', y :: d2', z :: n' => finish x y z :: finish_all d' d2' n'
  | _, _, _ => []
  end.
Definition c_grid3d ax ay az (work : list (acc * list gpoint)) : option (list cellout) :=
  l <- run_threads ax ay az work ;;
  a <- gather l ;;
  Some (finish_all (a_d a) (a_d2 a) (a_n a)).

(** 420,444-459 arrays after an undisturbed clearing loop. *)
Definition gsize (ax ay az : gaxis) : nat := g_n ax * g_n ay * g_n az.
Definition cleared (m : nat) : acc := mkAcc (repeat 0%Qc m) (repeat 0%Qc m) (repeat 0%Qc m).
Definition grid ax ay az (chunks : list (list gpoint)) : option (list cellout) :=
  c_grid3d ax ay az (map (fun c => (cleared (gsize ax ay az), c)) chunks).

(** utils.py:873-894 the mask argument: absent, shaped like the stack, shaped like
    one image, or anything else. *)
Inductive gmask := MaskNone | MaskStack (m : list bool) | MaskImage (m : list bool) | MaskOther.
(** np.tile(np.ravel(mask), n_images) *)
Fixpoint tile {A} (n : nat) (l : list A) : list A := match n with 0 => [] | S n' => l ++ tile n' l end.
(** q[bool_array]: None (IndexError) if the lengths differ. *)
Fixpoint compress {A} (l : list A) (m : list bool) : option (list A) :=
  match l, m with
  | [], [] => Some []
  | x :: l', b :: m' => r <- compress l' m' ;; Some (if b then x :: r else r)
  | _, _ => None
  end.
(** utils.py:928-930 np.insert(q, 3, ravel(img_stack), axis=1) then the mask.
    A stack with a different number of pixels than q has rows is an error
    (numpy's broadcasting of a single pixel is not modelled). *)
Fixpoint insert_col (q : list (Qc * Qc * Qc)) (img : list (option Qc)) : option (list gpoint) :=
  match q, img with
  | [], [] => Some []
  | p :: q', v :: i' => r <- insert_col q' i' ;; Some ((p, v) :: r)
  | _, _ => None
  end.
Definition masked_points (n_img : nat) (q : list (Qc * Qc * Qc)) (img : list (option Qc)) (m : gmask)
  : option (list gpoint) :=
  match m with
  | MaskNone => insert_col q img
  | MaskStack b => d <- insert_col q img ;; compress d b
  | MaskImage b => d <- insert_col q img ;; compress d (tile n_img b)
  | MaskOther => None
  end.
