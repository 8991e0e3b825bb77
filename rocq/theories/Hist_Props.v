(* C22, C66: the accumulating histogram. *)
From Verif Require Import Common Hist_Model Hist_Spec Hist_Proofs.
From Coq Require Import Permutation.

(** C22: [lo, hi) is exactly covered by the bins and no point is in two of them. *)
Theorem C22_bins_partition : forall n lo hi x, n <> 0 -> (lo < hi)%Qc ->
  ((lo <= x)%Qc /\ (x < hi)%Qc <-> exists i, in_bin n lo hi i x) /\
  (forall i j, in_bin n lo hi i x -> in_bin n lo hi j x -> i = j).
Proof. exact (fun n lo hi x Hn Hl => conj (bin_exists n lo hi x Hn Hl) (fun i j => bin_unique n lo hi x i j Hn Hl)). Qed.
Print Assumptions C22_bins_partition.
Example C22_ex0 : in_bin 4 (qz 0) (qz 2) 3 (qz 3 / qz 2)%Qc.
Proof. unfold in_bin. repeat split; try (vm_compute; discriminate); try (vm_compute; reflexivity). Qed.

(** C22: after any session of fills and resets, in any number of dimensions, every
    cell holds the total weight of the points inside it filled since the last
    reset; no fill fails.  (From three dimensions on, arrays must be contiguous
    int64 or float64; see C66.) *)
Theorem C22_session : forall axes ops,
  Forall good_axis axes -> Forall (good_op axes) ops ->
  exists v, run axes ops = Some v /\ length v = size axes /\
    forall idx, length idx = length axes -> Forall2 lt idx (ns axes) ->
      total (in_cell (map ax3 axes) idx) (accumulated (map seen ops)) (nth (row_major (ns axes) idx) v 0%Qc).
Proof. exact session_ok. Qed.
Print Assumptions C22_session.
Definition ex_axes := [mkAxis 2 (qz 0) (qz 4); mkAxis 3 (qz 0) (qz 3)].
Definition ex_fill :=
  Fill [mkCoord DInt (map qz [1; 9; 3; 9; 3; 9]%Z) 0 2 3; mkCoord DInt (map qz [2; 0; 7]%Z) 0 1 3] [qz 5; qz 7; qz 11].
Example C22_ex1 : Forall good_axis ex_axes /\ Forall (good_op ex_axes) [ex_fill; Reset; ex_fill; ex_fill].
Proof.
  assert (G : good_op ex_axes ex_fill).
  { unfold good_op, ex_fill, good_fill. split; [reflexivity|]. split; [discriminate|]. split.
    - intros c [<-|[<-|[]]]; (split; [|reflexivity]); intros i Hi; cbn in *; lia.
    - split; [right; reflexivity|reflexivity]. }
  split; [repeat constructor; discriminate|]. repeat (constructor; [first [exact G|exact I]|]). constructor.
Qed.
Example C22_ex2 : option_map (map this) (run ex_axes [ex_fill; Reset; ex_fill; ex_fill])
  = Some [0; 0; 10; 14; 0; 0]%Q.
Proof. vm_compute. reflexivity. Qed.

(** C22: the result does not depend on the order of the points nor on how they are
    split into fill calls. *)
Theorem C22_order_independent : forall axes ops ops' v v',
  Forall good_axis axes -> Forall (good_op axes) ops -> Forall (good_op axes) ops' ->
  Permutation (accumulated (map seen ops)) (accumulated (map seen ops')) ->
  run axes ops = Some v -> run axes ops' = Some v' ->
  forall idx, length idx = length axes -> Forall2 lt idx (ns axes) ->
    nth (row_major (ns axes) idx) v 0%Qc = nth (row_major (ns axes) idx) v' 0%Qc.
Proof. exact order_independent. Qed.
Print Assumptions C22_order_independent.
Example C22_ex3 : Permutation (accumulated (map seen [ex_fill; Reset; ex_fill])) (accumulated (map seen [ex_fill])).
Proof. reflexivity. Qed.

(** C22: calls with the wrong number of coordinates, coordinate arrays of different
    lengths, or the wrong number of weights raise ValueError before any change. *)
Theorem C22_rejects : forall axes c cs ws values,
  (length (c :: cs) <> length axes \/ (exists d, In d cs /\ c_len d <> c_len c) \/
   (length ws <> 1 /\ length ws <> c_len c)) ->
  fill axes (c :: cs) ws values = ValueError.
Proof. exact fill_rejects. Qed.
Print Assumptions C22_rejects.
Example C22_ex4 : length (map qz [1; 2]%Z) <> 1 /\ length (map qz [1; 2]%Z) <> c_len (mkCoord DInt [] 0 1 3).
Proof. cbn. lia. Qed.

(** C22: so do, with one exception or another, two coordinate arrays of different element types, and from three dimensions on
    arrays of a type other than int64 and float64 *)
Theorem C22_rejects_types : forall axes cs ws values,
  (exists x y, cs = [x; y] /\ length axes = 2 /\ c_type x <> c_type y) \/ (3 <= length axes /\ exists c, In c cs /\ c_type c <> DInt /\ c_type c <> DFloat) ->
  fill axes cs ws values = ValueError \/ fill axes cs ws values = TypeError.
Proof. exact fill_rejects_types. Qed.
Print Assumptions C22_rejects_types.
Example C22_ex5 : let x := mkCoord DInt (map qz [1; 2; 3]%Z) 0 1 3 in let y := mkCoord DFloat (map qz [1; 2; 3]%Z) 0 1 3 in
  fill ex_axes [x; y] [qz 1] (repeat 0%Qc 6) = TypeError /\ exists v, fill ex_axes [x; x] [qz 1] (repeat 0%Qc 6) = Done v.
Proof. split; [reflexivity|]. vm_compute. eexists. reflexivity. Qed.

(** C66: from three dimensions on the strides of the coordinate arrays are ignored:
    the columns of an N x 3 array of points (fill( *pts.T )) are binned wrongly. *)
Theorem C66_strided_columns_refuted :
  exists (axes : list axis) (pts : list Qc) (n : nat) (v : list Qc) (idx : list nat) (t : Qc),
    Forall good_axis axes /\ length pts = 3 * n /\
    let column k := mkCoord DFloat pts k 3 n in
    let cs := [column 0; column 1; column 2] in
    (forall c, In c cs -> good_array c) /\
    fill axes cs [qz 1] (zeros axes) = Done v /\
    Forall2 lt idx (ns axes) /\ total (in_cell (map ax3 axes) idx) (points cs [qz 1]) t /\
    nth (row_major (ns axes) idx) v 0%Qc <> t.
Proof. exact strided_refuted. Qed.
Print Assumptions C66_strided_columns_refuted.

(** C66: what it does instead: the array elements following the first one in memory
    are used, i.e. the call behaves as if every array had stride 1. *)
Theorem C66_reads_as_contiguous : forall axes cs ws values, 3 <= length cs ->
  fill axes cs ws values =
  fill axes (map (fun c => mkCoord (c_type c) (c_buf c) (c_off c) 1 (c_len c)) cs) ws values.
Proof. exact fill_as_contiguous. Qed.
Print Assumptions C66_reads_as_contiguous.
Example C66_ex : 3 <= length [mkCoord DInt [] 0 3 0; mkCoord DInt [] 1 3 0; mkCoord DInt [] 2 3 0].
Proof. cbn. lia. Qed.
