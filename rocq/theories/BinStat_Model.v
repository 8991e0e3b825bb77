(* Model of /repo/skbeam/core/accumulators/binned_statistic.py: BinnedStatisticDD
   (constructor, binmap, __call__).  Exact rationals; NaN is None inside results;
   None outside is an exception.  Statistics: mean, sum, count, std (its square, as
   square roots are not rational), and a callable or the median.  The order xy.argsort()
   gives to equal entries is not fixed by numpy: it is the argument [order].
   nbin.argsort() is the stable insertion sort numpy uses for up to 16 entries.
   BinnedStatistic1D/2D and the radial classes only build the sample arrays. *)
From Coq Require Import Qround.
From Verif Require Import Common Utils_Model Roi_Model.

(** np.around: to the nearest multiple of 10^-dec, ties to even. *)
Definition qround_even (x : Qc) : Z :=
  let f := Qfloor (this x) in
  let r := (x - qz f)%Qc in
  if Qc_ltb r (Q2Qc (1 # 2)) then f
  else if Qc_ltb (Q2Qc (1 # 2)) r then (f + 1)%Z
  else if Z.even f then f else (f + 1)%Z.
Definition pow10 (k : Z) : Qc := if (0 <=? k)%Z then qz (10 ^ k) else (1 / qz (10 ^ (- k)))%Qc.
Definition around (dec : Z) (x : Qc) : Qc := (qz (qround_even (x * pow10 dec)) / pow10 dec)%Qc.
(** int(-np.log10(w)) + 6 for w > 0, line 170 *)
Fixpoint ilog10 (fuel : nat) (q : Qc) : nat :=
  match fuel with
  | O => O
  | S f => if Qc_leb (qz 10) q then S (ilog10 f (q / qz 10)%Qc) else O
  end.
Definition log_fuel (q : Qc) : nat := S (Z.to_nat (Z.log2 (Qnum (this q)))).
Definition decimal (w : Qc) : Z :=
  if Qc_leb w 1%Qc then (Z.of_nat (ilog10 (log_fuel (1 / w)%Qc) (1 / w)%Qc) + 6)%Z
  else (6 - Z.of_nat (ilog10 (log_fuel w) w))%Z.

(** ** Edges, 116-149.  One dimension: a number of bins or given edges. *)
Inductive bins1 := BNum (n : nat) | BEdges (e : list Qc).
Definition edges_of (b : bins1) (lo hi : Qc) : list Qc :=
  match b with
  | BEdges e => e
  | BNum n => if Qc_eqb lo hi then linspace (lo - Q2Qc (1 # 2)) (hi + Q2Qc (1 # 2)) n else linspace lo hi n
  end.
(** np.digitize needs monotonic edges, and log10 of the smallest step a positive
    one, so only strictly increasing edges get through. *)
Fixpoint increasing_b (l : list Qc) : bool :=
  match l with a :: ((b :: _) as r) => Qc_ltb a b && increasing_b r | _ => true end.
Definition edges_fine (e : list Qc) : bool := (2 <=? length e) && increasing_b e.
Definition diffs (e : list Qc) : list Qc := map (fun p => (snd p - fst p)%Qc) (pairwise e).
Definition min_step (e : list Qc) : Qc := match lmin_q (diffs e) with Some w => w | None => 1%Qc end.
Definition last_edge (e : list Qc) : Qc := last e 0%Qc.

(** ** Bin numbers, 153-174: digitize, then one less on the right edge. *)
Definition on_edge (e : list Qc) (x : Qc) : bool :=
  let dec := decimal (min_step e) in Qc_eqb (around dec x) (around dec (last_edge e)).
Definition count1 (e : list Qc) (x : Qc) : nat :=
  digitize Qc_leb e x - (if on_edge e x then 1 else 0).
(** 160 the value given to masked samples *)
Definition qabs (x : Qc) : Qc := if Qc_ltb x 0%Qc then (- x)%Qc else x.
Definition masked_value (e : list Qc) : Qc :=
  (hd 0 e - Q2Qc (1 # 100) * (1 + qabs (hd 0 e)))%Qc.
Definition counts (edges : list (list Qc)) (pt : list Qc) (keep : bool) : list nat :=
  map (fun p => count1 (fst p) (if keep then snd p else masked_value (fst p))) (combine edges pt).

(** ** Axis order, 177 nbin.argsort() *)
Fixpoint insert_key (key : nat -> nat) (i : nat) (l : list nat) : list nat :=
  match l with
  | [] => [i]
  | j :: r => if key i <=? key j then i :: l else j :: insert_key key i r
  end.
Definition argsort (keys : list nat) : list nat :=
  fold_right (insert_key (fun i => nth i keys 0)) [] (seq 0 (length keys)).
Definition npsort (l : list nat) : list nat := fold_right (insert_key (fun i => i)) [] l.
Definition prod_n (l : list nat) : nat := fold_right Nat.mul 1 l.
(** 178-181 the flat bin number of a sample; [nb], [c]: nbin and bin numbers. *)
Definition flat_xy (nb c ni : list nat) : nat :=
  fold_left (fun acc i => acc + nth (nth i ni 0) c 0 * prod_n (map (fun a => nth a nb 0) (skipn (S i) ni)))
    (seq 0 (length ni - 1)) 0
  + nth (last ni 0) c 0.

(** ** Statistics of one flat bin, 290-332.  np.bincount(xy, w)[j] *)
Inductive stat := SMean | SStd2 | SCount | SSum | SFun (f : list Qc -> option Qc) (null : option Qc).
Definition bincount (xy : list nat) (w : list Qc) (j : nat) : Qc :=
  qsum (map snd (filter (fun p => fst p =? j) (combine xy w))).
Definition flatcount (xy : list nat) (j : nat) : nat := length (filter (Nat.eqb j) xy).
Definition flat_stat (st : stat) (xy : list nat) (values : list Qc) (order : list nat) (j : nat) : option Qc :=
  let k := flatcount xy j in
  match st with
  | SMean => if k =? 0 then None else Some (bincount xy values j / qn k)%Qc
  | SStd2 => if k =? 0 then Some 0%Qc
             else Some (bincount xy (map (fun v => v * v)%Qc values) j / qn k
                        - (bincount xy values j / qn k) * (bincount xy values j / qn k))%Qc
  | SCount => Some (qn k)
  | SSum => Some (bincount xy values j)
  | SFun f null =>
      let vfs := map (fun p => nth p values 0%Qc) order in
      let i := list_sum (map (flatcount xy) (seq 0 j)) in
      if k =? 0 then null else f (firstn k (skipn i vfs))
  end.

(** ** Layout, 334-344.  An N-D array is a function of the index list. *)
Fixpoint ravel (shape idx : list nat) : nat :=
  match shape, idx with
  | _ :: s, i :: r => i * prod_n s + ravel s r
  | _, _ => 0
  end.
Definition swap (l : list nat) (i j : nat) : list nat :=
  map (fun k => nth (if k =? i then j else if k =? j then i else k) l 0) (seq 0 (length l)).
Fixpoint position (x : nat) (l : list nat) : nat :=
  match l with [] => 0 | y :: r => if x =? y then 0 else S (position x r) end.
Definition swap_step {A} (s : (list nat -> A) * list nat) (i : nat) : (list nat -> A) * list nat :=
  let (f, ni) := s in
  let j := position i ni in                       (* ni.argsort()[i], ni a permutation *)
  (fun idx => f (swap idx i j), swap ni i j).
Definition unsort {A} (flat : nat -> A) (nb ni : list nat) : list nat -> A :=
  fst (fold_left swap_step (seq 0 (length nb)) (fun idx => flat (ravel (npsort nb) idx), ni)).

(** ** The whole: constructor and call.  Points are the samples (one coordinate per
    dimension); the result takes an index per dimension, outliers removed. *)
Definition binned_statistic (edges : list (list Qc)) (points : list (list Qc)) (mask : option (list bool))
           (order : list nat -> list nat) (st : stat) (values : list Qc) : option (list nat -> option Qc) :=
  let keep := match mask with Some m => m | None => map (fun _ => true) points end in
  if negb (forallb edges_fine edges && negb (length edges =? 0) && (length keep =? length points)
           && (length values =? length points) && forallb (fun p => length p =? length edges) points) then None else
  let nb := map (fun e => S (length e)) edges in
  let ni := argsort nb in
  let xy := map (fun p => flat_xy nb (counts edges (fst p) (snd p)) ni) (combine points keep) in
  Some (fun idx => unsort (flat_stat st xy values (order xy)) nb ni (map S idx)).

(** ** binmap, 187-211, for one sample *)
Definition binmap1 (nb ni : list nat) (xy : nat) : list nat :=
  let D := length nb in
  snd (fold_left (fun s i =>
    let '(den, out) := s in
    let ind := D - i - 1 in
    let sub := xy / den in
    let sub := if i <? D - 1 then sub mod nth (nth (ind - 1) ni 0) nb 0 else sub in
    (den * nth (nth ind ni 0) nb 0, sub :: out)) (seq 0 D) (1, [])).
Definition binmap (edges : list (list Qc)) (points : list (list Qc)) (mask : option (list bool)) : list (list nat) :=
  let keep := match mask with Some m => m | None => map (fun _ => true) points end in
  let nb := map (fun e => S (length e)) edges in
  map (fun p => binmap1 nb (argsort nb) (flat_xy nb (counts edges (fst p) (snd p)) (argsort nb))) (combine points keep).
