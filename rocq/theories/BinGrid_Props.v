(* C97: statistics by position (statistics_1D) and by radius with given pixel radii (bin_grid). *)
From Coq Require Import Reals.
From Verif Require Import Common QcArith Utils_Model Utils_Spec Utils_Proofs Roi_Spec Roi_Stats BinGrid_Model BinGrid_Spec BinGrid_Proofs.
From Coq Require Import Lra.
Local Open Scope list_scope.
Local Open Scope nat_scope.

(** C97: nx equal bins over [lo, hi]; every bin holds the statistic of the values whose position lies in it, in their order. *)
Theorem C97_statistics_1D : forall W x y (stat : list Qc -> W) n lo hi, length x = length y -> 1 <= n -> (lo < hi)%Qc ->
  exists bins val, statistics_1D x y stat (Some n) (Some lo) (Some hi) = Some (bins, val) /\
    length bins = S n /\ length val = n /\ (forall k, k <= n -> nth_error bins k = Some (bin_edge lo hi n k)) /\
    forall k, k < n -> exists vs, picked (fun p => exists s, nth_error x p = Some s /\ in_bin lo hi n k s) 0 y vs /\ nth_error val k = Some (stat vs).
Proof. exact @stats_ok. Qed.
Print Assumptions C97_statistics_1D.
(** C97: absent arguments: the least and the greatest position, and 100 bins. *)
Theorem C97_defaults : forall W x y (stat : list Qc -> W) nx mn mx lo hi,
  match mn with Some m => m = lo | None => In lo x /\ forall v, In v x -> (lo <= v)%Qc end ->
  match mx with Some m => m = hi | None => In hi x /\ forall v, In v x -> (v <= hi)%Qc end ->
  statistics_1D x y stat nx mn mx = statistics_1D x y stat (Some (match nx with Some n => n | None => 100 end)) (Some lo) (Some hi).
Proof. exact @stats_default. Qed.
Print Assumptions C97_defaults.
Example C97_ex1 : option_map (fun r => (map this (fst r), map (map this) (snd r)))
    (statistics_1D (map qz [0; 3; 1; 4; 2; 9]%Z) (map qz [10; 20; 30; 40; 50; 60]%Z) (fun vs => vs) (Some 2) None (Some (qz 4)))
  = Some ([0; 2; 4]%Q, [[10; 30]; [20; 40; 50]]%Q).
Proof. vm_compute. reflexivity. Qed.
(** C97: with sums it returns the values of bin_1D, with counts its counts, on the same edges. *)
Theorem C97_agrees_with_bin_1D : forall x y n lo hi bins val count, length x = length y -> 1 <= n -> (lo < hi)%Qc ->
  bin_1D x y (Some (Z.of_nat n)) (Some lo) (Some hi) = Some (bins, val, count) ->
  statistics_1D x y qsum (Some n) (Some lo) (Some hi) = Some (bins, val) /\
  statistics_1D x y (fun vs => qn (length vs)) (Some n) (Some lo) (Some hi) = Some (bins, count).
Proof. exact stats_agree. Qed.
Print Assumptions C97_agrees_with_bin_1D.
Example C97_ex2 : option_map (fun r => map this (snd (fst r))) (bin_1D (map qz [0; 1; 2; 4]%Z) (map qz [10; 20; 30; 40]%Z) (Some 2%Z) (Some (qz 0)) (Some (qz 4))) = Some [30; 70]%Q /\
  option_map (fun r => map this (snd r)) (statistics_1D (map qz [0; 1; 2; 4]%Z) (map qz [10; 20; 30; 40]%Z) qsum (Some 2) (Some (qz 0)) (Some (qz 4))) = Some [30; 70]%Q.
Proof. vm_compute. split; reflexivity. Qed.
(** C97: positions that are all equal raise (bin_1D accepts them), as do no bins and an empty interval. *)
Theorem C97_equal_positions_refuted : forall W x y (stat : list Qc -> W) n v, x <> [] -> Forall (eq v) x -> statistics_1D x y stat n None None = None.
Proof.
  intros W x y stat n v Hx HF. rewrite Forall_forall in HF.
  assert (Hv : In v x). { destruct x as [|a x]; [contradiction|]. rewrite (HF a (or_introl eq_refl)). left. reflexivity. }
  rewrite (stats_default x y stat n None None v v).
  - apply stats_raise. right. qclra.
  - split; [exact Hv|]. intros u Hu. rewrite (HF u Hu). qclra.
  - split; [exact Hv|]. intros u Hu. rewrite (HF u Hu). qclra.
Qed.
Print Assumptions C97_equal_positions_refuted.
Theorem C97_no_bins : forall W x y (stat : list Qc -> W) n lo hi, n = 0 \/ (hi <= lo)%Qc -> statistics_1D x y stat (Some n) (Some lo) (Some hi) = None.
Proof. exact @stats_raise. Qed.
Print Assumptions C97_no_bins.
Example C97_ex3 : statistics_1D [qn 2; qn 2] [qn 5; qn 7] qsum None None None = None /\
  option_map (fun r => map this (snd r)) (bin_1D [qn 2; qn 2] [qn 5; qn 7] (Some 1%Z) None None) = Some [2]%Q.
Proof. vm_compute. split; reflexivity. Qed.

Local Open Scope R_scope.
(** C97: bin_grid with given edges: mid points, and the statistic of the pixels marked True whose radius lies in the bin. *)
Theorem C97_rings : forall W image r_array sizes (stat : list R -> W) mask e,
  length r_array = length image -> (forall m, mask = Some m -> length m = length image) -> (2 <= length e)%nat -> increasing e ->
  exists centers val, bin_grid image r_array sizes stat mask (Some e) = Some (centers, val) /\ rings e image r_array mask stat centers val.
Proof. exact @grid_ok. Qed.
Print Assumptions C97_rings.
Lemma C97_ex4_edges : increasing [0; 1; 3].
Proof. intros [|[|[|k]]] a b Ha Hb; cbn in Ha, Hb; try discriminate; injection Ha as <-; injection Hb as <-; lra. Qed.
Example C97_ex4 : exists centers val, bin_grid [10; 20; 30] [1; 2; 0] (1, 1) (fun vs => vs) (Some [true; false; true]) (Some [0; 1; 3]) = Some (centers, val) /\
  rings [0; 1; 3] [10; 20; 30] [1; 2; 0] (Some [true; false; true]) (fun vs => vs) centers val.
Proof. apply grid_ok; [reflexivity|intros m [= <-]; reflexivity|cbn; lia|exact C97_ex4_edges]. Qed.
(** C97: the mask is documented as the pixels to remove; a mask of True everywhere removes nothing. *)
Theorem C97_mask_true_keeps_refuted : forall W image r_array sizes (stat : list R -> W) bins,
  bin_grid image r_array sizes stat (Some (repeat true (length image))) bins = bin_grid image r_array sizes stat None bins.
Proof.
  intros W image r_array sizes stat bins. unfold bin_grid.
  assert (E : repeat true (length image) = map (fun _ => true) image) by (induction image as [|a l IH]; cbn; [reflexivity|rewrite IH; reflexivity]).
  rewrite E. reflexivity.
Qed.
Print Assumptions C97_mask_true_keeps_refuted.
(** C97: without edges, bins as wide as the diagonal of a pixel, the first one centred at the least radius. *)
Theorem C97_default_bins : forall W image r_array p q (stat : list R -> W) mask lo hi n,
  least_of r_array lo -> greatest_of r_array hi -> length r_array = length image -> (forall m, mask = Some m -> length m = length image) ->
  let res := sqrt (p * p + q * q) in 0 < res -> (1 <= n)%nat -> (INR n - 1) * res < hi - lo -> hi - lo <= INR n * res ->
  exists e centers val, bin_grid image r_array (p, q) stat mask None = Some (centers, val) /\
    length e = S n /\ (forall k, (k <= n)%nat -> nth_error e k = Some (lo - res / 2 + INR k * res)) /\
    (forall k, (k < n)%nat -> nth_error centers k = Some (lo + INR k * res)) /\
    rings e image r_array mask stat centers val.
Proof.
  intros W image r_array p q stat mask lo hi n HL HG HN HM res Hr Hn H1 H2.
  destruct (default_edges image r_array p q stat mask lo hi n HL HG Hr H1 H2) as [e [L1 [L2 E]]]. fold res in L2.
  destruct (grid_ok image r_array (p, q) stat mask e HN HM ltac:(lia) (step_increasing e _ res n Hr L1 L2)) as [c [v [E2 HR]]].
  exists e, c, v. rewrite E. split; [exact E2|]. split; [exact L1|]. split; [exact L2|]. split; [|exact HR].
  intros k Hk. destruct HR as [_ [_ HR]]. destruct (HR k _ _ (L2 k ltac:(lia)) (L2 (S k) ltac:(lia))) as [Hc _].
  rewrite Hc. f_equal. rewrite S_INR. lra.
Qed.
Print Assumptions C97_default_bins.
(** C97: those bins reach the greatest radius only if it lies at most half a bin past the last whole number of bins;
    then every pixel is counted once. *)
Theorem C97_default_counts_all : forall image r_array p q lo hi n,
  least_of r_array lo -> greatest_of r_array hi -> length r_array = length image ->
  let res := sqrt (p * p + q * q) in 0 < res -> (1 <= n)%nat -> (INR n - 1) * res < hi - lo -> hi - lo <= (INR n - / 2) * res ->
  exists centers val, bin_grid image r_array (p, q) (@length R) None None = Some (centers, val) /\ list_sum val = length image.
Proof.
  intros image r_array p q lo hi n HL HG HN res Hr Hn H1 H2.
  destruct (default_complete image r_array p q lo hi n HL HG HN Hr Hn H1) as [c [v [E [A _]]]]; [fold res; nra|].
  exists c, v. split; [exact E|exact (A H2)].
Qed.
Print Assumptions C97_default_counts_all.
(** C97: otherwise, in particular when the radii span a whole number of bins, the outermost pixels are left out. *)
Theorem C97_outermost_lost_refuted : forall image r_array p q lo hi n,
  least_of r_array lo -> greatest_of r_array hi -> length r_array = length image ->
  let res := sqrt (p * p + q * q) in 0 < res -> (1 <= n)%nat -> (INR n - / 2) * res < hi - lo -> hi - lo <= INR n * res ->
  exists centers val, bin_grid image r_array (p, q) (@length R) None None = Some (centers, val) /\ (list_sum val < length image)%nat.
Proof.
  intros image r_array p q lo hi n HL HG HN res Hr Hn H1 H2.
  destruct (default_complete image r_array p q lo hi n HL HG HN Hr Hn) as [c [v [E [_ A]]]]; [fold res; nra|exact H2|].
  exists c, v. split; [exact E|exact (A H1)].
Qed.
Print Assumptions C97_outermost_lost_refuted.
Lemma sqrt_345 : sqrt (3 * 3 + 4 * 4) = 5.
Proof. replace (3 * 3 + 4 * 4) with (5 * 5) by lra. apply sqrt_square. lra. Qed.
Example C97_ex5 : exists centers val, bin_grid [1; 1; 1] [0; 5; 10] (3, 4) (@length R) None None = Some (centers, val) /\ (list_sum val < 3)%nat.
Proof.
  apply (C97_outermost_lost_refuted [1; 1; 1] [0; 5; 10] 3 4 0 10 2); [| |reflexivity| |lia| |]; rewrite ?sqrt_345; cbn; try lra.
  - split; [left; reflexivity|]. intros x [<-|[<-|[<-|[]]]]; lra.
  - split; [right; right; left; reflexivity|]. intros x [<-|[<-|[<-|[]]]]; lra.
Qed.
(** C97: radii that are all equal raise. *)
Theorem C97_one_radius_refuted : forall W image r_array p q (stat : list R -> W) mask lo,
  least_of r_array lo -> greatest_of r_array lo -> 0 < sqrt (p * p + q * q) -> bin_grid image r_array (p, q) stat mask None = None.
Proof. exact @flat_raises. Qed.
Print Assumptions C97_one_radius_refuted.
Example C97_ex6 : bin_grid [7; 9] [2; 2] (3, 4) (fun vs => vs) None None = None.
Proof.
  apply (flat_raises [7; 9] [2; 2] 3 4 (fun vs => vs) None 2); [| |rewrite sqrt_345; lra];
    (split; [left; reflexivity|]; intros x [<-|[<-|[]]]; lra).
Qed.
