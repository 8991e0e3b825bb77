(* Property theorems C34-C36: N-dimensional binned statistics. *)
From Verif Require Import Common Roi_Spec BinStat_Model BinStat_Spec BinStat_Proofs BinStat_Main BinStat_More.

(** C34: whatever the number of axes and the order of their sizes, entry idx of the
    result is the statistic of exactly the unmasked samples lying in bin idx_d of every
    axis d; samples must not be near, but off, a right edge (C35). *)
Theorem C34_statistic_per_cell : forall edges points mask order st values,
  sorts order -> edges <> [] -> Forall strictly_increasing edges -> Forall (fun e => 2 <= length e) edges ->
  length values = length points -> (forall m, mask = Some m -> length m = length points) ->
  Forall (Forall2 clear_of_edge edges) points ->
  exists f, binned_statistic edges points mask order st values = Some f /\
    forall idx, valid_index edges idx -> exists vs,
      picked (fun p => (forall m, mask = Some m -> nth_error m p = Some true) /\
                       exists pt, nth_error points p = Some pt /\ in_cell edges idx pt) 0 values vs /\
      is_stat st vs (f idx).
Proof. exact binned_statistic_ok. Qed.
Print Assumptions C34_statistic_per_cell.
(** Numpy's stable argsort is such an order; three bins by two, axes sorted the other
    way round, one sample masked. *)
Example C34_ex : sorts argsort /\
  (f <- binned_statistic [map qn [0; 1; 2; 3]; map qn [0; 1; 2]] [[qn 2; qn 0]; [qn 2; qn 0]; [qn 3; qn 1]; [qn 0; qn 2]]
          (Some [true; true; true; false]) argsort SSum [qn 5; qn 6; qn 7; qn 8] ;;
   Some (map (fun i => map (fun j => f [i; j]) [0; 1]) [0; 1; 2]))
  = Some [[Some (qn 0); Some (qn 0)]; [Some (qn 0); Some (qn 0)]; [Some (qn 11); Some (qn 7)]].
Proof. split; [exact argsort_sorts|vm_compute; reflexivity]. Qed.
(** C34: n bins over [lo, hi]: equal steps, n + 1 edges; [lo - 1/2, hi + 1/2] if lo = hi. *)
Theorem C34_uniform_edges : forall n lo hi, n <> 0 -> (lo <= hi)%Qc ->
  let e := edges_of (BNum n) lo hi in
  strictly_increasing e /\ length e = S n /\
  exists a b, ((lo < hi)%Qc /\ a = lo /\ b = hi \/ lo = hi /\ a = (lo - Q2Qc (1 # 2))%Qc /\ b = (hi + Q2Qc (1 # 2))%Qc) /\
    forall k, k <= n -> nth_error e k = Some (a + qn k * ((b - a) / qn n))%Qc.
Proof. exact edges_of_ok. Qed.
Print Assumptions C34_uniform_edges.
Example C34_ex2 : map this (edges_of (BNum 2) (qn 1) (qn 1)) = [1 # 2; 1; 3 # 2]%Q.
Proof. vm_compute. reflexivity. Qed.
(** C34: edges that do not strictly increase, or fewer than two, raise. *)
Theorem C34_bad_edges_raise : forall edges points mask order st values e, In e edges ->
  (~ strictly_increasing e \/ length e < 2) -> binned_statistic edges points mask order st values = None.
Proof. exact bad_edges_raise. Qed.
Print Assumptions C34_bad_edges_raise.
Example C34_ex3 : binned_statistic [map qn [0; 1; 1]] [[qn 0]] None argsort SMean [qn 1] = None /\
  binned_statistic [map qn [0; 1; 2]] [[qn 0]] None argsort SMean [qn 1] <> None.
Proof. split; [vm_compute; reflexivity|discriminate]. Qed.

(** C35: a sample on the right edge is counted in the last bin. *)
Theorem C35_right_edge : forall e z order, sorts order -> strictly_increasing e -> 2 <= length e ->
  nth_error e (length e - 1) = Some z ->
  exists f, binned_statistic [e] [[z]] None order SCount [0%Qc] = Some f /\ f [length e - 2] = Some 1%Qc.
Proof. exact right_edge_ok. Qed.
Print Assumptions C35_right_edge.
(** C35: with edges 0..n, a sample inside the last bin, less than 5 10^-7 below the
    right edge, is counted in the bin before. *)
Theorem C35_near_edge_refuted : forall n x order, sorts order -> 2 <= n ->
  (qn n - Q2Qc (1 # 2000000) < x)%Qc -> (x < qn n)%Qc ->
  in_axis (map qn (seq 0 (S n))) (n - 1) x /\
  exists f, binned_statistic [map qn (seq 0 (S n))] [[x]] None order SCount [0%Qc] = Some f /\
    f [n - 1] = Some 0%Qc /\ f [n - 2] = Some 1%Qc.
Proof. exact near_edge_moved. Qed.
Print Assumptions C35_near_edge_refuted.
(** C35: and one less than 5 10^-7 beyond it is counted in the last bin. *)
Theorem C35_beyond_edge : forall n x order, sorts order -> 1 <= n ->
  (qn n < x)%Qc -> (x < qn n + Q2Qc (1 # 2000000))%Qc ->
  exists f, binned_statistic [map qn (seq 0 (S n))] [[x]] None order SCount [0%Qc] = Some f /\ f [n - 1] = Some 1%Qc.
Proof. exact beyond_edge_counted. Qed.
Print Assumptions C35_beyond_edge.
Example C35_ex : exists f, binned_statistic [map qn [0; 1; 2]] [[Q2Qc (19999999 # 10000000)]] None argsort SCount [0%Qc] = Some f /\
  map (fun k => f [k]) [0; 1] = [Some 1; Some 0]%Qc.
Proof. eexists. split; [reflexivity|vm_compute; reflexivity]. Qed.

(** C36: with the same number of bins on every axis, binmap gives the bin of every
    sample along every axis (0 and the number of edges for outliers, 0 when masked). *)
Theorem C36_binmap_equal : forall edges points mask m, edges <> [] -> Forall strictly_increasing edges -> 2 <= m ->
  Forall (fun e => length e = m) edges ->
  (forall k, mask = Some k -> length k = length points) -> Forall (Forall2 clear_of_edge edges) points ->
  length (binmap edges points mask) = length points /\
  forall p pt, nth_error points p = Some pt -> exists ns, nth_error (binmap edges points mask) p = Some ns /\
    ((forall k, mask = Some k -> nth_error k p = Some true) -> bin_numbers edges pt ns) /\
    (forall k, mask = Some k -> nth_error k p = Some false -> ns = repeat 0 (length edges)).
Proof. exact binmap_ok. Qed.
Print Assumptions C36_binmap_equal.
Example C36_ex : binmap [map qn [0; 1; 2]; map qn [0; 2; 4]] [[qn 1; qn 3]; [qn 9; qn 0]] None = [[2; 2]; [3; 1]].
Proof. vm_compute. reflexivity. Qed.
(** C36: not so when the numbers differ. *)
Theorem C36_binmap_differing_refuted : exists edges pt ns, Forall strictly_increasing edges /\ Forall (fun e => 2 <= length e) edges /\
  Forall2 clear_of_edge edges pt /\ binmap edges [pt] None = [ns] /\ ~ bin_numbers edges pt ns.
Proof. exact binmap_differing_refuted. Qed.
Print Assumptions C36_binmap_differing_refuted.
