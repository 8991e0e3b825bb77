(* C96: the one- and two-dimensional, radial and polar binned statistics: what bins, range and
   mask mean, and where a mask is not what it says. *)
From Verif Require Import Common QcArith Roi_Spec BinStat_Model BinStat_Spec BinStat_Proofs BinStat_Main BinStat_More BinWrap_Model BinWrap_Spec BinWrap_Proofs.
Local Open Scope list_scope.
Local Open Scope nat_scope.

(** C96: one dimension, floating-point samples: every bin gets the statistic of the unmasked values whose sample lies in it. *)
Theorem C96_one_dimension : forall x bins range mask order st values lo hi e,
  sorts order -> covers range x lo hi -> meant_1d lo hi bins e -> fits mask x -> length values = length x ->
  Forall (clear_of_edge e) x ->
  exists f, statistic_1d Float x bins range mask order st values = Some f /\ stat_1d st e x mask values f.
Proof. exact stat_1d_ok. Qed.
Print Assumptions C96_one_dimension.
Example C96_ex1 : option_map (fun f => map f [[0]; [1]; [2]])
    (statistic_1d Float (map qn [0; 1; 2; 3; 9]) (Count 3) None (Some [true; true; false; true; true]) argsort SSum (map qn [1; 2; 4; 8; 16]))
  = Some [Some (qn 3); Some (qn 8); Some (qn 16)].
Proof. vm_compute. repeat f_equal; apply Qc_is_canon; reflexivity. Qed.

(** a sequence of one number is a number of bins, a sequence of one array is the edges *)
Example C96_one_ex : meant_1d 0%Qc (qn 4) (Seqn [Arr (map qn [0; 1; 4])]) (map qn [0; 1; 4]) /\
  bins_1d (Seqn [Num (qn 4)]) = Some (BNum 4) /\ bins_1d (Seqn (map Num (map qn [0; 4]))) = Some (BEdges (map qn [0; 4])).
Proof.
  split; [|split; reflexivity]. apply meant_one1, meant_array; [|cbn; lia].
  intros [|[|[|k]]] a b; cbn; intros H1 H2; try discriminate; injection H1 as <-; injection H2 as <-; reflexivity.
Qed.
(** C96: two dimensions: a number, a pair of numbers or of edge arrays, or three and more shared edges. *)
Theorem C96_two_dimensions : forall x y bins range mask order st values xl xh yl yh ex ey,
  sorts order -> covers (option_map fst range) x xl xh -> covers (option_map snd range) y yl yh ->
  meant_2d xl xh yl yh bins ex ey -> length x = length y -> fits mask x -> length values = length x ->
  Forall (clear_of_edge ex) x -> Forall (clear_of_edge ey) y ->
  exists f, statistic_2d Float x y bins range mask order st values = Some f /\ stat_2d st ex ey x y mask values f.
Proof. exact stat_2d_ok. Qed.
Print Assumptions C96_two_dimensions.
Example C96_ex2 : option_map (fun f => map f [[0; 0]; [0; 1]; [1; 0]; [1; 1]])
    (statistic_2d Float (map qn [0; 1; 2; 3]) (map qn [5; 5; 6; 7]) (Seqn [Num (qn 2); Arr (map qn [5; 6; 8])]) None None argsort SCount (map qn [0; 0; 0; 0]))
  = Some [Some (qn 2); Some (qn 0); Some (qn 0); Some (qn 2)].
Proof. vm_compute. repeat f_equal; apply Qc_is_canon; reflexivity. Qed.
(** C96: two shared edges, as documented one bin [a, b] x [a, b], are taken for two numbers of bins. *)
Theorem C96_two_edges_refuted : exists x y order f, sorts order /\
  Forall (clear_of_edge (map qn [2; 4])) x /\ Forall (clear_of_edge (map qn [2; 4])) y /\
  Forall (fun v => in_axis (map qn [2; 4]) 0 v) x /\ Forall (fun v => in_axis (map qn [2; 4]) 0 v) y /\ length x = 2 /\ length y = 2 /\
  statistic_2d Float x y (Seqn (map Num (map qn [2; 4]))) None None order SCount [0; 0]%Qc = Some f /\
  f [0; 0] = Some (qn 1) /\ f [1; 3] = Some (qn 1) /\ f [1; 0] = Some 0%Qc.
Proof.
  exists [qn 2; qn 3], [qn 2; qn 3], argsort.
  assert (H2 : clear_of_edge (map qn [2; 4]) (qn 2)) by (exists (qn 4); split; [reflexivity|right; exists 0, (qn 2), (qn 4); split; [reflexivity|split; [reflexivity|left; discriminate]]]).
  assert (H3 : clear_of_edge (map qn [2; 4]) (qn 3)) by (exists (qn 4); split; [reflexivity|right; exists 0, (qn 2), (qn 4); split; [reflexivity|split; [reflexivity|left; discriminate]]]).
  assert (A2 : in_axis (map qn [2; 4]) 0 (qn 2)) by (exists (qn 2), (qn 4); split; [reflexivity|split; [reflexivity|split; [discriminate|left; reflexivity]]]).
  assert (A3 : in_axis (map qn [2; 4]) 0 (qn 3)) by (exists (qn 2), (qn 4); split; [reflexivity|split; [reflexivity|split; [discriminate|left; reflexivity]]]).
  eexists. split; [exact argsort_sorts|].
  do 4 (split; [constructor; [assumption|constructor; [assumption|constructor]]|]). split; [reflexivity|]. split; [reflexivity|].
  split; [vm_compute; reflexivity|]. split; [|split]; vm_compute; f_equal; apply Qc_is_canon; reflexivity.
Qed.
Print Assumptions C96_two_edges_refuted.

(** C96: the radial and polar statistics of an image: pixels by their radius (and angle), masked pixels left out. *)
Theorem C96_radial : forall h w r_map mask bins range order st values lo hi e,
  sorts order -> covers range r_map lo hi -> meant_1d lo hi bins e -> fits mask r_map -> length values = length r_map ->
  Forall (clear_of_edge e) r_map ->
  exists f, radial_statistic h w Float r_map (option_map (pair (h, w)) mask) bins range order st ((h, w), values) = Some f /\
    stat_1d st e r_map mask values f.
Proof.
  intros h w r mask bins range order st values lo hi e HO HR HB HM HV HC.
  destruct (stat_1d_ok r bins range mask order st values lo hi e HO HR HB HM HV HC) as [f Hf]. exists f.
  unfold radial_statistic, shaped. destruct mask as [m|]; cbn [option_map fst snd]; rewrite !Nat.eqb_refl; exact Hf.
Qed.
Print Assumptions C96_radial.
Theorem C96_polar : forall h w r_map phi_map mask bins range order st values xl xh yl yh ex ey,
  sorts order -> covers (option_map fst range) r_map xl xh -> covers (option_map snd range) phi_map yl yh ->
  meant_2d xl xh yl yh bins ex ey -> length r_map = length phi_map -> fits mask r_map -> length values = length r_map ->
  Forall (clear_of_edge ex) r_map -> Forall (clear_of_edge ey) phi_map ->
  exists f, rphi_statistic h w Float r_map phi_map (option_map (pair (h, w)) mask) bins range order st ((h, w), values) = Some f /\
    stat_2d st ex ey r_map phi_map mask values f.
Proof.
  intros h w r y mask bins range order st values xl xh yl yh ex ey HO HR HRy HB HL HM HV HC HCy.
  destruct (stat_2d_ok r y bins range mask order st values _ _ _ _ ex ey HO HR HRy HB HL HM HV HC HCy) as [f Hf]. exists f.
  unfold rphi_statistic, shaped. destruct mask as [m|]; cbn [option_map fst snd]; rewrite !Nat.eqb_refl; exact Hf.
Qed.
Print Assumptions C96_polar.
Example C96_ex3 : option_map (fun f => map f [[0]; [1]])
    (radial_statistic 2 2 Float (map qn [0; 1; 1; 2]) (Some ((2, 2), [true; false; true; true])) (Count 2) None argsort SSum ((2, 2), map qn [1; 2; 4; 8]))
  = Some [Some (qn 1); Some (qn 12)].
Proof. vm_compute. repeat f_equal; apply Qc_is_canon; reflexivity. Qed.
(** C96: a mask or an image of another shape is refused, even one with as many pixels. *)
Theorem C96_shapes : forall h w d r_map phi_map mask bins range bins2 range2 order st values,
  (exists m, mask = Some m /\ fst m <> (h, w)) \/ fst values <> (h, w) ->
  radial_statistic h w d r_map mask bins range order st values = None /\
  rphi_statistic h w d r_map phi_map mask bins2 range2 order st values = None.
Proof.
  intros h w d r phi mask bins range bins2 range2 order st [[vh vw] values] H. unfold radial_statistic, rphi_statistic, shaped.
  assert (E : negb (match mask with Some m => (fst (fst m) =? h) && (snd (fst m) =? w) | None => true end && ((vh =? h) && (vw =? w))) = true).
  { apply negb_true_iff, andb_false_iff. destruct H as [[[[mh mw] m] [-> N]]|N]; cbn [fst snd] in *; [left|right];
      apply andb_false_iff; rewrite !Nat.eqb_neq; [destruct (Nat.eq_dec mh h)|destruct (Nat.eq_dec vh h)]; try (left; assumption); right; congruence. }
  cbn [fst snd] in *. rewrite E. split; reflexivity.
Qed.
Print Assumptions C96_shapes.
Example C96_ex4 : radial_statistic 2 3 Float (map qn [0; 1; 1; 2; 2; 3]) (Some ((3, 2), [true; true; true; true; true; true])) (Count 2) None argsort SSum ((2, 3), map qn [1; 2; 4; 8; 1; 1]) = None.
Proof. reflexivity. Qed.

(** C96: integer samples: with edges whose first entry is an integer between -98 and 0, every masked sample is counted in the first bin. *)
Theorem C96_integer_mask_refuted : forall edges points m order st values,
  sorts order -> edges <> [] -> Forall strictly_increasing edges -> Forall (fun e => 2 <= length e) edges ->
  length values = length points -> length m = length points ->
  Forall (Forall2 clear_of_edge edges) points ->
  Forall (fun e => exists z, (-99 < z <= 0)%Z /\ nth_error e 0 = Some (qz z)) edges ->
  exists f, statistic_dd Int edges points (Some m) order st values = Some f /\
    forall idx, valid_index edges idx -> exists vs,
      picked (fun p => (nth_error m p = Some true /\ exists pt, nth_error points p = Some pt /\ in_cell edges idx pt) \/
                       (nth_error m p = Some false /\ Forall (eq 0) idx)) 0 values vs /\
      is_stat st vs (f idx).
Proof. exact integer_counted. Qed.
Print Assumptions C96_integer_mask_refuted.
(** C96: so does the radial statistic of a map of integer radii starting at 0, with the bins taken from the map. *)
Theorem C96_integer_radii_refuted : forall h w r_map n m order st values hi e,
  sorts order -> covers None r_map 0%Qc hi -> (0 < hi)%Qc -> equal_bins n 0%Qc hi e ->
  length m = length r_map -> length values = length r_map -> Forall (clear_of_edge e) r_map ->
  exists f, radial_statistic h w Int r_map (Some ((h, w), m)) (Count n) None order st ((h, w), values) = Some f /\
    forall k, k < n -> exists vs,
      picked (fun p => (nth_error m p = Some true /\ exists v, nth_error r_map p = Some v /\ in_axis e k v) \/ (nth_error m p = Some false /\ k = 0)) 0 values vs /\
      is_stat st vs (f [k]).
Proof.
  intros h w r n m order st values hi e HO HR Hhi HB HM HV HC.
  destruct (stat_1d_int r n m order st values 0%Qc hi e 0 HO HR eq_refl ltac:(lia) Hhi HB HM HV HC) as [f Hf]. exists f.
  unfold radial_statistic, shaped. cbn [option_map fst snd]; rewrite !Nat.eqb_refl; exact Hf.
Qed.
Print Assumptions C96_integer_radii_refuted.
Example C96_ex5 : option_map (fun f => map f [[0]; [1]])
    (radial_statistic 2 2 Int (map qn [0; 1; 1; 2]) (Some ((2, 2), [true; false; true; true])) (Count 2) None argsort SSum ((2, 2), map qn [1; 2; 4; 8]))
  = Some [Some (qn 3); Some (qn 12)].
Proof. vm_compute. repeat f_equal; apply Qc_is_canon; reflexivity. Qed.
(** C96: integer samples whose bins all start above 0: the mask is respected. *)
Theorem C96_integer_positive : forall edges points m order st values,
  sorts order -> edges <> [] -> Forall strictly_increasing edges -> Forall (fun e => 2 <= length e) edges ->
  length values = length points -> length m = length points ->
  Forall (Forall2 clear_of_edge edges) points ->
  Forall (fun e => exists a, nth_error e 0 = Some a /\ (0 < a)%Qc) edges ->
  exists f, statistic_dd Int edges points (Some m) order st values = Some f /\
    forall idx, valid_index edges idx -> exists vs,
      picked (fun p => nth_error m p = Some true /\ exists pt, nth_error points p = Some pt /\ in_cell edges idx pt) 0 values vs /\
      is_stat st vs (f idx).
Proof. exact integer_positive. Qed.
Print Assumptions C96_integer_positive.
Example C96_ex6 : option_map (fun f => map f [[0]; [1]])
    (statistic_dd Int [map qn [1; 2; 4]] (map (fun v => [qn v]) [1; 1; 3; 0]) (Some [true; false; true; true]) argsort SSum (map qn [1; 2; 4; 8]))
  = Some [Some (qn 1); Some (qn 4)].
Proof. vm_compute. repeat f_equal; apply Qc_is_canon; reflexivity. Qed.

(** C96: a float sample array of shape (N, D) is changed: its masked rows now lie below all bins.  Sequences of columns are left alone. *)
Theorem C96_caller_array : forall edges points m p,
  Forall strictly_increasing edges -> Forall (fun e => 2 <= length e) edges -> length m = length points ->
  nth_error (sample_after Sequence Float edges points (Some m)) p = nth_error points p /\
  (nth_error m p = Some true -> nth_error (sample_after NDArray Float edges points (Some m)) p = nth_error points p) /\
  (nth_error m p = Some false -> exists pt, nth_error (sample_after NDArray Float edges points (Some m)) p = Some pt /\
     Forall2 (fun e v => exists a, nth_error e 0 = Some a /\ (v < a)%Qc) edges pt).
Proof.
  intros edges points m p HS H2 HM.
  assert (HG : Forall good edges). { rewrite Forall_forall in *. intros e He. split; auto. }
  split; [exact (changed Float edges points m Sequence p HG HM)|].
  destruct (changed Float edges points m NDArray p HG HM) as [A B]. split; [exact A|]. intros E. exact (B E eq_refl).
Qed.
Print Assumptions C96_caller_array.
Example C96_ex7 : map (map this) (sample_after NDArray Float [map qn [1; 2]] (map (fun v => [qn v]) [1; 2]) (Some [true; false])) = [[1]; [49 # 50]]%Q.
Proof. reflexivity. Qed.
(** C96: so a second statistic of the same array, without a mask, still leaves out what the first one masked. *)
Theorem C96_second_use_refuted : forall edges points m order st values,
  sorts order -> edges <> [] -> Forall strictly_increasing edges -> Forall (fun e => 2 <= length e) edges ->
  length values = length points -> length m = length points ->
  Forall (Forall2 clear_of_edge edges) points ->
  exists f, statistic_dd Float edges (sample_after NDArray Float edges points (Some m)) None order st values = Some f /\
    forall idx, valid_index edges idx -> exists vs,
      picked (fun p => nth_error m p = Some true /\ exists pt, nth_error points p = Some pt /\ in_cell edges idx pt) 0 values vs /\
      is_stat st vs (f idx).
Proof.
  intros edges points m order st values HO Hne HS H2 HV HM HC.
  destruct (float_masked edges points (Some m) order st values HO Hne HS H2 HV) as [f [Ef Hf]]; [intros ? [= <-]; exact HM|exact HC|].
  exists f. split.
  - rewrite <- Ef. unfold statistic_dd. rewrite HM, Nat.eqb_refl. reflexivity.
  - intros idx Hi. destruct (Hf idx Hi) as [vs [Hp Hs]]. exists vs. split; [|exact Hs]. eapply Roi_Stats.picked_iff; [|exact Hp].
    intros p _. cbv beta. split; intros [A B]; (split; [|exact B]).
    + apply A. reflexivity.
    + intros ? [= <-]. exact A.
Qed.
Print Assumptions C96_second_use_refuted.
Example C96_ex8 : option_map (fun f => map f [[0]])
    (statistic_dd Float [map qn [1; 2]] (sample_after NDArray Float [map qn [1; 2]] (map (fun v => [qn v]) [1; 2]) (Some [true; false])) None argsort SCount (map qn [0; 0]))
  = Some [Some (qn 1)].
Proof. vm_compute. repeat f_equal; apply Qc_is_canon; reflexivity. Qed.
