From Coq Require Import Sorted.
From Verif Require Import Common QcArith Utils_Model Utils_Spec CircAvg_Model CircAvg_Spec CircAvg_Proofs.

(** the rings kept are exactly those with more pixels than the threshold, in order; each is given by its midpoint and the mean of its selected pixels *)
Theorem C62_rings radial image threshold n lo hi mask rs vs :
  length radial = length image -> used mask radial image rs vs -> (0 < n)%Z -> (lo <= hi)%Qc -> (0 <= threshold)%Qc ->
  let N := Z.to_nat n in let px := combine rs vs in
  exists centers averages ks, circular_average radial image threshold n (Some lo) (Some hi) mask = Some (centers, map Some averages) /\
    StronglySorted lt ks /\
    (forall k, In k ks <-> k < N /\ exists c t, ring lo hi N k px c t /\ (threshold < c)%Qc) /\
    Forall2 (fun k c => (c - bin_edge lo hi N k = bin_edge lo hi N (S k) - c)%Qc) ks centers /\
    Forall2 (fun k a => exists c t, ring lo hi N k px c t /\ (0 < c)%Qc /\ (a * c = t)%Qc) ks averages.
Proof. exact (rings radial image threshold n lo hi mask rs vs). Qed.
Print Assumptions C62_rings.
Definition ex_call t m := match circular_average (map qz [0; 1; 2; 5; 6; 3]%Z) (map qz [10; 20; 60; 8; 2; 99]%Z) t 3 (Some 0%Qc) (Some (qz 6)) m with
  Some (c, a) => Some (map this c, map (option_map this) a) | None => None end.
Example C62_rings_ex : ex_call 0%Qc None = Some ([1; 3; 5], [Some 15; Some (159 # 2); Some 5])%Q.
Proof. vm_compute. reflexivity. Qed.
Example C62_rings_mask_ex : ex_call 1%Qc (Some [1; 1; 0; 1; 1; 2]%Z) = Some ([1; 5], [Some 15; Some 5])%Q.
Proof. vm_compute. reflexivity. Qed.
Example C62_used_ex : used (Some [1; 1; 0; 2]%Z) (map qz [0; 1; 2; 5]%Z) (map qz [4; 5; 6; 7]%Z) (map qz [0; 1]%Z) (map qz [4; 5]%Z).
Proof. cbn. split; repeat constructor; discriminate. Qed.
(** a ring has one count and one total *)
Theorem C62_ring_unique lo hi N k px c t c' t' : ring lo hi N k px c t -> ring lo hi N k px c' t' -> c = c' /\ t = t'.
Proof. intros [A B] [A' B']. split; eapply weight_fun; eassumption. Qed.
Print Assumptions C62_ring_unique.
(** no average leaves the range of the pixels used; a constant image has that constant in every ring *)
Theorem C62_between radial image threshold n lo hi mask rs vs a b centers averages :
  length radial = length image -> used mask radial image rs vs -> (0 < n)%Z -> (lo <= hi)%Qc -> (0 <= threshold)%Qc ->
  Forall (fun v => (a <= v)%Qc /\ (v <= b)%Qc) vs ->
  circular_average radial image threshold n (Some lo) (Some hi) mask = Some (centers, averages) ->
  Forall (fun o => exists v, o = Some v /\ (a <= v)%Qc /\ (v <= b)%Qc) averages.
Proof.
  intros L U Hn Hle Ht F E. destruct (rings radial image threshold n lo hi mask rs vs L U Hn Hle Ht) as (cs & avs & ks & E' & _ & _ & _ & A).
  rewrite E in E'. injection E' as -> ->. clear -A F. induction A as [|k x ks xs (c & t & R & C & Ex) _ IH]; cbn; constructor; auto.
  exists x. split; [reflexivity|]. eapply average_between; [exact R|exact C| |].
  - apply Forall_forall. intros [p q] I. apply in_combine_r in I. eapply Forall_forall in F; [exact F|exact I].
  - rewrite <- Ex. field. intros ->. exact (Qclt_not_eq _ _ C eq_refl).
Qed.
Print Assumptions C62_between.
(** default limits: the smallest and the largest radius of the selected pixels *)
Theorem C62_default_limits radial image threshold n mask rs vs :
  length radial = length image -> used mask radial image rs vs -> rs <> [] ->
  exists lo hi, In lo rs /\ In hi rs /\ (forall s, In s rs -> (lo <= s)%Qc /\ (s <= hi)%Qc) /\
    circular_average radial image threshold n None None mask = circular_average radial image threshold n (Some lo) (Some hi) mask.
Proof. exact (circular_defaults radial image threshold n mask rs vs). Qed.
Print Assumptions C62_default_limits.
(** and a mask without any 1 raises *)
Theorem C62_all_masked radial image threshold n mask : length radial = length image -> used mask radial image [] [] -> circular_average radial image threshold n None None mask = None.
Proof. exact (circular_empty radial image threshold n mask). Qed.
Print Assumptions C62_all_masked.
(** the documented shape (nx,) does not hold *)
Theorem C62_shape_refuted : exists c a, circular_average (map qz [0; 6]%Z) (map qz [1; 2]%Z) 0%Qc 3 None None None = Some (c, a) /\ length c = 2 /\ length a = 2.
Proof. eexists. eexists. split; [vm_compute; reflexivity|split; reflexivity]. Qed.
Print Assumptions C62_shape_refuted.
(** a negative threshold lets empty rings through as nan *)
Theorem C62_negative_threshold_refuted : exists c a, circular_average (map qz [0; 6]%Z) (map qz [1; 2]%Z) (qz (-1)) 3 None None None = Some (c, a) /\ nth_error a 1 = Some None.
Proof. eexists. eexists. split; [vm_compute; reflexivity|reflexivity]. Qed.
Print Assumptions C62_negative_threshold_refuted.
