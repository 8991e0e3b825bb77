(* C122: ring edges in double precision. *)
From Coq Require Import Reals.
From Flocq Require Import Core BinarySingleNaN.
From Verif Require Import Common F64 RingEdgesF_Model RingEdgesF_Spec RingEdgesF_Proofs.
From Verif Require RingsF_Model RingsF_Spec RingsF_Proofs.
From Coq Require Import Lra.
Local Open Scope R_scope.

Section C122.
Context (inner : f64) (width : widthsF) (spacing : spacingsF) (num_rings : option Z) (n : nat) (r : R).
(** finite arguments that are not negative, asking for n rings up to a radius of 2^1021 *)
Definition fair : Prop := usable inner /\ usable_widths width /\ usable_spacings spacing /\ asks_for n width spacing num_rings /\
  first_radius inner spacing r /\ (Z.of_nat n <= 2 ^ 51)%Z /\
  total (steps r (width_values n width) (spacing_values (n - 1) spacing)) <= bpow radix2 1021.
Let wanted := steps r (width_values n width) (spacing_values (n - 1) spacing).
Let the_result l := ring_edgesF inner width spacing num_rings = RingsOf l.

(** n rings are returned, and edge number k is within 2k units of 2^-53, relative, of the exact sum. *)
Theorem C122_edges : fair -> exists l, the_result l /\ length l = n /\
  forall k e, nth_error (flat l) k = Some e -> is_finite e = true /\ Rabs (B2R e - exact_edge wanted k) <= 2 * INR k * bpow radix2 (-53) * exact_edge wanted k.
Proof.
  intros (H1 & H2 & H3 & H4 & H5 & H6 & H7). destruct (edges_all inner width spacing num_rings n r H1 H2 H3 H4 H5 H6 H7) as (l & E & L & H). exists l. split; [exact E|]. split; [exact L|].
  intros k e Ek. destruct (H k e Ek) as ([F _] & A & _). split; assumption.
Qed.
(** The first edge is the first radius, and every other edge is the double nearest to the one before it plus the width or spacing asked for. *)
Theorem C122_steps l : fair -> the_result l ->
  (forall e, nth_error (flat l) 0 = Some e -> B2R e = r) /\
  forall k e d y, nth_error (flat l) k = Some e -> nth_error (flat l) (k + 1) = Some d -> nth_error wanted (k + 1) = Some y ->
    B2R d = round radix2 (FLT_exp (-1074) 53) ZnearestE (B2R e + y) /\ B2R e <= B2R d.
Proof.
  intros (H1 & H2 & H3 & H4 & H5 & H6 & H7) E. destruct (edges_all inner width spacing num_rings n r H1 H2 H3 H4 H5 H6 H7) as (l' & E' & L & H). unfold the_result in E. assert (l' = l) by congruence. subst l'. split.
  - intros e Ee. destruct (H 0%nat e Ee) as (_ & _ & Z & _). apply Z. reflexivity.
  - intros k e d y Ee Ed Ey. destruct (H k e Ee) as (_ & _ & _ & _ & G). exact (G d y Ed Ey).
Qed.
(** The edges are exact when all of them are doubles, as for whole numbers up to 2^53. *)
Theorem C122_exact l : fair -> the_result l -> (forall k, (k < 2 * n)%nat -> generic_format radix2 (FLT_exp (-1074) 53) (exact_edge wanted k)) ->
  forall k e, nth_error (flat l) k = Some e -> B2R e = exact_edge wanted k.
Proof.
  intros (H1 & H2 & H3 & H4 & H5 & H6 & H7) E HF. destruct (edges_all inner width spacing num_rings n r H1 H2 H3 H4 H5 H6 H7) as (l' & E' & L & H). unfold the_result in E. assert (l' = l) by congruence. subst l'.
  intros k e Ee. destruct (H k e Ee) as (_ & _ & _ & X & _). exact (X HF).
Qed.
(** Without spacing each ring ends exactly where the next begins. *)
Theorem C122_touching l : fair -> the_result l -> (exists x, spacing = Spacing x /\ B2R x = 0) ->
  forall i p q, nth_error l i = Some p -> nth_error l (i + 1) = Some q -> B2R (fst q) = B2R (snd p).
Proof.
  intros F E [x [Es Ex]] i p q Ep Eq. destruct (C122_steps l F E) as [_ H]. destruct (nth_flat l i p Ep) as [_ P]. destruct (nth_flat l (i + 1) q Eq) as [Q _].
  destruct F as (H1 & H2 & H3 & H4 & H5 & H6 & H7). destruct (edges_all inner width spacing num_rings n r H1 H2 H3 H4 H5 H6 H7) as (l' & E' & L & _). unfold the_result in E. assert (l' = l) by congruence. subst l'.
  assert (B : (i + 1 < n)%nat) by (rewrite <- L; apply nth_error_Some; congruence).
  destruct (H (2 * i + 1)%nat (snd p) (fst q) 0 P) as [G _].
  - replace (2 * i + 1 + 1)%nat with (2 * (i + 1))%nat by lia. exact Q.
  - unfold wanted. replace (2 * i + 1 + 1)%nat with (2 * i + 2)%nat by lia. rewrite steps_even. destruct H4 as (_ & Lw & _ & _). rewrite Lw. replace (S i <? n)%nat with true by (symmetry; apply Nat.ltb_lt; lia).
    rewrite Es. cbn [spacing_values]. rewrite Ex. apply nth_error_repeat. lia.
  - rewrite G, Rplus_0_r. apply rnd_id. apply B2R_format.
Qed.
(** rings accepts what ring_edges returns, whatever the roundings. *)
Theorem C122_accepted l center h w : fair -> the_result l -> RingsF_Model.ringsF (flat l) center h w <> None.
Proof.
  intros F E. destruct (C122_steps l F E) as [_ H]. destruct F as (H1 & H2 & H3 & H4 & H5 & H6 & H7).
  destruct (edges_all inner width spacing num_rings n r H1 H2 H3 H4 H5 H6 H7) as (l' & E' & L & G). unfold the_result in E. assert (l' = l) by congruence. subst l'.
  assert (Fin : Forall (fun e => is_finite e = true) (flat l)). { apply Forall_forall. intros e I. apply In_nth_error in I. destruct I as [k Ek]. exact (proj1 (proj1 (G k e Ek))). }
  assert (Ev : Nat.even (length (flat l)) = true). { clear. induction l as [|p l IH]; [reflexivity|]. exact IH. }
  apply (RingsF_Proofs.check_ok (flat l) center h w Fin). split; [exact Ev|].
  intros k a b Ea Eb. unfold RingsF_Spec.values in Ea, Eb. rewrite nth_error_map in Ea, Eb. destruct (nth_error (flat l) k) as [e|] eqn:Ee; [|discriminate]. destruct (nth_error (flat l) (k + 1)) as [d|] eqn:Ed; [|discriminate].
  injection Ea as <-. injection Eb as <-.
  destruct (the_edges inner width spacing num_rings n r H1 H2 H3 H4 H5 H6 H7) as (l' & x & rest & E2 & _ & Fl & _ & _ & Es & _). assert (l' = l) by congruence. subst l'.
  assert (K : (k + 1 < length wanted)%nat). { unfold wanted. rewrite Es, map_length. replace (length (x :: rest)) with (length (flat l)) by (rewrite Fl; cbn [length]; rewrite cum_length; reflexivity). apply nth_error_Some. congruence. }
  destruct (nth_error wanted (k + 1)) as [y|] eqn:Ey; [|apply nth_error_None in Ey; lia]. exact (proj2 (H k e d y Ee Ed Ey)).
Qed.
End C122.
Print Assumptions C122_edges.
Print Assumptions C122_steps.
Print Assumptions C122_exact.
Print Assumptions C122_touching.
Print Assumptions C122_accepted.

(** Lists for both the widths and the spacings are never accepted. *)
Theorem C122_two_lists inner widths spacing num_rings l : (forall x, spacing <> Spacing x) -> ring_edgesF inner (Widths widths) spacing num_rings <> RingsOf l.
Proof.
  intros H. unfold ring_edgesF.
  assert (E : exists sl, as_list spacing = Some sl /\ forall m, match spacing with Spacing x => repeat (fmul fone x) m | Spacings l0 => l0 | IntSpacings l0 => map f64_of_Z l0 end = sl).
  { destruct spacing as [x|sl|sl]; [destruct (H x eq_refl)| |]; eexists; split; reflexivity. }
  destruct E as [sl [Es Em]]. rewrite Es. cbn [option_map]. destruct (Z.eqb_spec (Z.of_nat (length widths)) (Z.of_nat (length sl) - 1)) as [E|E]; cbn [negb]; [|discriminate].
  destruct (match num_rings with None => _ | Some k => _ end) as [k|]; [|discriminate]. cbn [orb]. rewrite Em.
  destruct (Nat.eqb_spec (length (insertedF inner spacing :: sl)) (length widths)) as [E'|E']; cbn [negb]; [|discriminate]. cbn [length] in E'. lia.
Qed.
Print Assumptions C122_two_lists.
Example C122_two_lists_ex : ring_edgesF fone (Widths [fone; fone; fone]) (IntSpacings [1; 2]%Z) None = ValueErrorF.
Proof. reflexivity. Qed.
Lemma less a b : is_finite a = true -> is_finite b = true -> fltb a b = true -> B2R a < B2R b.
Proof. intros Fa Fb H. rewrite (fltb_ok a b Fa Fb) in H. destruct (Rlt_bool_spec (B2R a) (B2R b)); [assumption|discriminate]. Qed.
Lemma usable_by x : is_finite x = true -> fleb fzero x = true -> usable x.
Proof. intros F H. split; [exact F|]. rewrite (fleb_ok fzero x eq_refl F) in H. destruct (Rle_bool_spec (B2R fzero) (B2R x)) as [L|]; [exact L|discriminate]. Qed.
Lemma at_most a b : is_finite a = true -> is_finite b = true -> fleb a b = true -> B2R a <= B2R b.
Proof. intros Fa Fb H. rewrite (fleb_ok a b Fa Fb) in H. destruct (Rle_bool_spec (B2R a) (B2R b)); [assumption|discriminate]. Qed.
Definition edges_of (r : ring_resultF) : list (f64 * f64) := match r with RingsOf l => l | _ => [] end.
Lemma edges_of_ok r : match r with RingsOf _ => true | _ => false end = true -> r = RingsOf (edges_of r).
Proof. destruct r; [reflexivity|discriminate|discriminate]. Qed.
Lemma nth_some {A} (l : list A) i d : (i < length l)%nat -> nth_error l i = Some (nth i l d).
Proof. intros H. destruct (nth_error l i) as [x|] eqn:E; [f_equal; symmetry; apply nth_error_nth; exact E|]. apply nth_error_None in E. lia. Qed.
(** A list of integer spacings cuts off the fraction of the inner radius: radius 1.5, width 3 and spacings [1; 2] start at 1. *)
Definition one_half_more : f64 := f64_of 3 (-1).
Definition cut : ring_resultF := ring_edgesF one_half_more (Width (f64_of_Z 3)) (IntSpacings [1; 2]%Z) None.
Theorem C122_radius_refuted : exists inner width spacing l, usable inner /\ usable_widths width /\ usable_spacings spacing /\ asks_for 3 width spacing None /\
  ring_edgesF inner width spacing None = RingsOf l /\ exists p, nth_error l 0 = Some p /\ B2R (fst p) < B2R inner.
Proof.
  exists one_half_more, (Width (f64_of_Z 3)), (IntSpacings [1; 2]%Z), (edges_of cut).
  split; [|split; [|split; [|split; [|split]]]].
  - apply usable_by; vm_compute; reflexivity.
  - unfold usable_widths. apply usable_by; vm_compute; reflexivity.
  - unfold usable_spacings. constructor; [lia|]. constructor; [lia|]. constructor.
  - split; [lia|]. split; [reflexivity|]. split; [reflexivity|]. split; [left; eexists; reflexivity|]. right. split; [reflexivity|]. intros [_ [x X]]. discriminate.
  - apply (edges_of_ok cut). vm_compute. reflexivity.
  - exists (nth 0 (edges_of cut) (fzero, fzero)). split; [apply nth_some; apply Nat.ltb_lt; vm_compute; reflexivity|]. apply less; vm_compute; reflexivity.
Qed.
Print Assumptions C122_radius_refuted.
(** A ring of width 1 from radius 2^53 is empty. *)
Definition far : f64 := f64_of_Z (2 ^ 53).
Definition empty_ring : ring_resultF := ring_edgesF far (Width fone) (Spacing fzero) (Some 1%Z).
Theorem C122_empty_refuted : exists inner width l p, usable inner /\ usable width /\ 0 < B2R width /\
  ring_edgesF inner (Width width) (Spacing fzero) (Some 1%Z) = RingsOf l /\ nth_error l 0 = Some p /\ B2R (snd p) <= B2R (fst p).
Proof.
  exists far, fone, (edges_of empty_ring), (nth 0 (edges_of empty_ring) (fzero, fzero)). split; [apply usable_by; vm_compute; reflexivity|]. split; [apply usable_by; vm_compute; reflexivity|].
  split; [rewrite fone_R; lra|]. split; [apply (edges_of_ok empty_ring); vm_compute; reflexivity|]. split; [apply nth_some; apply Nat.ltb_lt; vm_compute; reflexivity|].
  apply at_most; vm_compute; reflexivity.
Qed.
Print Assumptions C122_empty_refuted.
(** Ten rings of width 0.1 from radius 0 end below 1, which is the double nearest to the exact sum. *)
Definition tenth : f64 := f64_of 7205759403792794 (-56).
Definition ten_rings : ring_resultF := ring_edgesF fzero (Width tenth) (Spacing fzero) (Some 10%Z).
Theorem C122_drift_refuted : exists inner width l p, usable inner /\ usable width /\ ring_edgesF inner (Width width) (Spacing fzero) (Some 10%Z) = RingsOf l /\
  nth_error l 9 = Some p /\ B2R (snd p) < round radix2 (FLT_exp (-1074) 53) ZnearestE (B2R inner + 10 * B2R width).
Proof.
  exists fzero, tenth, (edges_of ten_rings), (nth 9 (edges_of ten_rings) (fzero, fzero)).
  assert (U : usable tenth) by (apply usable_by; vm_compute; reflexivity).
  split; [apply usable_by; vm_compute; reflexivity|]. split; [exact U|]. split; [apply (edges_of_ok ten_rings); vm_compute; reflexivity|].
  split; [apply nth_some; apply Nat.ltb_lt; vm_compute; reflexivity|].
  assert (T : B2R fzero + 10 * B2R tenth = B2R (f64_of_Z 10) * B2R tenth). { destruct (f64_of_Z_ok 10 ltac:(lia)) as [-> _]. change (B2R fzero) with 0. ring. }
  assert (L : B2R tenth < 1). { rewrite <- fone_R. apply less; vm_compute; reflexivity. }
  rewrite T.
  destruct (fmul_ok (f64_of_Z 10) tenth) as [G G'].
  - vm_compute. reflexivity.
  - apply U.
  - rewrite <- T. apply Rle_lt_trans with 10; [|apply Rlt_le_trans with (bpow radix2 4); [change (bpow radix2 4) with 16; lra|apply bpow_le; lia]].
    apply abs_round_le_generic; [typeclasses eauto|typeclasses eauto|apply (Z_format 10); lia|]. change (B2R fzero) with 0. destruct U as [_ U]. rewrite Rabs_pos_eq; lra.
  - rewrite <- G. apply less; [vm_compute; reflexivity|exact G'|vm_compute; reflexivity].
Qed.
Print Assumptions C122_drift_refuted.

(** ** A concrete case: widths 5 and 4 with spacing 2 from radius 1 *)
Example C122_ex : let w := Widths [f64_of_Z 5; f64_of_Z 4] in let s := Spacing (f64_of_Z 2) in
  fair (f64_of_Z 1) w s None 2 1 /\ map B2SF (flat (edges_of (ring_edgesF (f64_of_Z 1) w s None))) = map (fun z => B2SF (f64_of_Z z)) [1; 6; 8; 12]%Z.
Proof.
  cbv zeta. assert (U : forall z, (0 <= z <= 2 ^ 53)%Z -> usable (f64_of_Z z) /\ B2R (f64_of_Z z) = IZR z).
  { intros z Hz. destruct (f64_of_Z_ok z ltac:(lia)) as [E F]. split; [split; [exact F|rewrite E; apply IZR_le; lia]|exact E]. }
  split.
  - split; [apply U; lia|]. split; [constructor; [apply U; lia|constructor; [apply U; lia|constructor]]|]. split; [apply U; lia|]. split; [|split; [|split; [lia|]]].
    + split; [lia|]. split; [reflexivity|]. split; [reflexivity|]. split; [right; eexists; reflexivity|]. right. split; [reflexivity|]. intros [[x X] _]. discriminate.
    + unfold first_radius. symmetry. apply (U 1%Z). lia.
    + unfold width_values, spacing_values. change (2 - 1)%nat with 1%nat. cbn [map repeat steps total fold_right].
      rewrite (proj2 (U 5%Z ltac:(lia))), (proj2 (U 4%Z ltac:(lia))), (proj2 (U 2%Z ltac:(lia))). apply Rle_trans with (bpow radix2 4); [change (bpow radix2 4) with 16; lra|apply bpow_le; lia].
  - vm_compute. reflexivity.
Qed.
