From Verif Require Import Common QcArith Text_Model Elem_Data Elem_Model Elem_Proofs Elem_Props XrfLine_Model.

Section X.
Context (LineEnergy : Z -> text -> option Qc) (CS : Z -> text -> Qc -> option Qc).
Lemma absv_spec (v d : Qc) : (Qc_absv v < d)%Qc <-> (- d < v /\ v < d)%Qc.
Proof.
  unfold Qc_absv. destruct (Qc_ltb_spec v 0%Qc) as [H|H]; [|apply Qcnot_lt_le in H]; split; intros K; [split|destruct K|split|destruct K]; qclra.
Qed.
Lemma near_ok z energy delta inc k v : In (k, v) (line_near LineEnergy CS z energy delta inc) <->
  In k line_names /\ v = or0 (LineEnergy z k) /\ or0 (CS z k inc) <> 0%Qc /\ (energy - delta < v /\ v < energy + delta)%Qc.
Proof.
  unfold line_near. rewrite in_flat_map. fold (emission LineEnergy z k). split.
  - intros (k' & I & H). destruct (Qc_eqb_spec (cross CS z inc k') 0%Qc) as [E|E]; [destruct H|]. destruct (Qc_ltb_spec (Qc_absv (emission LineEnergy z k' - energy)%Qc) delta) as [L|L]; [|destruct H].
    destruct H as [[= <- <-]|[]]. apply absv_spec in L. split; [exact I|]. split; [reflexivity|]. split; [exact E|]. set (w := emission LineEnergy z k') in *. clearbody w. destruct L. split; qclra.
  - intros (I & -> & E & L1 & L2). exists k. split; [exact I|]. destruct (Qc_eqb_spec (cross CS z inc k) 0%Qc) as [Y|_]; [contradiction|].
    destruct (Qc_ltb_spec (Qc_absv (emission LineEnergy z k - energy)%Qc) delta) as [_|N]; [now left|]. exfalso. apply N. apply absv_spec. change (or0 (LineEnergy z k)) with (emission LineEnergy z k) in *. set (w := emission LineEnergy z k) in *. clearbody w. split; qclra.
Qed.
Lemma near_nodup z energy delta inc : NoDup (map fst (line_near LineEnergy CS z energy delta inc)).
Proof.
  assert (N : NoDup line_names). { unfold line_names. repeat constructor; cbn; intuition discriminate. }
  unfold line_near. induction N as [|k l NI N IH]; [constructor|]. cbn [flat_map]. rewrite map_app.
  assert (S : incl (map fst (flat_map (fun k => if Qc_eqb (cross CS z inc k) 0%Qc then [] else if Qc_ltb (Qc_absv (emission LineEnergy z k - energy)%Qc) delta then [(k, emission LineEnergy z k)] else []) l)) l).
  { intros x I. apply in_map_iff in I as ((k' & v) & <- & I). apply in_flat_map in I as (k2 & I2 & I). destruct (Qc_eqb _ _); [destruct I|]. destruct (Qc_ltb _ _); [|destruct I]. destruct I as [[= <- _]|[]]. exact I2. }
  destruct (Qc_eqb _ _); [exact IH|]. destruct (Qc_ltb _ _); [|exact IH]. cbn. constructor; [|exact IH]. intros I. apply NI, S, I.
Qed.
Lemma text_eqb_refl s : text_eqb s s = true. Proof. now apply text_eqb_eq. Qed.
Lemma text_eqb_ne a b : a <> b -> text_eqb a b = false.
Proof. intros H. destruct (text_eqb a b) eqn:E; [|reflexivity]. now apply text_eqb_eq in E. Qed.
Lemma sget_sset_eq {A} d k (v : A) : sget (sset d k v) k = Some v.
Proof. induction d as [|[k' v'] d IH]; cbn; [now rewrite text_eqb_refl|]. destruct (text_eqb k k') eqn:E; cbn; rewrite E; [reflexivity|exact IH]. Qed.
Lemma sget_sset_ne {A} d k k' (v : A) : k <> k' -> sget (sset d k v) k' = sget d k'.
Proof.
  intros H. induction d as [|[k1 e1] d IH]; cbn; [now rewrite text_eqb_ne by congruence|]. destruct (text_eqb k k1) eqn:E; cbn.
  - apply text_eqb_eq in E. subst k1. now rewrite text_eqb_ne by congruence.
  - destruct (text_eqb k' k1); [reflexivity|exact IH].
Qed.
Lemma elements_some t l es : elements t l = Some es -> Forall2 (fun k e => basic_element t k = Some e) l es.
Proof.
  revert es. induction l as [|k l IH]; intros es; cbn [elements].
  - intros [= <-]. constructor.
  - destruct (basic_element t k) as [e|] eqn:E; [|discriminate]. cbn [bind]. destruct (elements t l) as [r|]; [|discriminate]. cbn [bind]. intros [= <-]. constructor; auto.
Qed.
Lemma elements_none t l : elements t l = None <-> exists k, In k l /\ basic_element t k = None.
Proof.
  induction l as [|k l IH]; cbn [elements]; [split; [discriminate|intros (k & [] & _)]|]. destruct (basic_element t k) as [e|] eqn:E; cbn [bind].
  - destruct (elements t l); cbn [bind].
    + split; [discriminate|]. intros (k' & [<-|I] & H); [congruence|]. destruct IH as [_ IH]. specialize (IH (ex_intro _ k' (conj I H))). discriminate.
    + split; [|reflexivity]. intros _. destruct (proj1 IH eq_refl) as (k' & I & H). exists k'. split; [now right|exact H].
  - split; [|reflexivity]. intros _. exists k. split; [now left|exact E].
Qed.
Context (near : Z -> list (text * Qc)).
Definition step (out : list (text * list (text * Qc))) (e : element) := match near (Z_ e) with [] => out | l => sset out (sym e) l end.
Lemma fold_get (es : list element) : (forall a b, In a es -> In b es -> sym a = sym b -> a = b) -> forall s l out,
  (forall e, In e es -> sget out (sym e) = None \/ sget out (sym e) = Some (near (Z_ e))) ->
  (sget (fold_left step es out) s = Some l <-> (exists e, In e es /\ sym e = s /\ near (Z_ e) = l /\ l <> []) \/ sget out s = Some l).
Proof.
  induction es as [|e es IH]; intros U s l out H; cbn [fold_left].
  - split; [auto|]. intros [(e & [] & _)|K]; exact K.
  - rewrite IH.
    + assert (SG : sget (step out e) s = Some l <-> (sym e = s /\ near (Z_ e) = l /\ l <> []) \/ sget out s = Some l).
      { unfold step. destruct (near (Z_ e)) as [|x r] eqn:N.
        - split; [auto|]. intros [(_ & <- & Y)|K]; [congruence|exact K].
        - destruct (list_eq_dec ascii_dec (sym e) s) as [<-|NE].
          + rewrite sget_sset_eq. destruct (H e (or_introl eq_refl)) as [Y|Y]; rewrite Y, ?N; split; try (intros [= <-]; left; repeat split; discriminate); intros [(_ & <- & _)|K]; congruence.
          + rewrite sget_sset_ne by exact NE. split; [auto|]. intros [(Y & _)|K]; [contradiction|exact K]. }
      rewrite SG. split.
      * intros [(e' & I & Y)|[Y|Y]]; [left; exists e'; split; [now right|exact Y]|left; exists e; split; [now left|exact Y]|now right].
      * intros [(e' & [<-|I] & Y)|Y]; [right; left; exact Y|left; exists e'; auto|auto].
    + intros a b Ia Ib. apply U; now right.
    + intros e' I. unfold step. destruct (near (Z_ e)) as [|x r] eqn:N; [apply H; now right|]. destruct (list_eq_dec ascii_dec (sym e) (sym e')) as [E|NE].
      * rewrite E, sget_sset_eq. right. rewrite <- (U e e'); [now rewrite N|now left|now right|exact E].
      * rewrite sget_sset_ne by exact NE. apply H. now right.
Qed.
End X.
Theorem search_ok LineEnergy CS t line_e delta inc l : basic = Some t ->
  (emission_line_search LineEnergy CS t line_e delta inc (Some l) = None <-> exists k, In k l /\ basic_element t k = None) /\
  forall d, emission_line_search LineEnergy CS t line_e delta inc (Some l) = Some d ->
  forall s lines, sget d s = Some lines <-> exists k e, In k l /\ basic_element t k = Some e /\ sym e = s /\ lines = line_near LineEnergy CS (Z_ e) line_e delta inc /\ lines <> [].
Proof.
  intros T. unfold emission_line_search. split.
  - rewrite <- elements_none. destruct (elements t l); cbn [bind]; split; congruence.
  - intros d. destruct (elements t l) as [es|] eqn:E; [|discriminate]. cbn [bind]. intros [= <-] s lines. apply elements_some in E.
    assert (IE : forall e, In e es <-> exists k, In k l /\ basic_element t k = Some e).
    { intros e. clear - E. induction E as [|k e0 l es K E IH]; [split; [intros []|intros (k & [] & _)]|]. split.
      - intros [<-|I]; [exists k; split; [now left|exact K]|]. apply IH in I as (k' & I & Y). exists k'. split; [now right|exact Y].
      - intros (k' & [<-|I] & Y); [left; congruence|right; apply IH; eauto]. }
    rewrite (fold_get (fun z => line_near LineEnergy CS z line_e delta inc) es).
    + cbn [sget]. split.
      * intros [(e & I & Y1 & Y2 & Y3)|Y]; [|discriminate]. apply IE in I as (k & I & K). exists k, e. auto.
      * intros (k & e & I & K & Y1 & Y2 & Y3). left. exists e. split; [apply IE; eauto|auto].
    + intros a b Ia Ib SE. apply IE in Ia as (k & _ & Ka). apply IE in Ib as (k' & _ & Kb). apply (C61_only t) in Ka as [Ra _]; [|exact T]. apply (C61_only t) in Kb as [Rb _]; [|exact T].
      destruct (C61_lookup t a (sym a) T Ra) as [_ La]. destruct (C61_lookup t b (sym a) T Rb) as [_ Lb]. specialize (La (or_introl eq_refl)). rewrite SE in Lb. specialize (Lb (or_introl eq_refl)). rewrite <- SE in Lb. congruence.
    + intros e _. now left.
Qed.
