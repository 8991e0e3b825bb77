From Verif Require Import Common MultiTau_Model MultiTau_Spec MultiTau_Main MultiTau_Out TwoTime_Model TwoTime_Spec TwoTime_Main Alias_Model Alias_Spec.

(** ** Memory *)
Lemma read_all_ext h h' ks : (forall k, In k ks -> nth_error h' k = nth_error h k) -> read_all h' ks = read_all h ks.
Proof. induction ks as [|k ks IH]; intros H; [reflexivity|]. cbn. rewrite (H k) by (left; reflexivity). rewrite IH by (intros; apply H; right; assumption). reflexivity. Qed.
Lemma read_all_bound h ks l : read_all h ks = Some l -> forall k, In k ks -> k < length h.
Proof.
  revert l; induction ks as [|k ks IH]; intros l H k' []; cbn in H; unfold bind in H; destruct (nth_error h k) eqn:E; try discriminate; destruct (read_all h ks) eqn:R; try discriminate.
  - subst k'. apply nth_error_Some. congruence.
  - eapply IH; [reflexivity|assumption].
Qed.
Lemma read_app h x ks : (forall k, In k ks -> k < length h) -> read_all (h ++ x) ks = read_all h ks.
Proof. intros H. apply read_all_ext. intros k I. apply nth_error_app1, H, I. Qed.
Lemma read_new h ws x : read_all (h ++ ws ++ x) (seq (length h) (length ws)) = Some ws.
Proof.
  revert h; induction ws as [|w ws IH]; intros h; [reflexivity|]. cbn [length seq read_all]. rewrite nth_error_app2 by lia. rewrite Nat.sub_diag. cbn [nth_error app bind].
  specialize (IH (h ++ [w])). rewrite app_length in IH. cbn in IH. rewrite Nat.add_1_r in IH. rewrite <- app_assoc in IH. cbn in IH. rewrite IH. reflexivity.
Qed.
Lemma write_ok ks : forall h vs, NoDup ks -> (forall k, In k ks -> k < length h) -> length vs = length ks ->
  exists h', write_all h ks vs = Some h' /\ length h' = length h /\ read_all h' ks = Some vs /\ forall l, ~ In l ks -> nth_error h' l = nth_error h l.
Proof.
  induction ks as [|k ks IH]; intros h vs N B L; destruct vs as [|v vs]; try discriminate L.
  - exists h. cbn. auto.
  - inversion N as [|? ? Nk N']; subst. destruct (upd_some h k v) as [h1 E]; [apply B; left; reflexivity|]. pose proof (upd_length _ _ _ _ E) as L1.
    destruct (IH h1 vs N') as (h' & W & L' & R & F); [intros; rewrite L1; apply B; right; assumption|cbn in L; lia|].
    exists h'. cbn. rewrite E. cbn. rewrite W. repeat split; [lia| |].
    + rewrite (F k Nk), (upd_nth_eq _ _ _ _ E). cbn. rewrite R. reflexivity.
    + intros l H. rewrite F by tauto. apply (upd_nth_ne _ _ _ _ _ E). intros ->. tauto.
Qed.
Lemma NoDup_app_remove_l {A} (a b : list A) : NoDup (a ++ b) -> NoDup b.
Proof. induction a as [|x a IH]; intros H; [exact H|]. inversion H; subst. apply IH. assumption. Qed.
Lemma concat_once {A} (ls : list (list A)) i j a b x : NoDup (concat ls) -> nth_error ls i = Some a -> nth_error ls j = Some b -> In x a -> In x b -> i = j.
Proof.
  revert i j; induction ls as [|l ls IH]; intros [|i] [|j] N Ha Hb Ia Ib; try discriminate; [reflexivity| | |]; cbn in *; apply NoDup_app_remove_l in N as N2.
  - injection Ha as ->. exfalso. clear IH N2. assert (In x (concat ls)) as I by (apply in_concat; exists b; split; [eapply nth_error_In, Hb|assumption]). clear -N Ia I. induction a as [|y a IH]; [destruct Ia|]. inversion N as [|? ? N1 N2']; subst. destruct Ia as [->|Ia]; [apply N1, in_app_iff; auto|apply IH; assumption].
  - injection Hb as ->. exfalso. clear IH N2. assert (In x (concat ls)) as I by (apply in_concat; exists a; split; [eapply nth_error_In, Ha|assumption]). clear -N Ib I. induction b as [|y b IH]; [destruct Ib|]. inversion N as [|? ? N1 N2']; subst. destruct Ib as [->|Ib]; [apply N1, in_app_iff; auto|apply IH; assumption].
  - f_equal. eapply IH; eauto.
Qed.
Lemma concat_nodup {A} (ls : list (list A)) i a : NoDup (concat ls) -> nth_error ls i = Some a -> NoDup a.
Proof.
  revert i; induction ls as [|l ls IH]; intros [|i] N Ha; try discriminate; cbn in *.
  - injection Ha as ->. clear IH. induction a as [|y a IH]; [constructor|]. inversion N as [|? ? N1 N2]; subst. constructor; [intros I; apply N1, in_app_iff; auto|apply IH, N2].
  - eapply IH; [eapply NoDup_app_remove_l, N|exact Ha].
Qed.

(** ** One-time generators *)
Lemma unpack_pack1 s : unpack1 (pack1 s) = Some s. Proof. destruct s. reflexivity. Qed.
Definition locs (g : gen) : list nat := written (at_ g) ++ [lag_loc (at_ g)].
Definition val (x : series) : option (list (list (option Qc)) * list nat) := multi_tau_auto_corr (bufs (fst x)) (levels (fst x)) (labels_of (fst x)) (snd x).
Lemma val_last u ims im c ys s v s' : init_cfg (bufs u) (levels u) (labels_of u) = Some c -> lazy_one_time c (init_state c) ims = Some (ys, s) ->
  gather im (pixel_list c) = Some v -> step c s v = Some s' ->
  lazy_one_time c (init_state c) (ims ++ [im]) = Some (ys ++ [outputs c s'], s') /\ val (u, ims ++ [im]) = Some (outputs c s').
Proof.
  intros C Z V S. assert (E : lazy_one_time c (init_state c) (ims ++ [im]) = Some (ys ++ [outputs c s'], s')).
  { rewrite lazy_app, Z. cbn. rewrite V. cbn. rewrite S. reflexivity. }
  split; [exact E|]. unfold val, multi_tau_auto_corr. cbn [fst snd]. rewrite C. cbn. rewrite E. cbn. rewrite rev_app_distr. reflexivity.
Qed.
Record good (m : machine) (b : book) (hs : list gen) : Prop := {
  g_len : length hs = length (all b);
  g_ser : forall i u ims g, nth_error (all b) i = Some (u, ims) -> nth_error hs i = Some g ->
    bufs u mod 2 = 0 /\ 2 <= bufs u /\ 1 <= levels u /\ (forall im, In im ims -> length im = length (labels_of u)) /\
    init_cfg (bufs u) (levels u) (labels_of u) = Some (par g) /\ length (written (at_ g)) = 8 /\
    (exists ys s, lazy_one_time (par g) (init_state (par g)) ims = Some (ys, s) /\ read_all (mem m) (written (at_ g)) = Some (pack1 s)) /\
    nth_error (mem m) (lag_loc (at_ g)) = Some (ANat (lag_steps (par g)));
  g_gens : length (gens m) = length (series_of b);
  g_gen : forall k i, nth_error (series_of b) k = Some i -> i < length hs /\ nth_error (gens m) k = nth_error hs i;
  g_nodup : NoDup (concat (map locs hs));
  g_bound : forall l, In l (concat (map locs hs)) -> l < length (mem m);
  g_outs : length (outs m) = length (due b);
  g_out : forall r o i x, nth_error (outs m) r = Some o -> nth_error (due b) r = Some (i, x) ->
    nth_error hs i = Some (owner o) /\ show (mem m) o = val x /\ g2_loc o < length (mem m) /\ ~ In (g2_loc o) (concat (map locs hs)) /\ fst (lag_view o) = lag_loc (at_ (owner o)) }.

Lemma show_ext h h' o : nth_error h' (g2_loc o) = nth_error h (g2_loc o) -> nth_error h' (fst (lag_view o)) = nth_error h (fst (lag_view o)) -> show h' o = show h o.
Proof. unfold show. intros -> ->. reflexivity. Qed.
Lemma in_locs hs i g l : nth_error hs i = Some g -> In l (locs g) -> In l (concat (map locs hs)).
Proof. intros H I. apply in_concat. exists (locs g). split; [apply in_map; eapply nth_error_In, H|exact I]. Qed.
Lemma nth_snoc {A} (l : list A) a i x : nth_error (l ++ [a]) i = Some x -> nth_error l i = Some x \/ (i = length l /\ x = a).
Proof.
  intros H. destruct (Nat.lt_ge_cases i (length l)) as [L|L]; [rewrite nth_error_app1 in H by exact L; auto|right]. rewrite nth_error_app2 in H by exact L.
  destruct (i - length l) as [|d] eqn:E; cbn in H; [injection H as <-; split; [lia|reflexivity]|destruct d; discriminate H].
Qed.
Lemma nth_old {A} (l : list A) a i x : nth_error l i = Some x -> nth_error (l ++ [a]) i = Some x.
Proof. intros H. rewrite nth_error_app1; [exact H|apply nth_error_Some; congruence]. Qed.
Lemma nth_new {A} (l : list A) a : nth_error (l ++ [a]) (length l) = Some a.
Proof. rewrite nth_error_app2, Nat.sub_diag by lia. reflexivity. Qed.
Lemma NoDup_cat {A} (a b : list A) : NoDup a -> NoDup b -> (forall x, In x a -> ~ In x b) -> NoDup (a ++ b).
Proof. induction a as [|x a IH]; intros Ha Hb D; [exact Hb|]. inversion Ha; subst. cbn. constructor; [rewrite in_app_iff; intros [|I]; [tauto|]; apply (D x); [left; reflexivity|exact I]|]. apply IH; [assumption|assumption|]. intros y I. apply D. right. exact I. Qed.

Lemma exec_good m b hs x b' : good m b hs -> note b x = Some b' -> exists m' hs', exec m x = Some m' /\ good m' b' hs'.
Proof.
  intros Gd H. destruct x as [nb L labels|k im|r]; cbn [note] in H.
  - destruct (good_setup _) eqn:V; [|discriminate H]. injection H as <-. set (u := {| bufs := nb; levels := L; labels_of := labels |}) in *.
    unfold good_setup in V. apply andb_prop in V as [V V3]. apply andb_prop in V as [V1 V2]. apply Nat.eqb_eq in V1. apply Nat.leb_le in V2, V3.
    destruct (accumulators nb L labels [] V1 V2 V3) as (c & _ & _ & C & _); [intros ? []|]. cbn [exec]. rewrite C. cbn [bind].
    eexists. set (g := {| par := c; at_ := _ |}). exists (hs ++ [g]). split; [reflexivity|]. destruct Gd. set (n := length (mem m)) in *.
    assert (Lc : locs g = seq n 9) by (change 9 with (8 + 1); rewrite seq_app; reflexivity).
    assert (Old : forall l, In l (concat (map locs hs)) -> nth_error (mem m ++ pack1 (init_state c) ++ [ANat (lag_steps c)]) l = nth_error (mem m) l) by (intros l I; apply nth_error_app1, g_bound0, I).
    constructor; cbn [all series_of due mem gens outs].
    + rewrite !app_length, g_len0. reflexivity.
    + intros i u' ims g' H1 H2. apply nth_snoc in H1. destruct H1 as [H1|[-> H1]].
      * assert (i < length hs) by (rewrite g_len0; apply nth_error_Some; congruence). rewrite nth_error_app1 in H2 by assumption. destruct (g_ser0 i u' ims g' H1 H2) as (A1 & A2 & A3 & A4 & A5 & A6 & (ys & s & A7 & A8) & A9).
        repeat (split; [assumption|]). split.
        -- exists ys, s. split; [exact A7|]. rewrite <- A8. apply read_all_ext. intros q I. apply Old. eapply in_locs; [exact H2|]. apply in_app_iff. auto.
        -- rewrite <- A9. apply Old. eapply in_locs; [exact H2|]. apply in_app_iff. right. left. reflexivity.
      * injection H1 as X1 X2. subst u' ims. rewrite <- g_len0, nth_new in H2. injection H2 as <-. cbn [bufs levels labels_of par at_ g written lag_loc u]. repeat (split; [assumption|]). split; [intros ? []|]. split; [exact C|]. split; [reflexivity|]. split.
        -- exists [], (init_state c). split; [reflexivity|]. apply read_new.
        -- rewrite nth_error_app2 by (unfold n; lia). replace (n + length (pack1 (init_state c)) - length (mem m)) with 8 by (unfold n; cbn; lia). reflexivity.
    + rewrite !app_length, g_gens0. reflexivity.
    + intros k i H1. apply nth_snoc in H1. destruct H1 as [H1|[-> ->]].
      * destruct (g_gen0 k i H1) as [A1 A2]. rewrite app_length. split; [lia|]. rewrite (nth_error_app1 hs) by exact A1. rewrite <- A2. apply nth_error_app1. rewrite g_gens0. apply nth_error_Some. congruence.
      * rewrite <- g_gens0, <- g_len0, !nth_new, app_length. cbn. split; [lia|reflexivity].
    + rewrite map_app, concat_app. cbn [map concat]. rewrite app_nil_r, Lc. apply NoDup_cat; [exact g_nodup0|apply seq_NoDup|]. intros l I1 I2. apply g_bound0 in I1. apply in_seq in I2. fold n in I1. lia.
    + intros l I. rewrite map_app, concat_app in I. cbn [map concat] in I. rewrite app_nil_r, Lc in I. rewrite !app_length. cbn. apply in_app_iff in I. destruct I as [I|I]; [apply g_bound0 in I; lia|apply in_seq in I; unfold n in I; lia].
    + exact g_outs0.
    + intros r o i x H1 H2. destruct (g_out0 r o i x H1 H2) as (A1 & A2 & A3 & A4 & A5). split; [apply nth_old, A1|]. split.
      * rewrite <- A2. apply show_ext; [apply nth_error_app1, A3|]. apply Old. eapply in_locs; [exact A1|]. rewrite A5. apply in_app_iff. right. left. reflexivity.
      * split; [rewrite app_length; lia|]. split; [|exact A5]. rewrite map_app, concat_app. cbn [map concat]. rewrite app_nil_r, Lc. rewrite in_app_iff. intros [I|I]; [tauto|]. apply in_seq in I. unfold n in I. lia.
  - destruct (nth_error (series_of b) k) as [i|] eqn:Ek; [|discriminate H]. cbn [bind] in H. destruct (nth_error (all b) i) as [[u ims]|] eqn:Ei; [|discriminate H]. cbn [bind] in H.
    unfold shown in H. cbn [fst snd] in H. destruct (Nat.eqb_spec (length im) (length (labels_of u))) as [Li|]; [|discriminate H]. cbn [bind] in H. destruct (upd (all b) i (u, ims ++ [im])) as [all'|] eqn:Eu; [|discriminate H]. injection H as <-.
    destruct Gd. destruct (g_gen0 k i Ek) as [B1 B2]. destruct (nth_error hs i) as [g|] eqn:Eh; [|apply nth_error_None in Eh; lia].
    destruct (g_ser0 i u ims g Ei Eh) as (A1 & A2 & A3 & A4 & A5 & A6 & (ys & s & A7 & A8) & A9).
    destruct (accumulators (bufs u) (levels u) (labels_of u) (ims ++ [im]) A1 A2 A3) as (c & ys' & s'' & C & Z & _).
    { intros im' I. apply in_app_iff in I. destruct I as [I|[<-|[]]]; [apply A4, I|exact Li]. }
    rewrite A5 in C. injection C as <-. rewrite lazy_app, A7 in Z. cbn in Z. destruct (gather im (pixel_list (par g))) as [v|] eqn:Ev; [|discriminate Z]. cbn in Z. destruct (step (par g) s v) as [s'|] eqn:Es; [|discriminate Z]. clear Z s'' ys'.
    destruct (val_last u ims im (par g) ys s v s' A5 A7 Ev Es) as [Z1 Z2].
    assert (ND : NoDup (locs g)) by (eapply (concat_nodup (map locs hs) i); [exact g_nodup0|rewrite nth_error_map, Eh; reflexivity]).
    assert (ND' : NoDup (written (at_ g))) by (unfold locs in ND; apply NoDup_remove_1 in ND; rewrite app_nil_r in ND; exact ND).
    assert (NL : ~ In (lag_loc (at_ g)) (written (at_ g))) by (unfold locs in ND; apply NoDup_remove_2 in ND; rewrite app_nil_r in ND; exact ND).
    destruct (write_ok (written (at_ g)) (mem m) (pack1 s') ND') as (h' & W & Lh & R & F); [intros l I; apply g_bound0; eapply in_locs; [exact Eh|apply in_app_iff; auto]|rewrite A6; reflexivity|].
    cbn [exec]. rewrite B2. cbn [bind]. rewrite A8. cbn [bind]. rewrite unpack_pack1. cbn [bind]. rewrite Ev. cbn [bind]. rewrite Es. cbn [bind]. rewrite W. cbn [bind].
    eexists. exists hs. split; [reflexivity|]. set (h2 := h' ++ [AG2 (fst (outputs (par g) s'))]).
    assert (Keep : forall l, l < length (mem m) -> ~ In l (written (at_ g)) -> nth_error h2 l = nth_error (mem m) l) by (intros l Bl N; unfold h2; rewrite nth_error_app1 by lia; apply F, N).
    constructor; cbn [all series_of due mem gens outs].
    + rewrite (upd_length _ _ _ _ Eu). exact g_len0.
    + intros j u' ims' g' H1 H2. destruct (Nat.eq_dec j i) as [->|Nj].
      * rewrite (upd_nth_eq _ _ _ _ Eu) in H1. injection H1 as <- <-. rewrite Eh in H2. injection H2 as <-. repeat (split; [assumption|]). split.
        { intros im' I. apply in_app_iff in I. destruct I as [I|[<-|[]]]; [apply A4, I|exact Li]. }
        split; [exact A5|]. split; [exact A6|]. split.
        -- do 2 eexists. split; [exact Z1|]. unfold h2. rewrite read_app; [exact R|]. intros l I. rewrite Lh. apply g_bound0. eapply in_locs; [exact Eh|apply in_app_iff; auto].
        -- rewrite Keep; [exact A9| |exact NL]. apply nth_error_Some. congruence.
      * rewrite (upd_nth_ne _ _ _ _ _ Eu Nj) in H1. destruct (g_ser0 j u' ims' g' H1 H2) as (D1 & D2 & D3 & D4 & D5 & D6 & (ys2 & s2 & D7 & D8) & D9). repeat (split; [assumption|]).
        assert (K : forall l, In l (locs g') -> nth_error h2 l = nth_error (mem m) l).
        { intros l I. apply Keep; [apply g_bound0; eapply in_locs; eauto|]. intros I'. apply Nj. apply (concat_once (map locs hs) j i (locs g') (locs g) l g_nodup0); [rewrite nth_error_map, H2; reflexivity|rewrite nth_error_map, Eh; reflexivity|exact I|apply in_app_iff; auto]. }
        split; [exists ys2, s2; split; [exact D7|]; rewrite <- D8; apply read_all_ext; intros l I; apply K, in_app_iff; auto|]. rewrite <- D9. apply K, in_app_iff. right. left. reflexivity.
    + exact g_gens0.
    + exact g_gen0.
    + exact g_nodup0.
    + intros l I. unfold h2. rewrite app_length, Lh. apply g_bound0 in I. lia.
    + rewrite !app_length, g_outs0. reflexivity.
    + intros r o j x H1 H2. apply nth_snoc in H2. destruct H2 as [H2|[-> H2]].
      * assert (r < length (outs m)) by (rewrite g_outs0; apply nth_error_Some; congruence). rewrite nth_error_app1 in H1 by assumption. destruct (g_out0 r o j x H1 H2) as (D1 & D2 & D3 & D4 & D5). split; [exact D1|]. split.
        -- rewrite <- D2. apply show_ext.
           ++ apply Keep; [exact D3|]. intros I. apply D4. eapply in_locs; [exact Eh|apply in_app_iff; auto].
           ++ rewrite D5. apply Keep; [apply g_bound0; eapply in_locs; [exact D1|apply in_app_iff; right; left; reflexivity]|]. intros I.
              assert (j = i) as ->. { apply (concat_once (map locs hs) j i (locs (owner o)) (locs g) (lag_loc (at_ (owner o))) g_nodup0); [rewrite nth_error_map, D1; reflexivity|rewrite nth_error_map, Eh; reflexivity|apply in_app_iff; right; left; reflexivity|apply in_app_iff; auto]. }
              rewrite Eh in D1. injection D1 as D1. rewrite <- D1 in I. tauto.
        -- split; [unfold h2; rewrite app_length; lia|]. split; assumption.
      * injection H2 as -> ->. rewrite <- g_outs0, nth_new in H1. injection H1 as <-. cbn [owner g2_loc lag_view fst]. split; [exact Eh|]. split.
        -- rewrite Z2. unfold show. cbn [g2_loc lag_view fst snd]. unfold h2 at 1. rewrite nth_new. rewrite Keep; [|apply nth_error_Some; congruence|exact NL]. rewrite A9. unfold outputs. cbn [fst]. reflexivity.
        -- split; [unfold h2; rewrite app_length; cbn; lia|]. split; [|reflexivity]. intros I. apply g_bound0 in I. lia.
  - destruct (nth_error (due b) r) as [[i x]|] eqn:Er; [|discriminate H]. injection H as <-. destruct Gd. destruct (nth_error (outs m) r) as [o|] eqn:Eo; [|apply nth_error_None in Eo; assert (r < length (due b)) by (apply nth_error_Some; congruence); lia].
    cbn [exec]. rewrite Eo. cbn [bind]. eexists. exists hs. split; [reflexivity|]. destruct (g_out0 r o i x Eo Er) as (A1 & _). constructor; cbn [all series_of due mem gens outs fst]; try assumption.
    + rewrite !app_length, g_gens0. reflexivity.
    + intros k j H1. apply nth_snoc in H1. destruct H1 as [H1|[-> ->]].
      * destruct (g_gen0 k j H1) as [B1 B2]. split; [exact B1|]. rewrite <- B2. apply nth_error_app1. rewrite g_gens0. apply nth_error_Some. congruence.
      * rewrite <- g_gens0, nth_new. split; [apply nth_error_Some; congruence|]. symmetry. exact A1.
Qed.
Lemma run_good p : forall m b hs b', good m b hs -> foldM note p b = Some b' -> exists m' hs', foldM exec p m = Some m' /\ good m' b' hs'.
Proof.
  induction p as [|x p IH]; intros m b hs b' Gd H; cbn in *; [injection H as <-; eauto|]. unfold bind in *. destruct (note b x) as [b1|] eqn:E; [|discriminate H].
  destruct (exec_good m b hs x b1 Gd E) as (m1 & hs1 & X1 & X2). rewrite X1. eapply IH; eauto.
Qed.
Lemma boot_good : good boot {| series_of := []; all := []; due := [] |} [].
Proof. constructor; cbn; try reflexivity; try (intros [|]; discriminate); try (intros ? []); try (intros; destruct i; discriminate); try (intros; destruct r; discriminate); try constructor. Qed.
Lemma gens_ok p b : history p = Some b -> exists m, run p = Some m /\ length (outs m) = length (due b) /\
  forall r o i u ims, nth_error (outs m) r = Some o -> nth_error (due b) r = Some (i, (u, ims)) ->
  show (mem m) o = multi_tau_auto_corr (bufs u) (levels u) (labels_of u) ims.
Proof.
  intros H. destruct (run_good p _ _ _ b boot_good H) as (m & hs & R & Gd). exists m. split; [exact R|]. destruct Gd. split; [exact g_outs0|]. intros r o i u ims H1 H2. apply (g_out0 r o i (u, ims) H1 H2).
Qed.

(** ** Two-time generators *)
Definition orel {A B} (R : A -> B -> Prop) (x : option A) (y : option B) : Prop :=
  match x, y with Some a, Some b => R a b | None, None => True | _, _ => False end.
Lemma orel_bind {A B C D} (R : A -> B -> Prop) (Q : C -> D -> Prop) x y f g : orel R x y -> (forall a b, R a b -> orel Q (f a) (g b)) -> orel Q (bind x f) (bind y g).
Proof. destruct x, y; cbn; intros H K; try tauto. apply K, H. Qed.
Lemma orel_same {A C D} (Q : C -> D -> Prop) (x : option A) f g : (forall a, orel Q (f a) (g a)) -> orel Q (bind x f) (bind x g).
Proof. destruct x; cbn; intros K; [apply K|exact I]. Qed.
Lemma orel_foldM {S T A} (R : S -> T -> Prop) f g (l : list A) : (forall s t a, R s t -> orel R (f s a) (g t a)) -> forall s t, R s t -> orel R (foldM f l s) (foldM g l t).
Proof. intros H. induction l as [|a l IH]; intros s t Hs; cbn; [exact Hs|]. eapply orel_bind; [apply H, Hs|]. intros; apply IH; assumption. Qed.

Definition shape (n K : nat) (g : mat) : Prop := length g = n /\ forall a row, nth_error g a = Some row -> length row = n /\ forall b v, nth_error row b = Some v -> length v = K.
Definition cell_at (g : mat) (a b : nat) : option vec := row <- nth_error g a ;; nth_error row b.
Definition agree (n K : nat) (g g' : mat) : Prop := shape n K g /\ shape n K g' /\ forall a b, b <= a -> cell_at g a b = cell_at g' a b.
Lemma write_shape n K g a b v g' : shape n K g -> length v = K -> write g a b v = Some g' -> shape n K g'.
Proof.
  unfold write, bind. intros [S1 S2] L H. destruct (pyindex _ a) as [ai|]; [|discriminate]. destruct (nth_error g ai) as [row|] eqn:Er; [|discriminate]. destruct (pyindex _ b) as [bi|]; [|discriminate].
  destruct (upd row bi v) as [row'|] eqn:Eu; [|discriminate]. split; [rewrite (upd_length _ _ _ _ H); exact S1|]. intros a' r Ha. destruct (S2 _ _ Er) as [R1 R2]. destruct (Nat.eq_dec a' ai) as [->|N].
  - rewrite (upd_nth_eq _ _ _ _ H) in Ha. injection Ha as <-. split; [rewrite (upd_length _ _ _ _ Eu); exact R1|]. intros b' w Hb. destruct (Nat.eq_dec b' bi) as [->|N]; [rewrite (upd_nth_eq _ _ _ _ Eu) in Hb; injection Hb as <-; exact L|]. rewrite (upd_nth_ne _ _ _ _ _ Eu N) in Hb. eapply R2, Hb.
  - rewrite (upd_nth_ne _ _ _ _ _ H N) in Ha. eapply S2, Ha.
Qed.
Lemma write_agree n K g g' a b v : agree n K g g' -> length v = K -> orel (agree n K) (write g a b v) (write g' a b v).
Proof.
  intros (Sg & Sg' & E) L. destruct (write g a b v) as [h|] eqn:W, (write g' a b v) as [h'|] eqn:W'; cbn; trivial.
  - split; [exact (write_shape n K g a b v h Sg L W)|]. split; [exact (write_shape n K g' a b v h' Sg' L W')|]. intros x y Hy. specialize (E x y Hy). unfold write, bind in W, W'. destruct Sg as [S1 S2], Sg' as [S1' S2']. rewrite S1 in W. rewrite S1' in W'.
    destruct (pyindex (Z.of_nat n) a) as [ai|]; [|discriminate]. destruct (nth_error g ai) as [row|] eqn:Er; [|discriminate]. destruct (nth_error g' ai) as [row'|] eqn:Er'; [|discriminate]. destruct (S2 _ _ Er) as [R1 _], (S2' _ _ Er') as [R1' _]. rewrite R1 in W. rewrite R1' in W'.
    destruct (pyindex (Z.of_nat n) b) as [bi|]; [|discriminate]. destruct (upd row bi v) as [r2|] eqn:U; [|discriminate]. destruct (upd row' bi v) as [r2'|] eqn:U'; [|discriminate]. unfold cell_at, bind in *. destruct (Nat.eq_dec x ai) as [->|N].
    + rewrite (upd_nth_eq _ _ _ _ W), (upd_nth_eq _ _ _ _ W'). rewrite Er, Er' in E. destruct (Nat.eq_dec y bi) as [->|N]; [rewrite (upd_nth_eq _ _ _ _ U), (upd_nth_eq _ _ _ _ U'); reflexivity|]. rewrite (upd_nth_ne _ _ _ _ _ U N), (upd_nth_ne _ _ _ _ _ U' N). exact E.
    + rewrite (upd_nth_ne _ _ _ _ _ W N), (upd_nth_ne _ _ _ _ _ W' N). exact E.
  - exfalso. unfold write, bind in W, W'. destruct Sg as [S1 S2], Sg' as [S1' S2']. rewrite S1 in W. rewrite S1' in W'. destruct (pyindex (Z.of_nat n) a) as [ai|]; [|discriminate]. destruct (nth_error g ai) as [row|] eqn:Er; [|discriminate].
    destruct (nth_error g' ai) as [row'|] eqn:Er'; [|apply nth_error_None in Er'; assert (ai < length g) by (apply nth_error_Some; congruence); lia]. destruct (S2 _ _ Er) as [R1 _], (S2' _ _ Er') as [R1' _]. rewrite R1 in W. rewrite R1' in W'.
    destruct (pyindex (Z.of_nat n) b) as [bi|]; [|discriminate]. destruct (upd row bi v) as [r2|] eqn:U; [|discriminate]. apply upd_bound in U. destruct (upd_some row' bi v) as [r2' U']; [lia|]. rewrite U' in W'. apply upd_bound in W. destruct (upd_some g' ai r2') as [? X]; [lia|]. congruence.
  - exfalso. unfold write, bind in W, W'. destruct Sg as [S1 S2], Sg' as [S1' S2']. rewrite S1 in W. rewrite S1' in W'. destruct (pyindex (Z.of_nat n) a) as [ai|]; [|discriminate]. destruct (nth_error g' ai) as [row'|] eqn:Er'; [|discriminate].
    destruct (nth_error g ai) as [row|] eqn:Er; [|apply nth_error_None in Er; assert (ai < length g') by (apply nth_error_Some; congruence); lia]. destruct (S2 _ _ Er) as [R1 _], (S2' _ _ Er') as [R1' _]. rewrite R1 in W. rewrite R1' in W'.
    destruct (pyindex (Z.of_nat n) b) as [bi|]; [|discriminate]. destruct (upd row' bi v) as [r2'|] eqn:U'; [|discriminate]. apply upd_bound in U'. destruct (upd_some row bi v) as [r2 U]; [lia|]. rewrite U in W. apply upd_bound in W'. destruct (upd_some g ai r2) as [? X]; [lia|]. congruence.
Qed.
Definition rel (n K : nat) (s s' : state2) : Prop :=
  base s = base s' /\ count_level s = count_level s' /\ img_time s = img_time s' /\ time_ind s = time_ind s' /\ agree n K (g2 s) (g2 s').
Definition wf (c : cfg) : Prop := length (num_pixels c) = max_label (label_array c).
Lemma cell_len c p f : wf c -> length (cell_values (label_array c) (num_pixels c) p f) = max_label (label_array c).
Proof. intros W. unfold cell_values, bincount_p. rewrite map_length, !combine_length, !map_length, seq_length, W. lia. Qed.
Ltac rels := unfold rel; cbn; repeat (split; [first [reflexivity|assumption]|]); assumption.
Lemma process_rel c n level bn t2 s s' : wf c -> rel n (max_label (label_array c)) s s' -> orel (rel n (max_label (label_array c))) (two_time_process c level bn t2 s) (two_time_process c level bn t2 s').
Proof.
  intros W (E1 & E2 & E3 & E4 & E5). unfold two_time_process. rewrite E1. do 3 (apply orel_same; intros ?). eapply orel_bind.
  - apply (orel_foldM (agree n (max_label (label_array c)))); [|exact E5]. intros g g' i Hg. unfold ttp_body. do 5 (apply orel_same; intros ?). unfold write_lag. destruct (level =? 0); [apply write_agree; [exact Hg|apply cell_len, W]|].
    apply orel_foldM; [|exact Hg]. intros g1 g1' j H1. apply write_agree; [exact H1|apply cell_len, W].
  - intros g g' Hg. cbn. rels.
Qed.
Lemma loop_rel c n : wf c -> forall fuel level s s', rel n (max_label (label_array c)) s s' -> orel (rel n (max_label (label_array c))) (level_loop2 fuel c level s) (level_loop2 fuel c level s').
Proof.
  intros W. induction fuel as [|fuel IH]; intros level s s' H; [exact I|]. destruct H as (E1 & E2 & E3 & E4 & E5). cbn [level_loop2]. rewrite E1, E2, E3, E4. apply orel_same; intros tr. destruct (negb tr).
  - apply orel_same; intros t'. cbn. rels.
  - do 11 (apply orel_same; intros ?). destruct (negb _); [exact I|]. do 3 (apply orel_same; intros ?). eapply orel_bind; [apply (process_rel c n); [exact W|]; rels|]. intros p p' Hp. destruct (S level <? num_levels c); [apply IH, Hp|exact Hp].
Qed.
Lemma step_rel c n s s' v : wf c -> rel n (max_label (label_array c)) s s' -> orel (rel n (max_label (label_array c))) (step2 c s v) (step2 c s' v).
Proof.
  intros W (E1 & E2 & E3 & E4 & E5). unfold step2. rewrite E1, E2, E3, E4. do 5 (apply orel_same; intros ?). eapply orel_bind; [apply (process_rel c n); [exact W|]; rels|]. intros p p' (F1 & F2 & F3 & F4 & F5). rewrite F4. do 2 (apply orel_same; intros ?).
  assert (R : rel n (max_label (label_array c)) (set_tind p a5) (set_tind p' a5)) by (rels). destruct (1 <? num_levels c); [apply loop_rel; assumption|exact R].
Qed.
(** what a step leaves alone *)
Definition acc (b : state) := (G b, past b, fut b, norm b).
Definition keeps (s s' : state2) : Prop := img_time s' = img_time s /\ acc (base s') = acc (base s).
Ltac dbind H := match type of H with bind ?x _ = Some _ => let E := fresh "E" in destruct x eqn:E; cbn [bind] in H; [|discriminate H] end.
Lemma set_buf_acc b l i v b' : set_buf_at b l i v = Some b' -> acc b' = acc b.
Proof. unfold set_buf_at. intros H. repeat dbind H. injection H as <-. reflexivity. Qed.
Lemma process_keeps c l bn t s s' : two_time_process c l bn t s = Some s' -> keeps s s'.
Proof. unfold two_time_process. intros H. repeat dbind H. injection H as <-. split; reflexivity. Qed.
Lemma loop_keeps c : forall fuel l s s', level_loop2 fuel c l s = Some s' -> keeps s s'.
Proof.
  induction fuel as [|fuel IH]; intros l s s' H; [discriminate H|]. cbn [level_loop2] in H. dbind H. destruct (negb b).
  - dbind H. injection H as <-. split; reflexivity.
  - repeat dbind H. destruct (negb _); [discriminate H|]. repeat dbind H.
    match goal with E : two_time_process _ _ _ _ _ = Some ?p |- _ => apply process_keeps in E; destruct E as [K1 K2]; cbn in K1, K2; rename p into sp end.
    match goal with E : set_buf_at _ _ _ _ = Some _ |- _ => apply set_buf_acc in E; rename E into K3 end.
    assert (K : keeps s sp) by (split; [exact K1|]; rewrite K2; unfold acc in *; cbn in *; exact K3). destruct (S l <? num_levels c); [|injection H as <-; exact K]. apply IH in H. destruct H as [H1 H2], K as [K4 K5]. split; congruence.
Qed.
Lemma step_keeps c s v s' : step2 c s v = Some s' -> img_time s' = (img_time s + 1)%Z /\ acc (base s') = acc (base s).
Proof.
  unfold step2. intros H. repeat dbind H.
  match goal with E : two_time_process _ _ _ _ _ = Some ?p |- _ => apply process_keeps in E; destruct E as [K1 K2]; cbn in K1, K2; rename p into sp end.
  match goal with E : set_buf_at _ _ _ _ = Some _ |- _ => apply set_buf_acc in E; rename E into K3 end.
  assert (K : img_time sp = (img_time s + 1)%Z /\ acc (base sp) = acc (base s)) by (split; [exact K1|]; rewrite K2; unfold acc in *; cbn in *; exact K3).
  destruct (1 <? num_levels c); [|injection H as <-; exact K]. apply loop_keeps in H. destruct H as [H1 H2], K as [K4 K5]. cbn in H1, H2. split; congruence.
Qed.
Lemma unpack_pack2 s : acc (base s) = ([], [], [], []) -> unpack2 (img_time s) (pack2 s) = Some s.
Proof. destruct s as [[b g p f i t c n] g' cl it ti]. unfold acc. cbn. intros [= -> -> -> ->]. reflexivity. Qed.
Lemma lazy2_app c a b : forall s, lazy_two_time c s (a ++ b) = bind (lazy_two_time c s a) (fun s' => lazy_two_time c s' b).
Proof. induction a as [|im a IH]; intros s; cbn; [reflexivity|]. destruct (gather im (pixel_list c)); cbn; [|reflexivity]. destruct (step2 c s l); cbn; [apply IH|reflexivity]. Qed.
Lemma lazy2_keeps c ims : forall s s', lazy_two_time c s ims = Some s' -> img_time s' = (img_time s + Z.of_nat (length ims))%Z /\ acc (base s') = acc (base s).
Proof.
  induction ims as [|im ims IH]; intros s s' H; cbn [lazy_two_time] in H; [injection H as <-; cbn; split; [lia|reflexivity]|]. repeat dbind H. apply step_keeps in E0. apply IH in H. destruct E0 as [A1 A2], H as [B1 B2]. cbn [length]. split; [lia|congruence].
Qed.

(** converting in between *)
Lemma agree_refl n K g : shape n K g -> agree n K g g. Proof. split; auto. Qed.
Lemma agree_trans n K g g' g'' : agree n K g g' -> agree n K g' g'' -> agree n K g g''.
Proof. intros (A1 & A2 & A3) (B1 & B2 & B3). split; [exact A1|]. split; [exact B2|]. intros. rewrite A3, B3 by assumption. reflexivity. Qed.
Lemma mget_cell g q a b : mget g q a b = match cell_at g a b with Some v => match nth_error v q with Some x => x | None => None end | None => None end.
Proof. unfold mget, cell_at, bind. destruct (nth_error g a); reflexivity. Qed.
Lemma agree_symm n K g g' : agree n K g g' -> symmetrise K n g = symmetrise K n g'.
Proof.
  intros (_ & _ & E). unfold symmetrise. apply map_ext. intros a. apply map_ext. intros b. apply map_ext. intros q.
  assert (T : forall x y, tril g q x y = tril g' q x y) by (intros x y; unfold tril; destruct (Nat.leb_spec y x); [rewrite !mget_cell, E by assumption|]; reflexivity).
  assert (D : diagm g q a b = diagm g' q a b) by (unfold diagm; destruct (a =? b); [rewrite !mget_cell, E by lia|]; reflexivity). rewrite !T, D. reflexivity.
Qed.
Lemma symm_shape n K g : shape n K (symmetrise K n g).
Proof.
  unfold symmetrise. split; [rewrite map_length, seq_length; reflexivity|]. intros a row H. apply nth_error_In, in_map_iff in H. destruct H as (x & <- & _). split; [rewrite map_length, seq_length; reflexivity|].
  intros b v H. apply nth_error_In, in_map_iff in H. destruct H as (y & <- & _). rewrite map_length, seq_length. reflexivity.
Qed.
Lemma agree_converted n K g : shape n K g -> agree n K g (symmetrise K n g).
Proof.
  intros Sh. split; [exact Sh|]. split; [apply symm_shape|]. intros a b Hb. pose proof (symm_shape n K g) as Sh'. unfold cell_at. destruct (nth_error g a) as [row|] eqn:Er.
  - assert (La : a < n) by (destruct Sh as [<- _]; apply nth_error_Some; congruence). destruct Sh as [S1 S2]. destruct (S2 _ _ Er) as [R1 R2]. unfold symmetrise. rewrite nth_error_map_seq by exact La. cbn [bind]. rewrite nth_error_map_seq by lia.
    destruct (nth_error row b) as [v|] eqn:Ev; [|apply nth_error_None in Ev; lia]. f_equal. apply nth_error_ext. intros q. cbn [Nat.add]. destruct (Nat.lt_ge_cases q K) as [Lq|Lq].
    + rewrite nth_error_map_seq by exact Lq. rewrite symm_low by exact Hb. unfold mget. rewrite Er, Ev. cbn [Nat.add]. destruct (nth_error v q) eqn:Eq; [reflexivity|]. apply nth_error_None in Eq. rewrite (R2 _ _ Ev) in Eq. lia.
    + rewrite !(proj2 (nth_error_None _ _)); [reflexivity| |rewrite (R2 _ _ Ev); exact Lq]. rewrite map_length, seq_length. exact Lq.
  - cbn. destruct (nth_error (symmetrise K n g) a) as [row|] eqn:E; [|reflexivity]. exfalso. apply nth_error_None in Er. destruct Sh as [S1 _], Sh' as [S1' _]. assert (a < length (symmetrise K n g)) by (apply nth_error_Some; congruence). lia.
Qed.
Lemma init_wf nb L labels c : init_cfg nb L labels = Some c -> wf c.
Proof.
  unfold init_cfg. destruct (negb _); [discriminate|]. destruct (extract_label_indices labels). intros H. dbind H. destruct p as [[? ?] ?]. injection H as <-. unfold wf, bincount_n. cbn. rewrite map_length, seq_length. reflexivity.
Qed.
Lemma init_labels nb L labels c : init_cfg nb L labels = Some c -> nb mod 2 = 0 -> max_label (label_array c) = n_rois labels /\ (1 <= n_rois labels -> label_array c <> []).
Proof.
  intros H E. rewrite (cfg2 nb L labels E) in H. injection H as <-. cbn [label_array MultiTau_Proofs.mkcfg]. split; [apply MultiTau_Labels.max_clabels|]. intros N Z. pose proof (clabels_nil labels Z). lia.
Qed.
Lemma nth_error_rep {A} (x : A) n i y : nth_error (repeat x n) i = Some y -> y = x. Proof. intros H. apply nth_error_In, repeat_spec in H. exact H. Qed.
Lemma init_shape c n : wf c -> shape n (max_label (label_array c)) (g2 (init_state2 c n)).
Proof.
  intros W. unfold init_state2. cbn [g2]. split; [apply repeat_length|]. intros a row H. apply nth_error_rep in H. subst row. split; [apply repeat_length|]. intros b v H. apply nth_error_rep in H. subst v. rewrite repeat_length. exact W.
Qed.
Record good2 (m : machine2) (b : book2) (hs : list tuple2) : Prop := {
  k_len : length hs = length (all2 b);
  k_ser : forall i u ims h, nth_error (all2 b) i = Some (u, ims) -> nth_error hs i = Some h ->
    bufs (one u) mod 2 = 0 /\ 2 <= bufs (one u) /\ 1 <= levels (one u) /\ 1 <= n_rois (labels_of (one u)) /\
    (forall im, In im ims -> length im = length (labels_of (one u))) /\ length ims <= room u /\
    init_cfg (bufs (one u)) (levels (one u)) (labels_of (one u)) = Some (par2 h) /\ frames2 h = room u /\ length (at2 h) = 7 /\
    exists s0 s, lazy_two_time (par2 h) (init_state2 (par2 h) (room u)) ims = Some s0 /\ rel (room u) (max_label (label_array (par2 h))) s0 s /\
      read_all (mem2 m) (at2 h) = Some (pack2 s);
  k_gens : length (gens2 m) = length (gen_of b);
  k_gen : forall k i n, nth_error (gen_of b) k = Some (i, n) -> exists h, nth_error hs i = Some h /\
    nth_error (gens2 m) k = Some {| time2 := Z.of_nat n; at2 := at2 h; par2 := par2 h; frames2 := frames2 h |};
  k_nodup : NoDup (concat (map at2 hs));
  k_bound : forall l, In l (concat (map at2 hs)) -> l < length (mem2 m);
  k_outs : length (outs2 m) = length (res_of b);
  k_out : forall r i n, nth_error (res_of b) r = Some (i, n) -> (forall u ims, nth_error (all2 b) i = Some (u, ims) -> ims <> []) /\ exists h, nth_error hs i = Some h /\
    nth_error (outs2 m) r = Some {| time2 := Z.of_nat n; at2 := at2 h; par2 := par2 h; frames2 := frames2 h |} }.
Lemma in_at2 hs i h l : nth_error hs i = Some h -> In l (at2 h) -> In l (concat (map at2 hs)).
Proof. intros H I. apply in_concat. exists (at2 h). split; [apply in_map; eapply nth_error_In, H|exact I]. Qed.
(** writing the arrays of one series leaves those of the others *)
Lemma write_series m b hs i u ims h s : good2 m b hs -> nth_error (all2 b) i = Some (u, ims) -> nth_error hs i = Some h ->
  exists h', write_all (mem2 m) (at2 h) (pack2 s) = Some h' /\ length h' = length (mem2 m) /\ read_all h' (at2 h) = Some (pack2 s) /\
  forall j hj, j <> i -> nth_error hs j = Some hj -> read_all h' (at2 hj) = read_all (mem2 m) (at2 hj).
Proof.
  intros Gd Ei Eh. destruct Gd. destruct (k_ser0 i u ims h Ei Eh) as (_ & _ & _ & _ & _ & _ & _ & _ & L7 & _).
  destruct (write_ok (at2 h) (mem2 m) (pack2 s)) as (h' & W & L & R & F).
  - eapply (concat_nodup (map at2 hs) i); [exact k_nodup0|rewrite nth_error_map, Eh; reflexivity].
  - intros l I. apply k_bound0. eapply in_at2; eauto.
  - rewrite L7. reflexivity.
  - exists h'. repeat (split; [assumption|]). intros j hj N Hj. apply read_all_ext. intros l I. apply F. intros I'. apply N. apply (concat_once (map at2 hs) j i (at2 hj) (at2 h) l k_nodup0); [rewrite nth_error_map, Hj; reflexivity|rewrite nth_error_map, Eh; reflexivity|exact I|exact I'].
Qed.
Lemma loaded i u ims h m b hs : good2 m b hs -> nth_error (all2 b) i = Some (u, ims) -> nth_error hs i = Some h ->
  exists s0 s, lazy_two_time (par2 h) (init_state2 (par2 h) (room u)) ims = Some s0 /\ rel (room u) (max_label (label_array (par2 h))) s0 s /\
    read_all (mem2 m) (at2 h) = Some (pack2 s) /\ img_time s = Z.of_nat (length ims) /\ acc (base s) = ([], [], [], []).
Proof.
  intros Gd Ei Eh. destruct Gd. destruct (k_ser0 i u ims h Ei Eh) as (_ & _ & _ & _ & _ & _ & _ & _ & _ & s0 & s & A & B & C). exists s0, s. repeat (split; [assumption|]). apply lazy2_keeps in A. destruct A as [A1 A2], B as (B1 & _ & B3 & _). rewrite <- B1, <- B3, A1, A2. split; [cbn; lia|reflexivity].
Qed.
Lemma exec2_good m b hs x b' : good2 m b hs -> note2 b x = Some b' -> exists m' hs', exec2 m x = Some m' /\ good2 m' b' hs'.
Proof.
  intros Gd H. destruct x as [nb L nf labels|k im|r|r]; cbn [note2] in H.
  - cbn [one] in H. destruct (good_setup _ && _) eqn:V; [|discriminate H]. injection H as <-. set (u := {| one := {| bufs := nb; levels := L; labels_of := labels |}; room := nf |}) in *.
    apply andb_prop in V as [V V4]. unfold good_setup in V. apply andb_prop in V as [V V3]. apply andb_prop in V as [V1 V2]. apply Nat.eqb_eq in V1. apply Nat.leb_le in V2, V3, V4. cbn in V1, V2, V3.
    destruct (init_cfg nb L labels) as [c|] eqn:C; [|rewrite (cfg2 nb L labels V1) in C; discriminate C]. cbn [exec2]. rewrite C. cbn [bind].
    eexists. set (g := {| time2 := 0; at2 := _; par2 := c; frames2 := nf |}). exists (hs ++ [g]). split; [reflexivity|]. destruct Gd. set (n := length (mem2 m)) in *.
    assert (Old : forall hi, (forall l, In l (at2 hi) -> In l (concat (map at2 hs))) -> read_all (mem2 m ++ pack2 (init_state2 c nf)) (at2 hi) = read_all (mem2 m) (at2 hi)) by (intros hi I; apply read_app; intros l Il; apply k_bound0, I, Il).
    constructor; cbn [all2 gen_of res_of mem2 gens2 outs2].
    + rewrite !app_length, k_len0. reflexivity.
    + intros i u' ims h H1 H2. apply nth_snoc in H1. destruct H1 as [H1|[-> H1]].
      * assert (i < length hs) by (rewrite k_len0; apply nth_error_Some; congruence). rewrite nth_error_app1 in H2 by assumption. destruct (k_ser0 i u' ims h H1 H2) as (A1 & A2 & A3 & A4 & A5 & A6 & A7 & A8 & A9 & s0 & s & B1 & B2 & B3).
        repeat (split; [assumption|]). exists s0, s. repeat (split; [assumption|]). rewrite Old; [exact B3|]. intros l I. eapply in_at2; eauto.
      * injection H1 as X1 X2. subst u' ims. rewrite <- k_len0, nth_new in H2. injection H2 as <-. cbn [one room bufs levels labels_of u par2 at2 frames2 g length]. repeat (split; [assumption|]). split; [intros ? []|]. split; [lia|]. split; [exact C|]. split; [reflexivity|]. split; [reflexivity|].
        exists (init_state2 c nf), (init_state2 c nf). split; [reflexivity|]. split; [|pose proof (read_new (mem2 m) (pack2 (init_state2 c nf)) []) as R; rewrite app_nil_r in R; exact R].
        unfold rel. repeat (split; [reflexivity|]). apply agree_refl, init_shape. eapply init_wf, C.
    + rewrite !app_length, k_gens0. reflexivity.
    + intros k i t H1. apply nth_snoc in H1. destruct H1 as [H1|[-> H1]].
      * destruct (k_gen0 k i t H1) as (h & A1 & A2). exists h. split; [apply nth_old, A1|apply nth_old, A2].
      * injection H1 as -> ->. exists g. rewrite <- k_len0, <- k_gens0, !nth_new. auto.
    + rewrite map_app, concat_app. cbn [map concat]. rewrite app_nil_r. apply NoDup_cat; [exact k_nodup0|apply seq_NoDup|]. intros l I1 I2. apply k_bound0 in I1. apply in_seq in I2. fold n in I1. lia.
    + intros l I. rewrite map_app, concat_app in I. cbn [map concat] in I. rewrite app_nil_r in I. rewrite app_length. apply in_app_iff in I. destruct I as [I|I]; [apply k_bound0 in I; lia|apply in_seq in I; unfold n in I; lia].
    + exact k_outs0.
    + intros r i t H1. destruct (k_out0 r i t H1) as (A0 & h & A1 & A2). split; [|exists h; split; [apply nth_old, A1|exact A2]]. intros u' ims' H2. apply nth_snoc in H2. destruct H2 as [H2|[-> H2]]; [eapply A0, H2|]. exfalso. assert (length (all2 b) < length hs) by (apply nth_error_Some; congruence). lia.
  - destruct (nth_error (gen_of b) k) as [[i t]|] eqn:Ek; [|discriminate H]. cbn [bind fst snd] in H. destruct (nth_error (all2 b) i) as [[u ims]|] eqn:Ei; [|discriminate H]. cbn [bind snd] in H.
    destruct (Nat.eqb_spec t (length ims)) as [Et|]; [|discriminate H]. unfold shown2 in H. cbn [fst snd] in H. destruct (_ && _) eqn:V; [|discriminate H]. apply andb_prop in V as [V1 V2]. apply Nat.eqb_eq in V1. apply Nat.ltb_lt in V2. cbn [bind] in H.
    destruct (upd (all2 b) i (u, ims ++ [im])) as [all'|] eqn:Eu; [|discriminate H]. cbn [bind] in H. destruct (upd (gen_of b) k (i, S t)) as [gs'|] eqn:Eg; [|discriminate H]. injection H as <-.
    destruct (k_gen _ _ _ Gd k i t Ek) as (h & Eh & Egk). destruct (k_ser _ _ _ Gd i u ims h Ei Eh) as (A1 & A2 & A3 & A4 & A5 & A6 & A7 & A8 & A9 & _).
    destruct (loaded i u ims h m b hs Gd Ei Eh) as (s0 & s & B1 & B2 & B3 & B4 & B5).
    destruct (tt_main (bufs (one u)) (levels (one u)) (room u) (labels_of (one u)) (ims ++ [im])) as (g & T & _); try assumption.
    { intros im' I. apply in_app_iff in I. destruct I as [I|[<-|[]]]; [apply A5, I|exact V1]. } { rewrite app_length. cbn. lia. } { destruct ims; discriminate. }
    unfold two_time_corr in T. rewrite A7 in T. cbn [bind] in T. rewrite nonempty_match in T by (destruct ims; discriminate). rewrite lazy2_app, B1 in T. cbn [bind lazy_two_time] in T.
    destruct (gather im (pixel_list (par2 h))) as [v|] eqn:Ev; [|discriminate T]. cbn [bind] in T. destruct (step2 (par2 h) s0 v) as [s0'|] eqn:Es; [|discriminate T]. clear T g.
    pose proof (init_wf _ _ _ _ A7) as Wf. pose proof (step_rel (par2 h) (room u) s0 s v Wf B2) as SR. rewrite Es in SR. destruct (step2 (par2 h) s v) as [s'|] eqn:Es'; [|destruct SR]. cbn in SR.
    destruct (write_series m b hs i u ims h s' Gd Ei Eh) as (h' & W & Lh & R & F).
    cbn [exec2]. rewrite Egk. cbn [bind at2 time2 par2 frames2]. rewrite B3. cbn [bind]. rewrite Et, <- B4, unpack_pack2 by exact B5. cbn [bind]. rewrite Ev. cbn [bind]. rewrite Es'. cbn [bind]. rewrite W. cbn [bind].
    destruct (step_keeps _ _ _ _ Es') as [T1 _]. destruct Gd.
    assert (kb : k < length (gens2 m)) by (apply nth_error_Some; congruence).
    destruct (upd_some (gens2 m) k {| time2 := img_time s'; at2 := at2 h; par2 := par2 h; frames2 := frames2 h |} kb) as [gs Eg2]. rewrite Eg2. cbn [bind]. eexists. exists hs. split; [reflexivity|].
    assert (Tm : img_time s' = Z.of_nat (S t)) by (rewrite T1, B4, Et; lia).
    constructor; cbn [all2 gen_of res_of mem2 gens2 outs2].
    + rewrite (upd_length _ _ _ _ Eu). exact k_len0.
    + intros j u' ims' hj H1 H2. destruct (Nat.eq_dec j i) as [->|N].
      * rewrite (upd_nth_eq _ _ _ _ Eu) in H1. injection H1 as <- <-. rewrite Eh in H2. injection H2 as <-. repeat (split; [assumption|]). split; [intros im' I; apply in_app_iff in I; destruct I as [I|[<-|[]]]; [apply A5, I|exact V1]|]. split; [rewrite app_length; cbn; lia|]. repeat (split; [assumption|]).
        exists s0', s'. split; [|split; assumption]. rewrite lazy2_app, B1. cbn. rewrite Ev. cbn. rewrite Es. reflexivity.
      * rewrite (upd_nth_ne _ _ _ _ _ Eu N) in H1. rewrite (F j hj N H2). apply (k_ser0 j u' ims' hj H1 H2).
    + rewrite (upd_length _ _ _ _ Eg2), (upd_length _ _ _ _ Eg). exact k_gens0.
    + intros k' j t' H1. destruct (Nat.eq_dec k' k) as [->|N].
      * rewrite (upd_nth_eq _ _ _ _ Eg) in H1. injection H1 as <- <-. exists h. split; [exact Eh|]. rewrite (upd_nth_eq _ _ _ _ Eg2), Tm; try rewrite Et; reflexivity.
      * rewrite (upd_nth_ne _ _ _ _ _ Eg N) in H1. rewrite (upd_nth_ne _ _ _ _ _ Eg2 N). apply (k_gen0 k' j t' H1).
    + exact k_nodup0.
    + intros l I. rewrite Lh. apply k_bound0, I.
    + rewrite !app_length, k_outs0. reflexivity.
    + intros r j t' H1. apply nth_snoc in H1. destruct H1 as [H1|[-> H1]].
      * destruct (k_out0 r j t' H1) as (D0 & hj & D1 & D2). split; [|exists hj; split; [exact D1|apply nth_old, D2]]. intros u' ims' H2. destruct (Nat.eq_dec j i) as [->|N]; [rewrite (upd_nth_eq _ _ _ _ Eu) in H2; injection H2 as <- <-; destruct ims; discriminate|]. rewrite (upd_nth_ne _ _ _ _ _ Eu N) in H2. eapply D0, H2.
      * injection H1 as -> ->. split; [intros u' ims' H2; rewrite (upd_nth_eq _ _ _ _ Eu) in H2; injection H2 as <- <-; destruct ims; discriminate|]. exists h. split; [exact Eh|]. rewrite <- k_outs0, nth_new, Tm; try rewrite Et; reflexivity.
  - destruct (nth_error (res_of b) r) as [[i t]|] eqn:Er; [|discriminate H]. injection H as <-. destruct Gd. destruct (k_out0 r i t Er) as (_ & h & A1 & A2). cbn [exec2]. rewrite A2. cbn [bind]. eexists. exists hs. split; [reflexivity|]. constructor; cbn [all2 gen_of res_of mem2 gens2 outs2]; try assumption.
    + rewrite !app_length, k_gens0. reflexivity.
    + intros k j t' H1. apply nth_snoc in H1. destruct H1 as [H1|[-> H1]]; [destruct (k_gen0 k j t' H1) as (hj & D1 & D2); exists hj; split; [exact D1|apply nth_old, D2]|]. injection H1 as -> ->. exists h. rewrite <- k_gens0, nth_new. auto.
  - destruct (nth_error (res_of b) r) as [[i t]|] eqn:Er; [|discriminate H]. injection H as <-. destruct (k_out _ _ _ Gd r i t Er) as (_ & h & A1 & A2).
    assert (Bi : i < length (all2 b)) by (rewrite <- (k_len _ _ _ Gd); apply nth_error_Some; congruence). destruct (nth_error (all2 b) i) as [[u ims]|] eqn:Ei; [|apply nth_error_None in Ei; lia].
    destruct (k_ser _ _ _ Gd i u ims h Ei A1) as (D1 & _ & _ & D4 & _ & _ & D7 & D8 & _). destruct (loaded i u ims h m b hs Gd Ei A1) as (s0 & s & B1 & B2 & B3 & B4 & B5).
    destruct (init_labels _ _ _ _ D7 D1) as [M1 M2]. cbn [exec2]. rewrite A2. cbn [bind at2 time2 par2 frames2]. rewrite B3. cbn [bind].
    assert (UP : exists s2, unpack2 (Z.of_nat t) (pack2 s) = Some s2 /\ g2 s2 = g2 s /\ pack2 (set_g2 s2 (symmetrise (max_label (label_array (par2 h))) (frames2 h) (g2 s2))) = pack2 (set_g2 s (symmetrise (max_label (label_array (par2 h))) (frames2 h) (g2 s)))) by (eexists; split; [reflexivity|]; split; reflexivity).
    destruct UP as (s2 & U1 & U2 & U3). rewrite U1. cbn [bind]. rewrite nonempty_match by (apply M2, D4). rewrite U3.
    set (s' := set_g2 s (symmetrise (max_label (label_array (par2 h))) (frames2 h) (g2 s))). destruct (write_series m b hs i u ims h s' Gd Ei A1) as (h' & W & Lh & R & F). rewrite W. cbn [bind]. eexists. exists hs. split; [reflexivity|]. destruct Gd.
    constructor; cbn [all2 gen_of res_of mem2 gens2 outs2]; try assumption.
    + intros j u' ims' hj H1 H2. destruct (Nat.eq_dec j i) as [->|N].
      * rewrite Ei in H1. injection H1 as <- <-. rewrite A1 in H2. injection H2 as <-. destruct (k_ser0 i u ims h Ei A1) as (C1 & C2 & C3 & C4 & C5 & C6 & C7 & C8 & C9 & _). repeat (split; [assumption|]). exists s0, s'. split; [exact B1|]. split; [|exact R].
        destruct B2 as (E1 & E2 & E3 & E4 & E5). unfold rel, s'. cbn. repeat (split; [assumption|]). rewrite D8. eapply agree_trans; [exact E5|]. apply agree_converted. destruct E5 as (_ & E5 & _). exact E5.
      * rewrite (F j hj N H2). apply (k_ser0 j u' ims' hj H1 H2).
    + intros l I. rewrite Lh. apply k_bound0, I.
Qed.
Lemma run2_good p : forall m b hs b', good2 m b hs -> foldM note2 p b = Some b' -> exists m' hs', foldM exec2 p m = Some m' /\ good2 m' b' hs'.
Proof.
  induction p as [|x p IH]; intros m b hs b' Gd H; cbn in *; [injection H as <-; eauto|]. unfold bind in *. destruct (note2 b x) as [b1|] eqn:E; [|discriminate H].
  destruct (exec2_good m b hs x b1 Gd E) as (m1 & hs1 & X1 & X2). rewrite X1. eapply IH; eauto.
Qed.
Lemma boot2_good : good2 boot2 {| gen_of := []; all2 := []; res_of := [] |} [].
Proof. constructor; cbn; try reflexivity; try (intros [|]; discriminate); try (intros ? []); try (intros; destruct i; discriminate); try constructor. Qed.
Lemma gens2_ok p b : history2 p = Some b -> exists m, run2 p = Some m /\ length (outs2 m) = length (res_of b) /\
  forall r i n u ims, nth_error (res_of b) r = Some (i, n) -> nth_error (all2 b) i = Some (u, ims) ->
  exists m' g, exec2 m (Convert2 r) = Some m' /\ two_time_corr (labels_of (one u)) ims (room u) (bufs (one u)) (levels (one u)) = Some g /\
  forall r' n' t', nth_error (res_of b) r' = Some (i, n') -> nth_error (outs2 m) r' = Some t' -> show2 (mem2 m') t' = Some g.
Proof.
  intros H. destruct (run2_good p _ _ _ b boot2_good H) as (m & hs & R & Gd). exists m. split; [exact R|]. split; [apply Gd|]. intros r i n u ims Hr Hi.
  destruct (exec2_good m b hs (Convert2 r) b Gd) as (m' & hs' & X & _); [cbn; rewrite Hr; reflexivity|]. destruct (k_out _ _ _ Gd r i n Hr) as (Ne & h & A1 & A2). specialize (Ne u ims Hi).
  destruct (k_ser _ _ _ Gd i u ims h Hi A1) as (C1 & C2 & C3 & C4 & C5 & C6 & C7 & C8 & C9 & _). destruct (loaded i u ims h m b hs Gd Hi A1) as (s0 & s & B1 & B2 & B3 & B4 & B5).
  destruct (init_labels _ _ _ _ C7 C1) as [M1 M2]. specialize (M2 C4).
  cbn [exec2] in X. rewrite A2 in X. cbn [bind at2 time2 par2 frames2] in X. rewrite B3 in X. cbn [bind] in X.
  assert (UP : exists s2, unpack2 (Z.of_nat n) (pack2 s) = Some s2 /\ g2 s2 = g2 s /\ pack2 (set_g2 s2 (symmetrise (max_label (label_array (par2 h))) (frames2 h) (g2 s2))) = pack2 (set_g2 s (symmetrise (max_label (label_array (par2 h))) (frames2 h) (g2 s)))) by (eexists; split; [reflexivity|]; split; reflexivity).
  destruct UP as (s2 & U1 & U2 & U3). rewrite U1 in X. cbn [bind] in X. rewrite nonempty_match in X by exact M2. rewrite U3 in X.
  set (s' := set_g2 s (symmetrise (max_label (label_array (par2 h))) (frames2 h) (g2 s))) in *. destruct (write_series m b hs i u ims h s' Gd Hi A1) as (h' & W & Lh & Rd & F). rewrite W in X. cbn [bind] in X. injection X as <-.
  exists {| mem2 := h'; gens2 := gens2 m; outs2 := outs2 m |}, (g2 s'). split.
  { cbn [exec2]. rewrite A2. cbn [bind at2 time2 par2 frames2]. rewrite B3. cbn [bind]. rewrite U1. cbn [bind]. rewrite nonempty_match by exact M2. rewrite U3, W. reflexivity. }
  split.
  - unfold two_time_corr. rewrite C7. cbn [bind]. rewrite nonempty_match by exact Ne. rewrite B1. cbn [bind]. rewrite nonempty_match by exact M2. f_equal. unfold s'. cbn. rewrite C8. apply (agree_symm (room u)). apply B2.
  - intros r' n' t' Hr' Ht'. destruct (k_out _ _ _ Gd r' i n' Hr') as (_ & h2 & D1 & D2). rewrite A1 in D1. injection D1 as <-. rewrite D2 in Ht'. injection Ht' as <-. unfold show2. cbn [mem2 at2 time2]. rewrite Rd. reflexivity.
Qed.
