(* Proofs for lines. *)
From Verif Require Import Common Lines_Model Lines_Spec.
Local Open Scope list_scope.
Local Open Scope Z_scope.

Lemma inj_some {A} (x y : A) : Some x = Some y -> x = y. Proof. congruence. Qed.
(** ** The line algorithm *)
Section Bres.
Variables (dr dc : Z).
Hypothesis (Hr : 0 <= dr) (Hc : 0 < dc) (Hrc : dr <= dc).
Definition minor (k : Z) : Z := (2 * dr * k + dc) / (2 * dc).
Lemma minor_spec k : 2 * dc * minor k <= 2 * dr * k + dc < 2 * dc * (minor k + 1).
Proof. unfold minor. pose proof (Z.div_mod (2 * dr * k + dc) (2 * dc) ltac:(lia)). pose proof (Z.mod_pos_bound (2 * dr * k + dc) (2 * dc) ltac:(lia)). lia. Qed.
Lemma minor_unique k m : 2 * dc * m <= 2 * dr * k + dc < 2 * dc * (m + 1) -> minor k = m.
Proof. intros H. pose proof (minor_spec k). nia. Qed.
Lemma minor_0 : minor 0 = 0. Proof. apply minor_unique. lia. Qed.
Lemma minor_end : minor dc = dr. Proof. apply minor_unique. nia. Qed.
Lemma minor_step k : minor (k + 1) = if 0 <=? 2 * dr * (k + 1) - dc - 2 * dc * minor k then minor k + 1 else minor k.
Proof. pose proof (minor_spec k). destruct (Z.leb_spec 0 (2 * dr * (k + 1) - dc - 2 * dc * minor k)); apply minor_unique; nia. Qed.
Lemma minor_range k : 0 <= k <= dc -> 0 <= minor k <= dr.
Proof. intros H. pose proof (minor_spec k). nia. Qed.
Lemma walk_closed r0 c0 sr sc steep n i :
  walk n (r0 + sr * minor i) (c0 + sc * i) (2 * dr * (i + 1) - dc - 2 * dc * minor i) dr dc sr sc steep =
  map (fun k => let q := i + Z.of_nat k in if steep : bool then (c0 + sc * q, r0 + sr * minor q) else (r0 + sr * minor q, c0 + sc * q)) (seq 0 n).
Proof.
  revert i. induction n as [|n IH]; intros i; [reflexivity|].
  rewrite <- cons_seq. cbn [walk map]. rewrite Z.add_0_r. f_equal.
  rewrite <- seq_shift, map_map.
  transitivity (walk n (r0 + sr * minor (i + 1)) (c0 + sc * (i + 1)) (2 * dr * (i + 1 + 1) - dc - 2 * dc * minor (i + 1)) dr dc sr sc steep).
  - pose proof (minor_step i) as M. destruct (0 <=? 2 * dr * (i + 1) - dc - 2 * dc * minor i); rewrite M; f_equal; ring.
  - rewrite IH. apply map_ext. intros k. rewrite Nat2Z.inj_succ. replace (i + 1 + Z.of_nat k) with (i + Z.succ (Z.of_nat k)) by lia. reflexivity.
Qed.
End Bres.
Definition flip (steep : bool) (p : Z * Z) : Z * Z := if steep then (snd p, fst p) else p.
(** the chain in closed form *)
Definition chain (steep : bool) (r0 c0 sr sc dr dc : Z) : list (Z * Z) :=
  map (fun k => flip steep (r0 + sr * minor dr dc (Z.of_nat k), c0 + sc * Z.of_nat k)) (seq 0 (S (Z.to_nat dc))).
Lemma chain_ok steep r0 c0 sr sc dr dc : 0 <= dr -> 0 < dc -> dr <= dc -> (sr = 1 \/ sr = -1) -> (sc = 1 \/ sc = -1) ->
  traces (flip steep (r0, c0)) (flip steep (r0 + sr * dr, c0 + sc * dc)) (chain steep r0 c0 sr sc dr dc).
Proof.
  intros Hr Hc Hrc Hsr Hsc.
  assert (HL : length (chain steep r0 c0 sr sc dr dc) = S (Z.to_nat dc)) by (unfold chain; rewrite map_length, seq_length; reflexivity).
  assert (HN : forall k, (k < S (Z.to_nat dc))%nat -> nth_error (chain steep r0 c0 sr sc dr dc) k = Some (flip steep (r0 + sr * minor dr dc (Z.of_nat k), c0 + sc * Z.of_nat k))).
  { intros k Hk. unfold chain. rewrite nth_error_map_seq by exact Hk. reflexivity. }
  assert (HM : Z.max (Z.abs (fst (flip steep (r0 + sr * dr, c0 + sc * dc)) - fst (flip steep (r0, c0))))
                     (Z.abs (snd (flip steep (r0 + sr * dr, c0 + sc * dc)) - snd (flip steep (r0, c0)))) = dc).
  { destruct steep; cbn [flip fst snd]; destruct Hsr, Hsc; subst; lia. }
  assert (HF : forall x, In x (chain steep r0 c0 sr sc dr dc) -> exists k, 0 <= k <= dc /\ x = flip steep (r0 + sr * minor dr dc k, c0 + sc * k)).
  { intros x Hx. unfold chain in Hx. apply in_map_iff in Hx. destruct Hx as [k [<- Hk]]. apply in_seq in Hk. exists (Z.of_nat k). split; [lia|reflexivity]. }
  unfold traces. rewrite HL, HM. split; [|split; [|split; [|split; [|split]]]].
  - rewrite HN by lia. cbn [Z.of_nat]. rewrite minor_0 by assumption. f_equal. f_equal. f_equal; lia.
  - replace (S (Z.to_nat dc) - 1)%nat with (Z.to_nat dc) by lia. rewrite HN by lia. rewrite Z2Nat.id by lia. rewrite minor_end by assumption. reflexivity.
  - lia.
  - intros k a b Ha Hb.
    assert (Hk : (S k < S (Z.to_nat dc))%nat) by (rewrite <- HL; apply nth_error_Some; congruence).
    rewrite HN in Ha, Hb by lia. apply inj_some in Ha, Hb. subst a b. rewrite Nat2Z.inj_succ. unfold Z.succ.
    rewrite minor_step by assumption. set (M := minor dr dc (Z.of_nat k)). unfold adjacent.
    destruct (0 <=? _); destruct steep; cbn [flip fst snd]; destruct Hsr, Hsc; subst; lia.
  - apply Forall_forall. intros x Hx. destruct (HF x Hx) as [k [Hk ->]]. unfold near. rewrite HM.
    pose proof (minor_spec dr dc Hc k) as S. set (M := minor dr dc k) in *. clearbody M.
    destruct steep; cbn [flip fst snd]; destruct Hsr, Hsc; subst; nia.
  - apply Forall_forall. intros x Hx. destruct (HF x Hx) as [k [Hk ->]].
    pose proof (minor_range dr dc Hr Hc k Hk) as S. set (M := minor dr dc k) in *. clearbody M.
    unfold between. destruct steep; cbn [flip fst snd]; destruct Hsr, Hsc; subst; lia.
Qed.
Lemma line_traces r0 c0 r1 c1 : traces (r0, c0) (r1, c1) (line r0 c0 r1 c1).
Proof.
  unfold line. set (dr := Z.abs (r1 - r0)). set (dc := Z.abs (c1 - c0)). set (sr := if 0 <? r1 - r0 then 1 else -1). set (sc := if 0 <? c1 - c0 then 1 else -1).
  assert (Hsr : (sr = 1 \/ sr = -1) /\ r1 = r0 + sr * dr) by (unfold sr, dr; destruct (Z.ltb_spec 0 (r1 - r0)); lia).
  assert (Hsc : (sc = 1 \/ sc = -1) /\ c1 = c0 + sc * dc) by (unfold sc, dc; destruct (Z.ltb_spec 0 (c1 - c0)); lia).
  assert (Hdr : 0 <= dr) by (unfold dr; lia). assert (Hdc : 0 <= dc) by (unfold dc; lia).
  clearbody dr dc sr sc. destruct Hsr as [Hsr Er]. destruct Hsc as [Hsc Ec].
  assert (AUX : forall steep a b s t u v, 0 <= u -> u <= v -> 0 < v -> (s = 1 \/ s = -1) -> (t = 1 \/ t = -1) ->
    walk (Z.to_nat v) a b (2 * u - v) u v s t steep ++ [flip steep (a + s * u, b + t * v)] = chain steep a b s t u v).
  { intros steep a b s t u v Hu Huv Hv Hs Ht.
    pose proof (walk_closed u v Hu Hv Huv a b s t steep (Z.to_nat v) 0) as W. rewrite minor_0 in W by assumption.
    replace (a + s * 0) with a in W by ring. replace (b + t * 0) with b in W by ring.
    replace (2 * u * (0 + 1) - v - 2 * v * 0) with (2 * u - v) in W by ring. rewrite W.
    unfold chain. rewrite seq_S, map_app. cbn [map]. f_equal.
    - rewrite Nat.add_0_l, Z2Nat.id by lia. rewrite minor_end by assumption. reflexivity. }
  destruct (Z.ltb_spec dc dr) as [L|L].
  - pose proof (AUX true c0 r0 sc sr dc dr ltac:(lia) ltac:(lia) ltac:(lia) Hsc Hsr) as E. cbn [flip fst snd] in E. rewrite <- Er, <- Ec in E. rewrite E.
    pose proof (chain_ok true c0 r0 sc sr dc dr ltac:(lia) ltac:(lia) ltac:(lia) Hsc Hsr) as T. cbn [flip fst snd] in T. rewrite <- Er, <- Ec in T. exact T.
  - destruct (Z.eq_dec dc 0) as [Z0|NZ].
    + assert (dr = 0) by lia. subst dc dr. rewrite Z.mul_0_r, Z.add_0_r in Er, Ec. subst r1 c1. cbn [Z.to_nat walk app].
      unfold traces, near, between, adjacent. cbn [length nth_error Nat.sub fst snd]. rewrite !Z.sub_diag.
      split; [reflexivity|]. split; [reflexivity|]. split; [reflexivity|]. split; [intros [|[|k]] a b H1 H2; discriminate|].
      split; (constructor; [cbn [fst snd]|constructor]); [rewrite !Z.sub_diag; reflexivity|lia].
    + pose proof (AUX false r0 c0 sr sc dr dc ltac:(lia) ltac:(lia) ltac:(lia) Hsr Hsc) as E. cbn [flip fst snd] in E. rewrite <- Er, <- Ec in E. rewrite E.
      pose proof (chain_ok false r0 c0 sr sc dr dc ltac:(lia) ltac:(lia) ltac:(lia) Hsr Hsc) as T. cbn [flip fst snd] in T. rewrite <- Er, <- Ec in T. exact T.
Qed.

(** ** Painting *)
Lemma flat_index_bound h w p k : 0 <= h -> 0 <= w -> flat_index h w p = Some k -> (k < Z.to_nat h * Z.to_nat w)%nat.
Proof.
  intros Hh Hw. unfold flat_index. destruct (pyindex h (fst p)) as [i|] eqn:Ei; cbn; [|discriminate].
  destruct (pyindex w (snd p)) as [j|] eqn:Ej; cbn; [|discriminate]. intros [= <-].
  apply pyindex_bound in Ei, Ej. nia.
Qed.
Lemma paint_ok h w label pts : 0 <= h -> 0 <= w -> forall img, length img = (Z.to_nat h * Z.to_nat w)%nat ->
  (forall p, In p pts -> exists k, flat_index h w p = Some k) ->
  exists img', paint h w label img pts = Some img' /\ length img' = length img /\
    forall q, (q < length img)%nat -> ((exists p, In p pts /\ flat_index h w p = Some q) -> nth_error img' q = Some label) /\
      ((forall p, In p pts -> flat_index h w p <> Some q) -> nth_error img' q = nth_error img q).
Proof.
  intros Hh Hw. unfold paint. induction pts as [|p pts IH]; intros img HL HI.
  - exists img. split; [reflexivity|]. split; [reflexivity|]. intros q Hq. split; [intros [? [[] _]]|reflexivity].
  - cbn [foldM]. destruct (HI p (or_introl eq_refl)) as [k Hk]. rewrite Hk. cbn [bind].
    destruct (upd_some img k label) as [im1 E1]; [rewrite HL; eapply flat_index_bound; eauto|]. rewrite E1. cbn [bind].
    pose proof (upd_length _ _ _ _ E1) as L1.
    destruct (IH im1) as [im2 [E2 [L2 H2]]]; [congruence|intros q Hq; apply HI; right; exact Hq|].
    exists im2. split; [exact E2|]. split; [congruence|]. intros q Hq. destruct (H2 q ltac:(lia)) as [A B]. split.
    + intros [p' [[<-|Hin] Hp']].
      * assert (q = k) by congruence. subst q.
        assert (DEC : (exists p', In p' pts /\ flat_index h w p' = Some k) \/ (forall p', In p' pts -> flat_index h w p' <> Some k)).
        { clear. induction pts as [|a l IHl]; [right; intros ? []|]. destruct (flat_index h w a) as [m|] eqn:Em.
          - destruct (Nat.eq_dec m k) as [->|N]; [left; exists a; split; [left; reflexivity|exact Em]|].
            destruct IHl as [[p' [H1 H2]]|H]; [left; exists p'; split; [right; exact H1|exact H2]|]. right. intros p' [<-|Hp]; [congruence|auto].
          - destruct IHl as [[p' [H1 H2]]|H]; [left; exists p'; split; [right; exact H1|exact H2]|]. right. intros p' [<-|Hp]; [congruence|auto]. }
        destruct DEC as [D|D]; [exact (A D)|]. rewrite (B D). eapply upd_nth_eq; eauto.
      * apply A. exists p'. auto.
    + intros HN. rewrite B by (intros p' Hp'; apply HN; right; exact Hp').
      eapply upd_nth_ne; [exact E1|]. intros ->. exact (HN p (or_introl eq_refl) Hk).
Qed.
Lemma paint_none h w label pts p : In p pts -> flat_index h w p = None -> forall img, paint h w label img pts = None.
Proof.
  unfold paint. induction pts as [|a pts IH]; [intros []|]. intros [->|Hi] E img; cbn [foldM].
  - rewrite E. reflexivity.
  - destruct (flat_index h w a) as [k|]; [cbn [bind]|reflexivity]. destruct (upd img k label) as [im|]; [cbn [bind]; apply IH; assumption|reflexivity].
Qed.
Lemma flat_inside h w i j : 0 <= i < h -> 0 <= j < w -> flat_index h w (i, j) = Some (Z.to_nat i * Z.to_nat w + Z.to_nat j)%nat.
Proof.
  intros Hi Hj. unfold flat_index, pyindex. cbn [fst snd].
  replace ((0 <=? i) && (i <? h)) with true by lia. replace ((0 <=? j) && (j <? w)) with true by lia. reflexivity.
Qed.
Lemma flat_inj w i j i' j' : (j < w)%nat -> (j' < w)%nat -> (i * w + j = i' * w + j')%nat -> i = i' /\ j = j'.
Proof. intros H1 H2 E. assert (i = i') by nia. subst. split; [reflexivity|lia]. Qed.

(** ** All lines *)
Definition step h w (s : nat * list nat) (points : list Z) : option (nat * list nat) :=
  match points with
  | [p0; p1; p2; p3] =>
      img <- paint h w (S (fst s)) (snd s) (line (Z.max p0 0) (Z.max p1 0) (Z.min p2 (h - 1)) (Z.min p3 (w - 1))) ;;
      Some (S (fst s), img)
  | _ => None
  end.
Lemma labelled_snoc_in chains pts x : In x pts -> labelled (chains ++ [pts]) x (S (length chains)).
Proof.
  intros H. exists pts. split; [rewrite nth_error_app2, Nat.sub_diag by lia; reflexivity|]. split; [exact H|].
  intros j pts' Hj E. exfalso. assert (j < length (chains ++ [pts]))%nat by (apply nth_error_Some; congruence). rewrite app_length in H0. cbn in H0. lia.
Qed.
Lemma labelled_snoc_out chains pts x n : ~ In x pts -> labelled chains x n -> labelled (chains ++ [pts]) x n.
Proof.
  intros H. destruct n as [|k]; cbn.
  - intros HF. apply Forall_app. split; [exact HF|constructor; [exact H|constructor]].
  - intros [p [E [Hi Hl]]]. exists p. assert (k < length chains)%nat by (apply nth_error_Some; congruence).
    split; [rewrite nth_error_app1 by assumption; exact E|]. split; [exact Hi|]. intros j p' Hj E'.
    destruct (Nat.lt_ge_cases j (length chains)) as [L|L].
    + rewrite nth_error_app1 in E' by exact L. eauto.
    + rewrite nth_error_app2 in E' by exact L. destruct (j - length chains)%nat as [|[|m]]; cbn in E'; try discriminate. injection E' as <-. exact H.
Qed.
Lemma fold_lines h w segs : 0 < h -> 0 < w -> Forall (clear_line h w) segs -> forall chains img,
  length img = (Z.to_nat h * Z.to_nat w)%nat ->
  (forall i j, 0 <= i < h -> 0 <= j < w -> exists n, nth_error img (Z.to_nat i * Z.to_nat w + Z.to_nat j) = Some n /\ labelled chains (i, j) n) ->
  exists img' new, foldM (step h w) (map ends segs) (length chains, img) = Some (length (chains ++ new), img') /\
    length img' = (Z.to_nat h * Z.to_nat w)%nat /\
    Forall2 (fun s pts => traces (start_of s) (stop_of h w s) pts) segs new /\
    forall i j, 0 <= i < h -> 0 <= j < w -> exists n, nth_error img' (Z.to_nat i * Z.to_nat w + Z.to_nat j) = Some n /\ labelled (chains ++ new) (i, j) n.
Proof.
  intros Hh Hw HF. induction HF as [|s segs Hs HF IH]; intros chains img HL HI.
  - exists img, []. rewrite app_nil_r. split; [reflexivity|]. split; [exact HL|]. split; [constructor|exact HI].
  - cbn [map foldM]. destruct s as [[x0 y0] [x1 y1]]. cbn [ends step fst snd]. destruct Hs as [A [B [C D]]].
    set (pts := line (Z.max x0 0) (Z.max y0 0) (Z.min x1 (h - 1)) (Z.min y1 (w - 1))).
    assert (HT : traces (start_of ((x0, y0), (x1, y1))) (stop_of h w ((x0, y0), (x1, y1))) pts) by apply line_traces.
    assert (HIN : forall p, In p pts -> 0 <= fst p < h /\ 0 <= snd p < w).
    { intros p Hp. destruct HT as [_ [_ [_ [_ [_ HB]]]]]. rewrite Forall_forall in HB. specialize (HB p Hp). unfold between in HB. cbn [fst snd start_of stop_of] in HB. lia. }
    destruct (paint_ok h w (S (length chains)) pts ltac:(lia) ltac:(lia) img HL) as [im [E [L1 HP]]].
    { intros [a b] Hp. destruct (HIN _ Hp) as [H1 H2]. cbn [fst snd] in *. eexists. apply flat_inside; assumption. }
    rewrite E. cbn [bind].
    destruct (IH (chains ++ [pts]) im) as [img' [new [E2 [L2 [T2 H2]]]]].
    + congruence.
    + intros i j Hi Hj. set (q := (Z.to_nat i * Z.to_nat w + Z.to_nat j)%nat).
      assert (Hq : (q < length img)%nat) by (rewrite HL; eapply (flat_index_bound h w (i, j)); [lia|lia|apply flat_inside; assumption]).
      destruct (HP q Hq) as [P1 P2].
      destruct (in_dec (fun a b : Z * Z => ltac:(decide equality; apply Z.eq_dec) : {a = b} + {a <> b}) (i, j) pts) as [Hin|Hout].
      * exists (S (length chains)). split; [apply P1; exists (i, j); split; [exact Hin|apply flat_inside; assumption]|apply labelled_snoc_in; exact Hin].
      * destruct (HI i j Hi Hj) as [n [En Hn]]. exists n. split; [|apply labelled_snoc_out; assumption].
        rewrite P2; [exact En|]. intros [a b] Hp F. apply Hout. destruct (HIN _ Hp) as [H1 H2]. cbn [fst snd] in H1, H2. rewrite flat_inside in F by assumption. apply inj_some in F.
        apply flat_inj in F; [|lia|lia]. destruct F as [F1 F2]. replace i with a by lia. replace j with b by lia. exact Hp.
    + rewrite app_length in E2. cbn [length] in E2. replace (length chains + 1)%nat with (S (length chains)) in E2 by lia.
      exists img', (pts :: new). rewrite <- app_assoc in E2, H2. cbn [app] in E2, H2. split; [exact E2|]. split; [exact L2|].
      split; [constructor; assumption|exact H2].
Qed.
Theorem lines_ok segs h w : 0 < h -> 0 < w -> Forall (clear_line h w) segs ->
  exists img chains, lines (map ends segs) h w = Some img /\ length img = (Z.to_nat h * Z.to_nat w)%nat /\
    Forall2 (fun s pts => traces (start_of s) (stop_of h w s) pts) segs chains /\
    forall i j, 0 <= i < h -> 0 <= j < w -> exists n, nth_error img (Z.to_nat i * Z.to_nat w + Z.to_nat j) = Some n /\ labelled chains (i, j) n.
Proof.
  intros Hh Hw HF. destruct (fold_lines h w segs Hh Hw HF [] (repeat 0%nat (Z.to_nat h * Z.to_nat w))) as [img [new [E [L [T H]]]]].
  - apply repeat_length.
  - intros i j Hi Hj. exists 0%nat. split; [|constructor]. rewrite nth_error_repeat; [reflexivity|].
    eapply (flat_index_bound h w (i, j)); [lia|lia|apply flat_inside; assumption].
  - exists img, new. unfold lines. fold (step h w). cbn [length] in E.
    change (foldM _ (map ends segs) _) with (foldM (step h w) (map ends segs) (0%nat, repeat 0%nat (Z.to_nat h * Z.to_nat w))). rewrite E. cbn [bind snd].
    split; [reflexivity|]. split; [exact L|]. split; [exact T|exact H].
Qed.
Lemma fold_bad {S A} (f : S -> A -> option S) l a : In a l -> (forall s, f s a = None) -> forall s, foldM f l s = None.
Proof.
  intros Hi Hf. induction l as [|b l IH]; [destruct Hi|]. intros s. cbn. destruct Hi as [->|Hi]; [rewrite Hf; reflexivity|].
  destruct (f s b); [cbn; apply IH; exact Hi|reflexivity].
Qed.
Lemma pyindex_out n i : i < - n \/ n <= i -> 0 <= n -> pyindex n i = None.
Proof. intros H Hn. unfold pyindex. replace ((0 <=? i) && (i <? n)) with false by lia. replace ((- n <=? i) && (i <? 0)) with false by lia. reflexivity. Qed.
Lemma nth_in {A} (l : list A) k x : nth_error l k = Some x -> In x l. Proof. apply nth_error_In. Qed.
Theorem lines_raise eps h w bad : 0 < h -> 0 < w -> In bad eps ->
  (length bad <> 4%nat \/ exists x0 y0 x1 y1, bad = [x0; y0; x1; y1] /\ (h <= x0 \/ w <= y0 \/ x1 < - h \/ y1 < - w)) ->
  lines eps h w = None.
Proof.
  intros Hh Hw Hin HB. unfold lines. change (foldM _ eps _) with (foldM (step h w) eps (0%nat, repeat 0%nat (Z.to_nat h * Z.to_nat w))).
  rewrite (fold_bad (step h w) eps bad Hin); [reflexivity|]. intros s. destruct HB as [HB|[x0 [y0 [x1 [y1 [-> HB]]]]]].
  - destruct bad as [|a [|b [|c [|d [|e r]]]]]; try reflexivity. exfalso. apply HB. reflexivity.
  - cbn [step]. destruct (line_traces (Z.max x0 0) (Z.max y0 0) (Z.min x1 (h - 1)) (Z.min y1 (w - 1))) as [T1 [T2 _]].
    set (pts := line _ _ _ _) in *. apply nth_in in T1, T2.
    assert (G : exists p, In p pts /\ flat_index h w p = None); [|destruct G as [p [Hp En]]; rewrite (paint_none h w _ pts p Hp En); reflexivity].
    destruct HB as [HB|[HB|[HB|HB]]].
    + exists (Z.max x0 0, Z.max y0 0). split; [exact T1|]. unfold flat_index. cbn [fst]. rewrite pyindex_out by lia. reflexivity.
    + exists (Z.max x0 0, Z.max y0 0). split; [exact T1|]. unfold flat_index. cbn [fst snd]. rewrite (pyindex_out w) by lia. destruct (pyindex h _); reflexivity.
    + exists (Z.min x1 (h - 1), Z.min y1 (w - 1)). split; [exact T2|]. unfold flat_index. cbn [fst]. rewrite pyindex_out by lia. reflexivity.
    + exists (Z.min x1 (h - 1), Z.min y1 (w - 1)). split; [exact T2|]. unfold flat_index. cbn [fst snd]. rewrite (pyindex_out w) by lia. destruct (pyindex h _); reflexivity.
Qed.
Lemma pyindex_in n i : - n <= i < n -> pyindex n i = Some (Z.to_nat (wrapped n i)).
Proof.
  intros H. unfold pyindex, wrapped. destruct (Z.ltb_spec i 0) as [L|L].
  - replace ((0 <=? i) && (i <? n)) with false by lia. replace ((- n <=? i) && true) with true by lia. reflexivity.
  - replace ((0 <=? i) && (i <? n)) with true by lia. reflexivity.
Qed.
Theorem lines_wrap h w x0 y0 x1 y1 : 0 < h -> 0 < w -> 0 <= x0 < h -> 0 <= y0 < w -> - h <= x1 < h -> - w <= y1 < w ->
  exists img, lines [[x0; y0; x1; y1]] h w = Some img /\
    nth_error img (Z.to_nat (wrapped h x1) * Z.to_nat w + Z.to_nat (wrapped w y1))%nat = Some 1%nat.
Proof.
  intros Hh Hw Hx0 Hy0 Hx1 Hy1. unfold lines. cbn [foldM fst snd].
  replace (Z.max x0 0) with x0 by lia. replace (Z.max y0 0) with y0 by lia. replace (Z.min x1 (h - 1)) with x1 by lia. replace (Z.min y1 (w - 1)) with y1 by lia.
  destruct (line_traces x0 y0 x1 y1) as [_ [T2 [_ [_ [_ TB]]]]]. set (pts := line x0 y0 x1 y1) in *. apply nth_in in T2. rewrite Forall_forall in TB.
  assert (HI : forall p, In p pts -> exists k, flat_index h w p = Some k).
  { intros p Hp. specialize (TB p Hp). unfold between in TB. cbn [fst snd] in TB. unfold flat_index. rewrite !pyindex_in by lia. cbn [bind]. eauto. }
  destruct (paint_ok h w 1 pts ltac:(lia) ltac:(lia) (repeat 0%nat (Z.to_nat h * Z.to_nat w)) (repeat_length _ _) HI) as [img [E [L HP]]].
  rewrite E. cbn [bind snd]. exists img. split; [reflexivity|].
  assert (EF : flat_index h w (x1, y1) = Some (Z.to_nat (wrapped h x1) * Z.to_nat w + Z.to_nat (wrapped w y1))%nat).
  { unfold flat_index. cbn [fst snd]. rewrite !pyindex_in by lia. reflexivity. }
  apply HP.
  - rewrite repeat_length. eapply flat_index_bound; [| |exact EF]; lia.
  - exists (x1, y1). split; [exact T2|exact EF].
Qed.
