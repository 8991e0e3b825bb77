(* The powder files as a whole: writer, file system, reader. *)
From Coq Require Import Qround.
From Verif Require Import Common QcArith BinStat_Model BinStat_Main Text_Model Text_Proofs Gsas_Model Gsas_Spec Gsas_Proofs.
Open Scope list_scope.

Lemma teqb_eq a b : teqb a b = true <-> a = b.
Proof. unfold teqb. destruct (list_eq_dec ascii_dec a b); split; congruence. Qed.
Lemma teqb_refl a : teqb a a = true. Proof. now apply teqb_eq. Qed.
Lemma fget_put fs p c : fget (fput fs p c) p = Some c.
Proof. cbn. now rewrite teqb_refl. Qed.
Lemma fget_del fs p : fget (fdel fs p) p = None.
Proof. induction fs as [|[q c] r IH]; [reflexivity|]. cbn. destruct (teqb p q) eqn:E; cbn; [exact IH|]. now rewrite E. Qed.
Lemma fget_del_other fs p q : q <> p -> fget (fdel fs p) q = fget fs q.
Proof.
  intros N. induction fs as [|[u c] r IH]; [reflexivity|]. cbn. destruct (teqb p u) eqn:E; cbn.
  - apply teqb_eq in E. subst u. destruct (teqb q p) eqn:F; [apply teqb_eq in F; contradiction|exact IH].
  - destruct (teqb q u); [reflexivity|exact IH].
Qed.
Lemma fget_put_other fs p c q : q <> p -> fget (fput fs p c) q = fget fs q.
Proof. intros N. cbn. destruct (teqb q p) eqn:E; [apply teqb_eq in E; contradiction|]. now apply fget_del_other. Qed.

(** *** names *)
Lemma join_path d n : join d n = path_in d n.
Proof.
  unfold join, path_in. assert (R : match rev d with [] => n | x :: _ => if Ascii.eqb x slash then d ++ n else d ++ slash :: n end = if list_eq_dec ascii_dec d [] then n else d ++ (if ascii_dec (last d " "%char) "/"%char then [] else ["/"%char]) ++ n).
  { destruct (list_eq_dec ascii_dec d []) as [->|N]; [reflexivity|]. destruct (exists_last N) as (d' & x & ->). rewrite rev_app_distr. cbn [rev app]. rewrite last_last. unfold slash. destruct (Ascii.eqb_spec x "/"), (ascii_dec x "/"); try contradiction; reflexivity. }
  destruct n as [|c n]; cbn [firstn]; [destruct (list_eq_dec ascii_dec [] ["/"%char]) as [E|]; [discriminate|exact R]|].
  unfold slash in *. destruct (Ascii.eqb_spec c "/") as [->|N].
  - destruct (list_eq_dec ascii_dec ["/"%char] ["/"%char]) as [E|E]; [reflexivity|congruence].
  - destruct (list_eq_dec ascii_dec [c] ["/"%char]) as [E|E]; [congruence|exact R].
Qed.
Lemma named_inv r : named r = true -> exists b c a, r = b ++ c :: a /\ c <> "."%char /\ c <> "/"%char /\ ~ In "/"%char b.
Proof.
  induction r as [|c r IH]; [discriminate|]. cbn. destruct (Ascii.eqb_spec c slash) as [|N]; [discriminate|]. destruct (Ascii.eqb_spec c ".") as [E|N2].
  - intros H. destruct (IH H) as (b & c' & a & -> & A & B & C). exists (c :: b), c', a. repeat split; try assumption. intros [D|D]; [subst; discriminate|contradiction].
  - intros _. exists [], c, r. repeat split; try assumption. intros [].
Qed.
Lemma named_intro b c a : c <> "."%char -> c <> "/"%char -> ~ In "/"%char b -> named (b ++ c :: a) = true.
Proof.
  intros N1 N2. induction b as [|x b IH]; intros I; cbn.
  - destruct (Ascii.eqb_spec c slash); [contradiction|]. destruct (Ascii.eqb_spec c "."); [contradiction|reflexivity].
  - destruct (Ascii.eqb_spec x slash) as [->|]; [destruct I; left; reflexivity|]. destruct (Ascii.eqb_spec x "."); [|reflexivity]. apply IH. intros D. apply I. right. exact D.
Qed.
Lemma ext_aux_inv r : forall acc e, ext_aux r acc = e -> e <> [] -> exists s r', e = "."%char :: rev s ++ acc /\ r = s ++ "."%char :: r' /\ named r' = true.
Proof.
  induction r as [|c r IH]; intros acc e; cbn; [congruence|]. destruct (Ascii.eqb_spec c slash); [congruence|]. destruct (Ascii.eqb_spec c ".") as [->|N].
  - destruct (named r) eqn:E; [|congruence]. intros <- _. exists [], r. auto.
  - intros H N2. destruct (IH _ _ H N2) as (s & r' & E1 & E2 & E3). exists (c :: s), r'. cbn. rewrite <- app_assoc. split; [exact E1|]. split; [rewrite E2; reflexivity|exact E3].
Qed.
Lemma extension_named p : extension p = txt ".gsas" <-> gsas_named p.
Proof.
  split.
  - intros H. unfold extension in H. destruct (ext_aux_inv _ _ _ H ltac:(discriminate)) as (s & r' & E & R & N). rewrite app_nil_r in E. cbn in E. injection E as E. apply (f_equal (@rev ascii)) in E. rewrite rev_involutive in E. subst s.
    destruct (named_inv r' N) as (b & c & a & -> & A & B & C). exists (rev a), c, (rev b). split; [|repeat split; try assumption; rewrite <- in_rev; exact C].
    apply (f_equal (@rev ascii)) in R. rewrite rev_involutive in R. rewrite R. cbn. rewrite !rev_app_distr. cbn. rewrite <- !app_assoc. reflexivity.
  - intros (a & c & b & -> & A & B & C). assert (Q : a ++ c :: b ++ txt ".gsas" = (a ++ c :: b) ++ txt ".gsas") by (rewrite <- app_assoc; reflexivity). rewrite Q. unfold extension. rewrite rev_app_distr. cbn.
    assert (Rv : rev (a ++ c :: b) = rev b ++ c :: rev a) by (rewrite rev_app_distr; cbn [rev]; rewrite <- app_assoc; reflexivity). rewrite Rv, named_intro; [reflexivity|exact A|exact B|rewrite <- in_rev; exact C].
Qed.
Lemma named_dots b r : Forall (fun x => x = "."%char) b -> named (b ++ r) = named r.
Proof. induction 1 as [|x b H _ IH]; [reflexivity|]. subst. exact IH. Qed.
Lemma stem_named name : has_stem name -> forall pre, named (rev (pre ++ name)) = true.
Proof.
  intros (a & c & b & -> & N1 & N2 & B) pre. rewrite rev_app_distr, rev_app_distr. cbn [rev]. rewrite <- !app_assoc.
  rewrite named_dots by now apply Forall_rev. cbn. destruct (Ascii.eqb_spec c slash); [contradiction|]. destruct (Ascii.eqb_spec c "."); [contradiction|reflexivity].
Qed.
Lemma ext_gsas p : named (rev p) = true -> extension (p ++ txt ".gsas") = txt ".gsas".
Proof. intros H. unfold extension. rewrite rev_app_distr. cbn. rewrite H. reflexivity. Qed.
Lemma outfile_ext dir name : has_stem name -> extension (outfile dir name) = txt ".gsas".
Proof.
  intros H. unfold outfile. apply ext_gsas. destruct dir as [d|]; [|apply (stem_named name H [])].
  rewrite <- join_path. unfold join. destruct name as [|c n]; [destruct H as ([|] & ? & ? & E & _); discriminate|].
  destruct (Ascii.eqb c slash); [apply (stem_named _ H [])|]. destruct (rev d) as [|x r]; [apply (stem_named _ H [])|].
  destruct (Ascii.eqb x slash); [now apply stem_named|]. change (d ++ slash :: c :: n) with (d ++ [slash] ++ c :: n). rewrite app_assoc. now apply stem_named.
Qed.

(** *** numbers *)
Lemma decades_scale ys m : qmax ys = Some m -> (0 <= m)%Qc -> decades ys (scale_exp m).
Proof.
  intros M P. destruct (scale_exp_ok m P) as [A B]. split.
  - intros y I. eapply Qcle_trans; [now apply (qmax_ge ys m)|exact A].
  - intros j J. exists m. split; [now apply qmax_in|now apply B].
Qed.
Lemma decades_unique ys k k' : decades ys k -> decades ys k' -> k = k'.
Proof.
  intros [A B] [A' B']. destruct (Nat.lt_trichotomy k k') as [L|[E|L]]; [|exact E|].
  - destruct (B' k L) as (y & I & H). specialize (A y I). exfalso. apply (Qcle_not_lt _ _ A H).
  - destruct (B k' L) as (y & I & H). specialize (A' y I). exfalso. apply (Qcle_not_lt _ _ A' H).
Qed.
Lemma scale_ten k y : (y * scale_of k = y / ten k)%Qc.
Proof. unfold scale_of, ten. field. apply qz_neq0. pose proof (pow10_pos k). lia. Qed.
Lemma printed_is_near d x : near d (printed d x) x. Proof. apply printed_near. Qed.
Lemma qpos_clipped p : clipped (qpos p) p.
Proof. unfold qpos. split; intros H; destruct (Qc_ltb_spec 0%Qc p) as [L|L]; try reflexivity; [contradiction|]. exfalso. now apply (Qcle_not_lt _ _ H). Qed.
Lemma recip_inverse p : inverse (recip_or_0 p) p.
Proof. unfold recip_or_0. split; intros H; destruct (Qc_ltb_spec 0%Qc p) as [L|L]; try reflexivity; [contradiction|]. exfalso. now apply (Qcle_not_lt _ _ H). Qed.
Lemma weight_inverse p : inverse_square (weight p) p.
Proof. unfold weight. split; intros H; destruct (Qc_ltb_spec 0%Qc p) as [L|L]; try reflexivity; [contradiction|]. exfalso. now apply (Qcle_not_lt _ _ H). Qed.
Lemma printed0_int x : exists z, printed 0 x = qz z.
Proof.
  unfold printed. cbn [Z.of_nat]. rewrite Z.pow_0_r. exists (if Qc_ltb x 0%Qc then (- fix_digits 0 x)%Z else fix_digits 0 x).
  destruct (Qc_ltb x 0%Qc); rewrite ?qz_opp, qz_1; field; intros E; discriminate E.
Qed.
Lemma Qc_div_mono c x y : (0 < c)%Qc -> (x <= y)%Qc -> (x / c <= y / c)%Qc.
Proof. intros C H. apply Qc_div_le; [exact C|]. replace (y / c * c)%Qc with y; [exact H|]. field. intros E. subst c. discriminate C. Qed.
Lemma grid_near tth i : on_grid tth i (prt_start tth + prt_step tth * qn i)%Qc.
Proof.
  unfold on_grid, grid, prt_start, prt_step. set (st := step_of tth). fold (step_of tth). fold st. set (t0 := hd 0%Qc tth).
  destruct (printed_near 5 (t0 * qz 100)%Qc) as [A B]. destruct (printed_near 5 (st * qz 100)%Qc) as [C D].
  set (a := printed 5 (t0 * qz 100)%Qc) in *. set (b := printed 5 (st * qz 100)%Qc) in *. change (2 * 10 ^ Z.of_nat 5)%Z with 200000%Z in *.
  pose proof (qn_nonneg i) as N. set (q := qn i) in *. clearbody a b q.
  assert (P1 : (0 < qz 100)%Qc) by reflexivity. assert (N1 : qz 100 <> 0%Qc) by (intros E; discriminate E). assert (N2 : qz 200000 <> 0%Qc) by (intros E; discriminate E).
  assert (K : (1 / qz 200000 / qz 100 = 1 / qz (2 * 10 ^ 7))%Qc) by (apply Qc_is_canon; reflexivity).
  assert (A' : (a / qz 100 - t0 <= 1 / qz (2 * 10 ^ 7))%Qc).
  { rewrite <- K. replace (a / qz 100 - t0)%Qc with ((a - t0 * qz 100) / qz 100)%Qc by (field; exact N1). now apply Qc_div_mono. }
  assert (B' : (t0 - a / qz 100 <= 1 / qz (2 * 10 ^ 7))%Qc).
  { rewrite <- K. replace (t0 - a / qz 100)%Qc with ((t0 * qz 100 - a) / qz 100)%Qc by (field; exact N1). now apply Qc_div_mono. }
  assert (C' : (b / qz 100 - st <= 1 / qz (2 * 10 ^ 7))%Qc).
  { rewrite <- K. replace (b / qz 100 - st)%Qc with ((b - st * qz 100) / qz 100)%Qc by (field; exact N1). now apply Qc_div_mono. }
  assert (D' : (st - b / qz 100 <= 1 / qz (2 * 10 ^ 7))%Qc).
  { rewrite <- K. replace (st - b / qz 100)%Qc with ((st * qz 100 - b) / qz 100)%Qc by (field; exact N1). now apply Qc_div_mono. }
  assert (S : ((1 + q) / qz (2 * 10 ^ 7) = 1 / qz (2 * 10 ^ 7) + 1 / qz (2 * 10 ^ 7) * q)%Qc) by (field; intros E; discriminate E). rewrite S.
  set (h := (1 / qz (2 * 10 ^ 7))%Qc) in *. clearbody h.
  apply (Qcmult_le_compat_r _ _ q) in C'; [|exact N]. apply (Qcmult_le_compat_r _ _ q) in D'; [|exact N].
  set (u := (a / qz 100)%Qc) in *. set (v := (b / qz 100)%Qc) in *. clearbody u v.
  replace ((v - st) * q)%Qc with (v * q - st * q)%Qc in C' by ring. replace ((st - v) * q)%Qc with (st * q - v * q)%Qc in D' by ring.
  set (vq := (v * q)%Qc) in *. set (sq := (st * q)%Qc) in *. set (hq := (h * q)%Qc) in *. clearbody vq sq hq. split; qclra.
Qed.
Lemma one_line_oneline s : one_line s -> oneline s.
Proof. intros [A B]. apply Forall_forall. intros c I. split; intros ->; auto. Qed.

(** *** what the writer writes *)
Lemma outfile_path isdir fs dir name : (forall d, dir = Some d -> isdir d = true) ->
  create_file_path isdir fs dir name (txt ".gsas") = inl (fdel fs (outfile dir name), outfile dir name).
Proof. intros H. unfold create_file_path, outfile. destruct dir as [d|]; [rewrite (H d eq_refl), join_path|]; reflexivity. Qed.
Definition wmode (mode : option string) (err : option (list Qc)) : option string := match err with None => Some "STD"%string | Some _ => mode end.
Lemma text_ok tth ys name mode err m : qmax ys = Some m -> (0 <= m)%Qc -> length tth = length ys -> (2 <= length ys)%nat ->
  let k := scale_exp m in let s := scale_of k in let n := length ys in
  (wmode mode err = Some "STD"%string -> exists nrec, gsas_text tth ys name mode err = inl (file_of name k n nrec (hd 0 tth * qz 100)%Qc (step_of tth * qz 100)%Qc "STD" (chunks n 10 (map (std_rec s) ys)))) /\
  (forall e, mode = Some "ESD"%string -> err = Some e -> exists nrec, gsas_text tth ys name mode err = inl (file_of name k n nrec (hd 0 tth * qz 100)%Qc (step_of tth * qz 100)%Qc "ESD" (chunks n 5 (map (esd_rec s) (combine ys e))))) /\
  (forall e, mode = Some "FXYE"%string -> err = Some e -> exists nrec, gsas_text tth ys name mode err = inl (file_of name k n nrec (hd 0 tth * qz 100)%Qc (step_of tth * qz 100)%Qc "FXYE" (map (fun p => ljust 80 (fxye_rec s p)) (combine (combine tth ys) e)))).
Proof.
  intros M P L N. unfold gsas_text. rewrite M. destruct (Qc_ltb_spec m 0%Qc) as [H|_]; [exfalso; now apply (Qcle_not_lt _ _ P)|].
  destruct (Nat.eqb_spec (length tth) 1) as [E|_]; [exfalso; lia|]. cbv zeta. repeat split.
  - intros W. destruct err as [e|]; cbn [wmode] in W; [subst mode; cbn|]; eexists; reflexivity.
  - intros e -> ->. eexists; reflexivity.
  - intros e -> ->. eexists; reflexivity.
Qed.
Lemma wmode_none mode : wmode mode None = Some "STD"%string. Proof. reflexivity. Qed.
Lemma writes_text isdir fs tth ys name mode err dir t pts : (forall d, dir = Some d -> isdir d = true) -> has_stem name ->
  length tth = length ys -> (forall e, err = Some e -> length e = length ys) -> gsas_text tth ys name mode err = inl t -> gsas_read t = inl pts ->
  writes isdir fs tth ys name mode err dir pts.
Proof.
  intros D ST L LE T R. unfold writes, gsas_writer.
  assert (V : valid tth ys err (txt ".gsas") = true).
  { unfold valid. rewrite L, Nat.eqb_refl. destruct err as [e|]; [|reflexivity]. rewrite (LE e eq_refl). now rewrite Nat.eqb_refl. }
  rewrite V. cbn [negb]. rewrite outfile_path by exact D. rewrite T. eexists. split; [reflexivity|].
  unfold gsas_reader. rewrite outfile_ext by exact ST. rewrite teqb_refl. cbn [negb]. rewrite fget_put. exact R.
Qed.

Lemma qmax_nonneg ys y : In y ys -> (0 <= y)%Qc -> exists m, qmax ys = Some m /\ (0 <= m)%Qc.
Proof.
  intros I P. destruct (qmax_some ys) as [m M]; [intros ->; destruct I|]. exists m. split; [exact M|]. eapply Qcle_trans; [exact P|now apply (qmax_ge ys m)].
Qed.
Lemma decades_is ys k y0 : In y0 ys -> (0 <= y0)%Qc -> decades ys k -> exists m, qmax ys = Some m /\ (0 <= m)%Qc /\ scale_exp m = k.
Proof.
  intros I P D. destruct (qmax_nonneg ys y0 I P) as (m & M & PM). exists m. split; [exact M|]. split; [exact PM|].
  apply (decades_unique ys); [now apply decades_scale|exact D].
Qed.
Lemma under_max ys k y : decades ys k -> In y ys -> (y * scale_of k <= qz 999999)%Qc.
Proof. intros [A _] I. eapply scaled_max; [apply Qcle_refl|]. now apply A. Qed.

(** *** STD *)
Theorem std_round_trip isdir fs tth ys name mode err dir k :
  (forall d, dir = Some d -> isdir d = true) -> has_stem name -> one_line name ->
  length tth = length ys -> (2 <= length ys)%nat -> (forall e, err = Some e -> length e = length ys /\ mode = Some "STD"%string) ->
  (exists y, In y ys /\ (0 <= y)%Qc) -> decades ys k -> (forall y, In y ys -> (qz (-99999) <= y / ten k)%Qc) ->
  exists pts, writes isdir fs tth ys name mode err dir pts /\ length pts = length ys /\
    forall i y, nth_error ys i = Some y -> exists t v w z,
      nth_error pts i = Some (t, v, w) /\ on_grid tth i t /\ near 0 (qz z) (y / ten k)%Qc /\ (z <= 999999)%Z /\ clipped v (qz z) /\ inverse w (qz z).
Proof.
  intros D ST ON L N LE (y0 & I0 & P0) DE LO. destruct (decades_is ys k y0 I0 P0 DE) as (m & M & PM & K). subst k. set (k := scale_exp m) in *.
  assert (F : Forall (small_std (scale_of k)) ys).
  { apply Forall_forall. intros y I. split; [rewrite scale_ten; now apply LO|now apply (under_max ys)]. }
  destruct (text_ok tth ys name mode err m M PM L N) as (T & _ & _). fold k in T.
  destruct T as [nrec T]; [destruct err as [e|]; [now destruct (LE e eq_refl)|reflexivity]|].
  eexists. split; [|split].
  - eapply writes_text; eauto. { intros e E. now destruct (LE e E). }
    apply read_std; [now apply one_line_oneline|intros ->; cbn in N; lia|reflexivity|exact F].
  - apply mapi_len.
  - intros i y E. rewrite mapi_nth, E. cbn [Nat.add]. destruct (printed0_int (y * scale_of k)) as [z Z].
    exists (prt_start tth + prt_step tth * qn i)%Qc, (qpos (qz z)), (recip_or_0 (qz z)), z. unfold std_pt. rewrite Z. split; [reflexivity|].
    split; [apply grid_near|]. split; [rewrite <- Z, <- scale_ten; apply printed_is_near|]. split; [|split; [apply qpos_clipped|apply recip_inverse]].
    apply nth_error_In in E. pose proof (under_max ys k y DE E) as U. destruct (printed_near 0 (y * scale_of k)%Qc) as [A _]. rewrite Z in A.
    destruct (Z_le_gt_dec z 999999) as [|G]; [assumption|exfalso]. assert (B : (qz 1000000 <= qz z)%Qc) by (apply qz_le; lia).
    change (1 / qz (2 * 10 ^ Z.of_nat 0))%Qc with (1 / qz 2)%Qc in A. assert (H2 : (1 / qz 2 < qz 1000000 - qz 999999)%Qc) by reflexivity.
    set (x := (y * scale_of k)%Qc) in *. set (c1 := qz 1000000) in *. set (c2 := qz 999999) in *. set (c3 := (1 / qz 2)%Qc) in *. set (zz := qz z) in *. clearbody x c1 c2 c3 zz. qclra.
Qed.
Lemma int_unique z y : near 0 (qz z) (qz y) -> z = y.
Proof.
  intros [A B]. change (1 / qz (2 * 10 ^ Z.of_nat 0))%Qc with (1 / qz 2)%Qc in *.
  rewrite <- !qz_sub in A, B. assert (C : forall u, (qz u <= 1 / qz 2)%Qc -> (u <= 0)%Z).
  { intros u H. destruct (Z_le_gt_dec u 0) as [|G]; [assumption|exfalso]. assert (E : (qz 1 <= qz u)%Qc) by (apply qz_le; lia). apply (Qcle_not_lt _ _ (Qcle_trans _ _ _ E H)). reflexivity. }
  apply C in A. apply C in B. lia.
Qed.
Theorem std_exact isdir fs tth zs name mode err dir :
  (forall d, dir = Some d -> isdir d = true) -> has_stem name -> one_line name ->
  length tth = length zs -> (2 <= length zs)%nat -> (forall e, err = Some e -> length e = length zs /\ mode = Some "STD"%string) ->
  Forall (fun z => 0 <= z <= 999999)%Z zs ->
  exists pts, writes isdir fs tth (map qz zs) name mode err dir pts /\ map (fun p => snd (fst p)) pts = map qz zs.
Proof.
  intros D ST ON L N LE F.
  assert (DE : decades (map qz zs) 0).
  { split; [|lia]. intros y I. apply in_map_iff in I as (z & <- & I). apply qz_le. eapply Forall_forall in F; [|exact I]. cbv beta in F. change (999999 * 10 ^ Z.of_nat 0)%Z with 999999%Z. lia. }
  destruct (std_round_trip isdir fs tth (map qz zs) name mode err dir 0) as (pts & W & LP & H); auto.
  - now rewrite map_length.
  - now rewrite map_length.
  - intros e E. rewrite map_length. auto.
  - destruct zs as [|z zs]; [cbn in N; lia|]. exists (qz z). split; [now left|]. inversion F; subst. apply (qz_le 0). lia.
  - intros y I. apply in_map_iff in I as (z & <- & I). unfold ten. replace (qz z / qz (10 ^ Z.of_nat 0))%Qc with (qz z) by (change (qz (10 ^ Z.of_nat 0)) with 1%Qc; field; intros E; discriminate E).
    apply qz_le. eapply Forall_forall in F; [|exact I]. cbv beta in F. lia.
  - exists pts. split; [exact W|]. rewrite map_length in LP. apply nth_ext with (d := 0%Qc) (d' := 0%Qc); [now rewrite !map_length|].
    intros i Hi. rewrite map_length in Hi. unfold point in *. destruct (nth_error zs i) as [z|] eqn:E; [|apply nth_error_None in E; lia].
    destruct (H i (qz z)) as (t & v & w & z' & P & _ & NR & _ & C & _); [rewrite nth_error_map, E; reflexivity|].
    rewrite (nth_error_nth (map (fun p => snd (fst p)) pts) i 0%Qc (x := v)) by (rewrite nth_error_map, P; reflexivity).
    rewrite (nth_error_nth (map qz zs) i 0%Qc (x := qz z)) by (rewrite nth_error_map, E; reflexivity).
    unfold ten in NR. replace (qz z / qz (10 ^ Z.of_nat 0))%Qc with (qz z) in NR by (change (qz (10 ^ Z.of_nat 0)) with 1%Qc; field; intros X; discriminate X).
    apply int_unique in NR. subst z'. apply nth_error_In in E. eapply Forall_forall in F; [|exact E]. cbv beta in F. destruct C as [C1 C2].
    destruct (Z.eq_dec z 0) as [->|NZ]; [apply C2, Qcle_refl|]. apply C1. apply (qz_lt 0). lia.
Qed.
Theorem std_scale_lost isdir fs tth ys name mode err dir k :
  (forall d, dir = Some d -> isdir d = true) -> has_stem name -> one_line name ->
  length tth = length ys -> (2 <= length ys)%nat -> (forall e, err = Some e -> length e = length ys /\ mode = Some "STD"%string) ->
  decades ys k -> (0 < k)%nat -> (forall y, In y ys -> (qz (-99999) <= y / ten k)%Qc) ->
  exists pts i y t v w, writes isdir fs tth ys name mode err dir pts /\ nth_error ys i = Some y /\ nth_error pts i = Some (t, v, w) /\ (v <= qz 999999)%Qc /\ (qz 999999 < y)%Qc.
Proof.
  intros D ST ON L N LE DE K LO. destruct (proj2 DE 0%nat K) as (y & I & G). change (qz (999999 * 10 ^ Z.of_nat 0)) with (qz 999999) in G.
  assert (P : (0 <= y)%Qc). { apply Qclt_le_weak. eapply Qclt_trans; [|exact G]. reflexivity. }
  destruct (std_round_trip isdir fs tth ys name mode err dir k) as (pts & W & LP & H); auto. { exists y. auto. }
  destruct (In_nth_error _ _ I) as [i E]. destruct (H i y E) as (t & v & w & z & Q & _ & _ & B & [C1 C2] & _).
  exists pts, i, y, t, v, w. split; [exact W|]. split; [exact E|]. split; [exact Q|]. split; [|exact G].
  destruct (Z_lt_le_dec 0 z) as [HZ|HZ]; [rewrite C1 by (apply (qz_lt 0); lia); apply qz_le; lia|]. rewrite C2 by (apply (qz_le z 0); lia). apply Qclt_le_weak. reflexivity.
Qed.
(** *** ESD *)
Theorem esd_read_back isdir fs tth ys es name dir k :
  (forall d, dir = Some d -> isdir d = true) -> has_stem name -> one_line name ->
  length tth = length ys -> length es = length ys -> (2 <= length ys)%nat ->
  (exists y, In y ys /\ (0 <= y)%Qc) -> decades ys k ->
  (forall y, In y ys -> qz (-9999999) <= y /\ y <= qz 99999999)%Qc -> (forall e, In e es -> qz (-9999999) <= e / ten k /\ e / ten k <= qz 99999999)%Qc ->
  exists pts b c, writes isdir fs tth ys name (Some "ESD"%string) (Some es) dir pts /\ (b < 5)%nat /\ (length ys + b = 5 * c)%nat /\ length pts = (length ys + b)%nat /\
    (forall i y e, nth_error ys i = Some y -> nth_error es i = Some e -> exists t v w z u,
      nth_error pts i = Some (t, v, w) /\ on_grid tth i t /\ near 0 (qz z) y /\ clipped v (qz z) /\ near 0 (qz u) (e / ten k)%Qc /\ inverse_square w (qz u)) /\
    (forall i, (length ys <= i < length ys + b)%nat -> exists t, on_grid tth i t /\ nth_error pts i = Some (t, 0%Qc, 0%Qc)).
Proof.
  intros D ST ON L LE N (y0 & I0 & P0) DE BY BE. destruct (decades_is ys k y0 I0 P0 DE) as (m & M & PM & K). subst k. set (k := scale_exp m) in *.
  destruct (text_ok tth ys name (Some "ESD"%string) (Some es) m M PM L N) as (_ & T & _). fold k in T. destruct (T es eq_refl eq_refl) as [nrec T']. clear T.
  assert (LC : length (combine ys es) = length ys) by (rewrite combine_length; lia).
  destruct (read_esd name k (length ys) nrec (hd 0 tth * qz 100)%Qc (step_of tth * qz 100)%Qc (scale_of k) (combine ys es)) as (b & c & Hb & Hc & R).
  - now apply one_line_oneline.
  - intros E. rewrite E in LC. cbn in LC. lia.
  - now symmetry.
  - apply Forall_forall. intros [y e] I. split; cbn [fst snd].
    + apply BY. eapply in_combine_l; eauto.
    + rewrite scale_ten. apply BE. eapply in_combine_r; eauto.
  - eexists. exists b, c. split; [eapply writes_text; eauto; intros e' [= <-]; exact LE|]. split; [exact Hb|]. split; [lia|].
    split; [rewrite mapi_len, app_length, repeat_length; lia|]. split.
    + intros i y e Ey Ee. rewrite mapi_nth. rewrite nth_error_app1 by (rewrite LC; apply nth_error_Some; congruence).
      assert (EC : nth_error (combine ys es) i = Some (y, e)).
      { clear - Ey Ee. revert es i Ey Ee. induction ys as [|a ys IH]; intros [|b es] [|i]; cbn; try discriminate; [congruence|apply IH]. }
      rewrite EC. cbn [Nat.add]. destruct (printed0_int y) as [z Z]. destruct (printed0_int (e * scale_of k)) as [u U]. unfold esd_pt. cbn [fst snd]. rewrite Z, U.
      exists (prt_start tth + prt_step tth * qn i)%Qc, (qpos (qz z)), (weight (qz u)), z, u. split; [reflexivity|]. split; [apply grid_near|].
      split; [rewrite <- Z; apply printed_is_near|]. split; [apply qpos_clipped|]. split; [rewrite <- U, <- scale_ten; apply printed_is_near|apply weight_inverse].
    + intros i Hi. exists (prt_start tth + prt_step tth * qn i)%Qc. split; [apply grid_near|]. rewrite mapi_nth, nth_error_app2 by lia. rewrite LC.
      rewrite nth_error_repeat by lia. cbn [Nat.add]. unfold esd_pt. cbn [fst snd]. replace (0 * scale_of k)%Qc with 0%Qc by ring.
      assert (Z0 : printed 0 0%Qc = 0%Qc) by reflexivity. rewrite Z0. reflexivity.
Qed.
(** *** FXYE *)
Theorem fxye_read_back isdir fs tth ys es name dir k :
  (forall d, dir = Some d -> isdir d = true) -> has_stem name -> one_line name ->
  length tth = length ys -> length es = length ys -> (2 <= length ys)%nat ->
  (exists y, In y ys /\ (0 <= y)%Qc) -> decades ys k ->
  (forall y, In y ys -> qz (-999999999) <= y / ten k)%Qc -> (forall e, In e es -> qz (-99999999999) <= e / ten k /\ e / ten k <= qz 99999999999)%Qc ->
  exists pts, writes isdir fs tth ys name (Some "FXYE"%string) (Some es) dir pts /\ length pts = length ys /\
    forall i t0 y e, nth_error tth i = Some t0 -> nth_error ys i = Some y -> nth_error es i = Some e -> exists t v w p u,
      nth_error pts i = Some (t, v, w) /\ near 10 t (t0 / ten k)%Qc /\ near 10 p (y / ten k)%Qc /\ clipped v p /\ near 10 u (e / ten k)%Qc /\ inverse_square w u.
Proof.
  intros D ST ON L LE N (y0 & I0 & P0) DE BY BE. destruct (decades_is ys k y0 I0 P0 DE) as (m & M & PM & K). subst k. set (k := scale_exp m) in *.
  destruct (text_ok tth ys name (Some "FXYE"%string) (Some es) m M PM L N) as (_ & _ & T). fold k in T. destruct (T es eq_refl eq_refl) as [nrec T']. clear T.
  assert (LC : length (combine (combine tth ys) es) = length ys) by (rewrite !combine_length; lia).
  assert (AB : forall x c, (qz (- c) <= x)%Qc -> (x <= qz c)%Qc -> (Qc_abs x <= qz c)%Qc).
  { intros x c A B. unfold Qc_abs. destruct (Qc_ltb x 0%Qc); [|exact B]. rewrite qz_opp in A. set (cc := qz c) in *. clearbody cc. qclra. }
  eexists. split; [|split].
  - eapply writes_text; eauto. { intros e' [= <-]. exact LE. } apply read_fxye.
    + now apply one_line_oneline.
    + intros E. rewrite E in LC. cbn in LC. lia.
    + apply Forall_forall. intros [[t y] e] I. pose proof (in_combine_r _ _ _ _ I) as IE. apply in_combine_l in I. apply in_combine_r in I. split; cbn [fst snd]; apply AB.
      * rewrite scale_ten. apply (BY y I).
      * eapply Qcle_trans; [apply (under_max ys k y DE I)|]. apply qz_le. lia.
      * rewrite scale_ten. apply (BE e IE).
      * rewrite scale_ten. apply (BE e IE).
  - rewrite map_length. exact LC.
  - intros i t0 y e Et Ey Ee. rewrite nth_error_map.
    assert (EC : nth_error (combine (combine tth ys) es) i = Some (t0, y, e)).
    { clear - Et Ey Ee. revert tth es i Et Ey Ee. induction ys as [|a ys IH]; intros [|c tth] [|b es] [|i]; cbn; try discriminate; [congruence|apply IH]. }
    rewrite EC. cbn [option_map]. unfold fxye_pt. cbn [fst snd].
    exists (printed 10 (t0 * scale_of k)%Qc), (qpos (printed 10 (y * scale_of k)%Qc)), (weight (printed 10 (e * scale_of k)%Qc)), (printed 10 (y * scale_of k)%Qc), (printed 10 (e * scale_of k)%Qc).
    split; [reflexivity|]. rewrite <- !scale_ten. split; [apply printed_is_near|]. split; [apply printed_is_near|]. split; [apply qpos_clipped|]. split; [apply printed_is_near|apply weight_inverse].
Qed.
Theorem fxye_angles_lost isdir fs tth ys es name dir k :
  (forall d, dir = Some d -> isdir d = true) -> has_stem name -> one_line name ->
  length tth = length ys -> length es = length ys -> (2 <= length ys)%nat ->
  decades ys k -> (0 < k)%nat ->
  (forall y, In y ys -> qz (-999999999) <= y / ten k)%Qc -> (forall e, In e es -> qz (-99999999999) <= e / ten k /\ e / ten k <= qz 99999999999)%Qc ->
  exists pts, writes isdir fs tth ys name (Some "FXYE"%string) (Some es) dir pts /\
    forall i t0, nth_error tth i = Some t0 -> (1 <= t0)%Qc -> exists t v w, nth_error pts i = Some (t, v, w) /\ (t * qz 5 < t0)%Qc.
Proof.
  intros D ST ON L LE N DE K BY BE. destruct (proj2 DE 0%nat K) as (y & I & G).
  assert (P : (0 <= y)%Qc). { apply Qclt_le_weak. eapply Qclt_trans; [|exact G]. reflexivity. }
  destruct (fxye_read_back isdir fs tth ys es name dir k) as (pts & W & LP & H); auto. { exists y. auto. }
  exists pts. split; [exact W|]. intros i t0 Et T1.
  assert (Hi : (i < length ys)%nat) by (rewrite <- L; apply nth_error_Some; congruence).
  destruct (nth_error ys i) as [yi|] eqn:Ey; [|apply nth_error_None in Ey; lia]. destruct (nth_error es i) as [ei|] eqn:Ee; [|apply nth_error_None in Ee; lia].
  destruct (H i t0 yi ei Et Ey Ee) as (t & v & w & p & u & Q & [A _] & _). exists t, v, w. split; [exact Q|].
  assert (B : (t0 / ten k <= t0 / qz 10)%Qc).
  { unfold ten. destruct k as [|k']; [lia|]. rewrite Nat2Z.inj_succ, Z.pow_succ_r, qz_mul by lia.
    assert (PK : (1 <= qz (10 ^ Z.of_nat k'))%Qc) by (apply (qz_le 1); pose proof (pow10_pos k'); lia). set (q := qz (10 ^ Z.of_nat k')) in *.
    assert (Q0 : q <> 0%Qc) by (intros E; rewrite E in PK; now apply PK).
    replace (t0 / (qz 10 * q))%Qc with (t0 / qz 10 / q)%Qc by (field; repeat split; try exact Q0; intros E; discriminate E).
    apply Qc_div_le; [eapply Qclt_le_trans; [|exact PK]; reflexivity|].
    assert (T0 : (0 <= t0 / qz 10)%Qc). { apply Qclt_le_weak, Qc_div_pos; [|reflexivity]. eapply Qclt_le_trans; [|exact T1]. reflexivity. }
    set (r := (t0 / qz 10)%Qc) in *. clearbody r q. replace r with (1 * r)%Qc at 1 by ring. rewrite (Qcmult_comm r q). now apply Qcmult_le_compat_r. }
  assert (C10 : (t0 / qz 10 * qz 10 = t0)%Qc) by (field; intros E; discriminate E).
  assert (S : (1 / qz (2 * 10 ^ Z.of_nat 10) * qz 100 < qz 1)%Qc) by reflexivity. change 1%Qc with (qz 1) in T1.
  set (h := (1 / qz (2 * 10 ^ Z.of_nat 10))%Qc) in *. set (r := (t0 / qz 10)%Qc) in *. set (tk := (t0 / ten k)%Qc) in *. clearbody h r tk.
  qclra.
Qed.
(** *** the file system *)
Theorem save_output_all_or_nothing isdir fs tth ys name qt ext err dir fs' r :
  save_output isdir fs tth ys name qt ext err dir = (fs', r) ->
  let p := match dir with None => name | Some d => path_in d name end ++ ext in
  (forall q, q <> p -> fget fs' q = fget fs q) /\ fget fs' p = match r with Some _ => fget fs p | None => Some (Columns tth ys err) end /\
  (r = None <-> (qt = "Q"%string \/ qt = "2theta"%string) /\ length tth = length ys /\ (forall e, err = Some e -> length e = length ys) /\ (err = None -> ext <> txt ".xye") /\ (forall d, dir = Some d -> isdir d = true)).
Proof.
  intros H. cbv zeta. unfold save_output in H.
  destruct (String.eqb qt "Q" || String.eqb qt "2theta") eqn:EQ; cbn [negb] in H; cycle 1.
  { injection H as <- <-. repeat split; try discriminate. intros ([-> | ->] & _); discriminate EQ. }
  assert (Q : qt = "Q"%string \/ qt = "2theta"%string).
  { apply orb_prop in EQ as [E|E]; apply String.eqb_eq in E; auto. }
  destruct (valid tth ys err ext) eqn:EV; cbn [negb] in H; unfold valid in EV; cycle 1.
  { injection H as <- <-. repeat split; try discriminate. intros (_ & A & B & C & _). exfalso. rewrite A, Nat.eqb_refl in EV. destruct err as [e|].
    - rewrite (B e eq_refl), Nat.eqb_refl in EV. discriminate.
    - destruct (teqb ext (txt ".xye")) eqn:T; [apply teqb_eq in T; now apply C|discriminate]. }
  apply andb_prop in EV as [V1 V2]. apply Nat.eqb_eq in V1.
  assert (V3 : forall e, err = Some e -> length e = length ys) by (intros e ->; apply Nat.eqb_eq in V2; auto).
  assert (V4 : err = None -> ext <> txt ".xye") by (intros -> ->; rewrite teqb_refl in V2; discriminate).
  unfold create_file_path in H. destruct dir as [d|].
  - rewrite join_path in H. destruct (isdir d) eqn:ED; injection H as <- <-.
    + split; [|split]; [|apply fget_put|].
      * intros q N. rewrite fget_put_other, fget_del_other by exact N. reflexivity.
      * split; [|reflexivity]. intros _. repeat split; auto. intros d' [= <-]. exact ED.
    + repeat split; try discriminate. intros (_ & _ & _ & _ & A). rewrite (A d eq_refl) in ED. discriminate.
  - injection H as <- <-. split; [|split]; [|apply fget_put|].
    + intros q N. rewrite fget_put_other, fget_del_other by exact N. reflexivity.
    + split; [|reflexivity]. intros _. repeat split; auto. discriminate.
Qed.
Lemma valid_gsas tth ys err : valid tth ys err (txt ".gsas") = true <-> length tth = length ys /\ (forall e, err = Some e -> length e = length ys).
Proof.
  unfold valid. rewrite andb_true_iff, Nat.eqb_eq. destruct err as [e|].
  - rewrite Nat.eqb_eq. split; intros [A B]; split; auto. { intros e' [= <-]. auto. } symmetry. auto.
  - split; intros [A B]; split; auto. discriminate.
Qed.
Lemma writer_cases isdir fs tth ys name mode err dir fs' r :
  gsas_writer isdir fs tth ys name mode err dir = (fs', r) ->
  (~ accepted isdir tth ys err dir /\ fs' = fs /\ r = Some ValueErr) \/
  (accepted isdir tth ys err dir /\ match gsas_text tth ys name mode err with
     | inl t => fs' = fput (fdel fs (outfile dir name)) (outfile dir name) (Text t) /\ r = None
     | inr e => fs' = fdel fs (outfile dir name) /\ r = Some e end).
Proof.
  intros H. unfold gsas_writer in H. destruct (valid tth ys err (txt ".gsas")) eqn:V; cbn [negb] in H.
  - apply valid_gsas in V as [V1 V2]. destruct dir as [d|].
    + unfold create_file_path in H. destruct (isdir d) eqn:ED.
      * right. split; [repeat split; auto; intros d' [= <-]; exact ED|]. unfold outfile. rewrite <- join_path. destruct (gsas_text tth ys name mode err); injection H as <- <-; auto.
      * left. injection H as <- <-. repeat split. intros (_ & _ & A). rewrite (A d eq_refl) in ED. discriminate.
    + right. split; [repeat split; auto; discriminate|]. unfold outfile. cbn [create_file_path] in H. destruct (gsas_text tth ys name mode err); injection H as <- <-; auto.
  - left. injection H as <- <-. repeat split. intros (A & B & _). rewrite (proj2 (valid_gsas tth ys err) (conj A B)) in V. discriminate.
Qed.
Lemma text_fails tth ys name mode err : length tth = length ys -> length ys <> 1%nat ->
  (exists t, gsas_text tth ys name mode err = inl t) <-> (exists y, In y ys /\ (0 <= y)%Qc) /\ known_mode mode err.
Proof.
  intros L N. unfold gsas_text. destruct (qmax ys) as [m|] eqn:M; cycle 1.
  { split; [intros [t H]; discriminate|]. intros ((y & I & P) & _). destruct (qmax_nonneg ys y I P) as (m & E & _). congruence. }
  destruct (Qc_ltb_spec m 0%Qc) as [H|H].
  { split; [intros [t X]; discriminate|]. intros ((y & I & P) & _). exfalso. pose proof (qmax_ge ys m M y I). apply (Qcle_not_lt _ _ (Qcle_trans _ _ _ P H0) H). }
  rewrite L. destruct (Nat.eqb_spec (length ys) 1) as [E|_]; [contradiction|]. apply Qcnot_lt_le in H.
  assert (Y : exists y, In y ys /\ (0 <= y)%Qc) by (exists m; split; [now apply qmax_in|exact H]). cbv zeta.
  destruct err as [e|]; [|split; [intros _; split; [exact Y|now left]|intros _; eexists; reflexivity]].
  destruct mode as [md|].
  - destruct (String.eqb_spec md "STD") as [->|N1]; [split; [intros _; split; [exact Y|unfold known_mode; auto]|intros _; eexists; reflexivity]|].
    destruct (String.eqb_spec md "ESD") as [->|N2]; [split; [intros _; split; [exact Y|unfold known_mode; auto]|intros _; eexists; reflexivity]|].
    destruct (String.eqb_spec md "FXYE") as [->|N3]; [split; [intros _; split; [exact Y|unfold known_mode; auto]|intros _; eexists; reflexivity]|].
    split; [intros [t X]; discriminate|]. intros (_ & [X|[X|[X|X]]]); congruence.
  - split; [intros [t X]; discriminate|]. intros (_ & [X|[X|[X|X]]]); congruence.
Qed.
Theorem gsas_writer_effects isdir fs tth ys name mode err dir fs' r : length ys <> 1%nat ->
  gsas_writer isdir fs tth ys name mode err dir = (fs', r) ->
  (forall q, q <> outfile dir name -> fget fs' q = fget fs q) /\
  (~ accepted isdir tth ys err dir -> r <> None /\ fget fs' (outfile dir name) = fget fs (outfile dir name)) /\
  (accepted isdir tth ys err dir ->
     ((exists y, In y ys /\ (0 <= y)%Qc) /\ known_mode mode err -> r = None /\ exists t, fget fs' (outfile dir name) = Some (Text t)) /\
     (~ ((exists y, In y ys /\ (0 <= y)%Qc) /\ known_mode mode err) -> r <> None /\ fget fs' (outfile dir name) = None)).
Proof.
  intros N H. destruct (writer_cases isdir fs tth ys name mode err dir fs' r H) as [(A & -> & ->)|(A & C)].
  - split; [reflexivity|]. split; [intros _; split; [discriminate|reflexivity]|]. contradiction.
  - pose proof (text_fails tth ys name mode err (proj1 A) N) as F. destruct (gsas_text tth ys name mode err) as [t|e] eqn:T; destruct C as [-> ->].
    + split; [intros q NQ; rewrite fget_put_other, fget_del_other by exact NQ; reflexivity|]. split; [contradiction|]. intros _. split.
      * intros _. split; [reflexivity|]. exists t. apply fget_put.
      * intros X. exfalso. apply X, F. eauto.
    + split; [intros q NQ; now apply fget_del_other|]. split; [contradiction|]. intros _. split.
      * intros X. apply F in X as [t X]. discriminate.
      * intros _. split; [discriminate|apply fget_del].
Qed.
Theorem reader_needs_stem fs p : (forall t, fget fs p <> Some (Text t)) \/ extension p <> txt ".gsas" -> gsas_reader fs p = inr IOErr.
Proof.
  intros H. unfold gsas_reader. destruct (teqb (extension p) (txt ".gsas")) eqn:E; [|reflexivity]. cbn [negb].
  destruct H as [H|H]; [|apply teqb_eq in E; contradiction]. destruct (fget fs p) as [[t|]|]; try reflexivity. destruct (H t eq_refl).
Qed.
