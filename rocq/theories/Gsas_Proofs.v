(* Reading back what was written. *)
From Coq Require Import Qround.
From Verif Require Import Common QcArith BinStat_Model BinStat_Main Text_Model Text_Proofs Gsas_Model.
Open Scope list_scope.

(** ** The scale *)
Lemma qmax_ge l m : qmax l = Some m -> forall x, In x l -> (x <= m)%Qc.
Proof.
  revert m. induction l as [|a l IH]; intros m; cbn; [discriminate|]. destruct (qmax l) as [m'|] eqn:E.
  - intros H x. apply some_inj in H. specialize (IH m' eq_refl). destruct (Qc_ltb_spec a m') as [L|L]; subst m.
    + intros [->|I]; [now apply Qclt_le_weak|auto].
    + apply Qcnot_lt_le in L. intros [->|I]; [apply Qcle_refl|]. eapply Qcle_trans; [now apply IH|exact L].
  - intros H x. apply some_inj in H. subst m. destruct l; [|cbn in E; destruct (qmax l); discriminate]. intros [->|[]]. apply Qcle_refl.
Qed.
Lemma qmax_in l m : qmax l = Some m -> In m l.
Proof.
  revert m. induction l as [|a l IH]; intros m; cbn; [discriminate|]. destruct (qmax l) as [m'|].
  - intros H. apply some_inj in H. specialize (IH m' eq_refl). destruct (Qc_ltb a m'); subst m; auto.
  - intros H. apply some_inj in H. auto.
Qed.
Lemma qmax_some l : l <> [] -> exists m, qmax l = Some m.
Proof. destruct l as [|a l]; [congruence|]. cbn. destruct (qmax l); eauto. Qed.
Lemma seq_find (f : nat -> bool) : forall n s k, find f (seq s n) = Some k -> f k = true /\ (s <= k)%nat /\ forall j, (s <= j < k)%nat -> f j = false.
Proof.
  induction n as [|n IH]; intros s k; cbn; [discriminate|]. destruct (f s) eqn:E.
  - intros [= <-]. repeat split; auto. lia.
  - intros H. destruct (IH _ _ H) as (A & B & C). repeat split; [exact A|lia|]. intros j J. destruct (Nat.eq_dec j s) as [->|]; [exact E|apply C; lia].
Qed.
Lemma scale_exp_ok m : (0 <= m)%Qc -> (m <= qz (999999 * 10 ^ Z.of_nat (scale_exp m)))%Qc /\
  forall k, (k < scale_exp m)%nat -> (qz (999999 * 10 ^ Z.of_nat k) < m)%Qc.
Proof.
  intros P. unfold scale_exp. destruct (find _ _) as [k|] eqn:F.
  - destruct (seq_find _ _ _ _ F) as (A & _ & B). destruct (Qc_leb_spec m (qz (999999 * 10 ^ Z.of_nat k))); [|discriminate]. split; [assumption|].
    intros j J. specialize (B j ltac:(lia)). destruct (Qc_leb_spec m (qz (999999 * 10 ^ Z.of_nat j))); [discriminate|]. now apply Qcnot_le_lt.
  - exfalso. set (c := Qceiling (this m)) in *. set (len := length (dec c)) in *.
    pose proof (find_none _ _ F len ltac:(apply in_seq; lia)) as N. cbn beta in N. destruct (Qc_leb_spec m (qz (999999 * 10 ^ Z.of_nat len))) as [|N']; [discriminate|]. apply N'.
    assert (C : (m <= qz c)%Qc).
    { unfold Qcle. rewrite qz_this. apply Qle_ceiling. }
    eapply Qcle_trans; [exact C|]. apply qz_le.
    assert (C0 : (0 <= c)%Z).
    { apply (proj1 (qz_le 0 c)). eapply Qcle_trans; [exact P|exact C]. }
    destruct (dec_ok c C0) as (_ & A & V & _).
    assert (B : (num (dec c) 0 < 10 ^ Z.of_nat (length (dec c)))%Z).
    { clear - A. induction A as [|x s H A IH]; [reflexivity|]. unfold isdigit in H. destruct (undigit x) as [d|] eqn:E; [|discriminate].
      assert (D : (0 <= d <= 9)%Z) by (unfold undigit in E; destruct (_ && _) eqn:G; [injection E as <-; lia|discriminate]).
      change (x :: s) with ([x] ++ s). rewrite num_app; [|constructor; [unfold isdigit; now rewrite E|constructor]|exact A].
      rewrite (num_shift s A). replace (num [x] 0) with d by (unfold num; cbn; rewrite E; cbn; lia).
      cbn [app length]. rewrite Nat2Z.inj_succ, Z.pow_succ_r by lia. nia. }
    rewrite V in B. fold len in B. pose proof (pow10_pos len). lia.
Qed.
Lemma scale_exp_small m : (m <= qz 999999)%Qc -> scale_exp m = O.
Proof.
  intros H. unfold scale_exp. cbn [seq find]. destruct (Qc_leb_spec m (qz (999999 * 10 ^ Z.of_nat 0))) as [_|N]; [reflexivity|]. exfalso. apply N. exact H.
Qed.
Lemma scale_pos k : (0 < scale_of k)%Qc.
Proof. unfold scale_of. apply Qc_div_pos; [reflexivity|]. apply (qz_lt 0). apply pow10_pos. Qed.
Lemma scale_le1 k : (scale_of k <= 1)%Qc.
Proof.
  unfold scale_of. apply Qc_div_le; [apply (qz_lt 0), pow10_pos|]. rewrite Qcmult_1_l. apply (qz_le 1). pose proof (pow10_pos k). lia.
Qed.
Lemma scaled_max m k x : (m <= qz (999999 * 10 ^ Z.of_nat k))%Qc -> (x <= m)%Qc -> (x * scale_of k <= qz 999999)%Qc.
Proof.
  intros M X. unfold scale_of. assert (NZ : qz (10 ^ Z.of_nat k) <> 0%Qc) by (apply qz_neq0; pose proof (pow10_pos k); lia).
  replace (x * (1 / qz (10 ^ Z.of_nat k)))%Qc with (x / qz (10 ^ Z.of_nat k))%Qc by (field; exact NZ).
  apply Qc_div_le; [apply (qz_lt 0), pow10_pos|]. rewrite <- qz_mul. eapply Qcle_trans; eauto.
Qed.
(** ** Field widths *)
Lemma round_le x z : (x <= qz z)%Qc -> (qround_even x <= z)%Z.
Proof.
  intros H. destruct (round_near x) as [A _]. destruct (Z_le_gt_dec (qround_even x) z) as [|G]; [assumption|exfalso].
  assert (B : (qz (z + 1) <= qz (qround_even x))%Qc) by (apply qz_le; lia). rewrite qz_add, qz_1 in B.
  assert (HH : (Q2Qc (1 # 2) + Q2Qc (1 # 2) = 1)%Qc) by (apply Qc_is_canon; reflexivity). set (h := Q2Qc (1 # 2)) in *.
  assert (P : (0 < h)%Qc) by reflexivity. set (r := qz (qround_even x)) in *. clearbody h r. qclra.
Qed.
Definition neg_len (x : Qc) : nat := if Qc_ltb x 0%Qc then 1 else 0.
Lemma fixed_len d x k : (0 < k)%nat -> (Qc_abs x <= qz (10 ^ Z.of_nat k - 1))%Qc ->
  (length (fixed_text d x) <= neg_len x + k + match d with O => 0 | _ => S d end)%nat.
Proof.
  intros K B. unfold fixed_text. rewrite app_length.
  assert (M : length (minus (Qc_ltb x 0%Qc)) = neg_len x) by (unfold neg_len; now destruct (Qc_ltb x 0%Qc)). rewrite M.
  pose proof (fix_nonneg d x) as N. assert (U : (fix_digits d x <= (10 ^ Z.of_nat k - 1) * 10 ^ Z.of_nat d)%Z).
  { apply round_le. rewrite qz_mul. apply Qcmult_le_compat_r; [exact B|]. apply (qz_le 0). pose proof (pow10_pos d). lia. }
  set (r := fix_digits d x) in *. destruct d as [|d].
  - destruct (dec_ok r N) as (_ & _ & _ & L). specialize (L k K). cbn [Z.of_nat] in U. rewrite Z.pow_0_r in U. pose proof (pow10_pos k). lia.
  - assert (P := pow10_pos (S d)). set (p := (10 ^ Z.of_nat (S d))%Z) in *.
    destruct (dec_ok (r / p)%Z (Z.div_pos _ _ N P)) as (_ & _ & _ & L). specialize (L k K).
    destruct (zfill_ok (S d) (r mod p)%Z (Z.mod_pos_bound _ _ P) ltac:(lia)) as (L2 & _ & _).
    rewrite app_length. cbn [length]. rewrite L2. pose proof (pow10_pos k).
    assert (r / p < 10 ^ Z.of_nat k)%Z by (apply Z.div_lt_upper_bound; nia). specialize (L ltac:(assumption)). lia.
Qed.
(** a value between -10^(k-1) and 10^k fits k characters *)
Lemma fit0 x w : (1 < w)%nat -> (qz (1 - 10 ^ Z.of_nat (w - 1)) <= x)%Qc -> (x <= qz (10 ^ Z.of_nat w - 1))%Qc -> length (fmt_f w 0 x) = w.
Proof.
  intros W A B. unfold fmt_f. apply rjust_len. destruct (Qc_ltb_spec x 0%Qc) as [H|H].
  - pose proof (fixed_len 0 x (w - 1) ltac:(lia)) as L. unfold neg_len, Qc_abs in L. destruct (Qc_ltb_spec x 0%Qc) as [_|N]; [|contradiction].
    assert (length (fixed_text 0 x) <= 1 + (w - 1) + 0)%nat; [|lia]. apply L. replace (10 ^ Z.of_nat (w - 1) - 1)%Z with (- (1 - 10 ^ Z.of_nat (w - 1)))%Z by lia.
    rewrite qz_opp. qclra.
  - pose proof (fixed_len 0 x w ltac:(lia)) as L. unfold neg_len, Qc_abs in L. destruct (Qc_ltb_spec x 0%Qc) as [N|_]; [contradiction|]. cbn [Nat.add] in L. rewrite Nat.add_0_r in L. now apply L.
Qed.
(** ** Lines *)
Lemma fmt_oneline w d x : oneline (fmt_f w d x).
Proof.
  unfold fmt_f, rjust, oneline. apply Forall_app. split.
  - unfold spaces. apply Forall_forall. intros c I. apply repeat_spec in I. subst. split; intros E; discriminate E.
  - destruct (fixed_solid d x) as [_ F]. eapply Forall_impl; [|exact F]. cbn. tauto.
Qed.
Lemma int_oneline w n : oneline (fmt_i w n).
Proof.
  unfold fmt_i, rjust, oneline. apply Forall_app. split.
  - unfold spaces. apply Forall_forall. intros c I. apply repeat_spec in I. subst. split; intros E; discriminate E.
  - destruct (int_solid n) as [_ F]. eapply Forall_impl; [|exact F]. cbn. tauto.
Qed.
Lemma spaces_oneline n : oneline (spaces n).
Proof. unfold spaces. apply Forall_forall. intros c I. apply repeat_spec in I. subst. split; intros E; discriminate E. Qed.
Lemma app_oneline a b : oneline a -> oneline b -> oneline (a ++ b).
Proof. intros. apply Forall_app. now split. Qed.
Lemma ljust_oneline w s : oneline s -> oneline (ljust w s).
Proof. intros. apply app_oneline; [assumption|apply spaces_oneline]. Qed.
Lemma firstn_oneline n s : oneline s -> oneline (firstn n s).
Proof. intros H. apply Forall_forall. intros c I. apply (proj1 (Forall_forall _ _) H). rewrite <- (firstn_skipn n s). apply in_or_app. now left. Qed.
Lemma concat_oneline l : Forall oneline l -> oneline (List.concat l).
Proof. induction 1; cbn; [constructor|now apply app_oneline]. Qed.
Lemma txt_oneline s : forallb (fun c => negb (Ascii.eqb c cr || Ascii.eqb c lf)) (txt s) = true -> oneline (txt s).
Proof.
  intros H. apply Forall_forall. intros c I. rewrite forallb_forall in H. specialize (H c I).
  destruct (Ascii.eqb_spec c cr); [discriminate|]. destruct (Ascii.eqb_spec c lf); [discriminate|]. now split.
Qed.
Lemma digits_oneline s : alldigits s -> oneline s.
Proof. intros H. eapply Forall_impl; [|apply digits_solid, H]. cbn. tauto. Qed.
Lemma title_oneline name k : oneline name -> oneline (title name k).
Proof.
  intros H. unfold title. apply ljust_oneline, firstn_oneline. repeat apply app_oneline; try (apply txt_oneline; reflexivity); [exact H|].
  unfold scale_text. destruct k as [|k]; [apply txt_oneline; reflexivity|]. destruct (S k <? 5)%nat.
  - repeat apply app_oneline; try (apply txt_oneline; reflexivity). apply digits_oneline, zeros_ok.
  - apply app_oneline; [apply txt_oneline; reflexivity|]. unfold zfill. apply app_oneline; apply digits_oneline; [apply zeros_ok|]. apply dec_ok. lia.
Qed.
Lemma cons_oneline (c : ascii) s : c <> cr -> c <> lf -> oneline s -> oneline (c :: s).
Proof. constructor; auto. Qed.
Lemma bank_oneline n nrec a b md : oneline (txt md) -> oneline (ljust 80 (bank n nrec a b md)).
Proof.
  intros H. apply ljust_oneline. unfold bank.
  repeat (exact H || apply int_oneline || apply fmt_oneline || (apply txt_oneline; reflexivity) || (apply cons_oneline; [intros E; discriminate E|intros E; discriminate E|]) || apply app_oneline).
Qed.
Lemma chunks_oneline w : forall fuel recs, Forall oneline recs -> Forall oneline (chunks fuel w recs).
Proof.
  induction fuel as [|f IH]; intros recs H; cbn; [constructor|]. destruct recs as [|r recs]; [constructor|].
  constructor; [|apply IH].
  - apply concat_oneline. apply Forall_forall. intros c I. apply (proj1 (Forall_forall _ _) H). rewrite <- (firstn_skipn w (r :: recs)). apply in_or_app. now left.
  - apply Forall_forall. intros c I. apply (proj1 (Forall_forall _ _) H). rewrite <- (firstn_skipn w (r :: recs)). apply in_or_app. now right.
Qed.
Lemma pad_last_oneline l : Forall oneline l -> Forall oneline (pad_last l).
Proof.
  induction 1 as [|x l H F IH]; [constructor|]. cbn. destruct l as [|y l]; [constructor; [now apply ljust_oneline|constructor]|]. now constructor.
Qed.
Lemma pad_last_cons x y l : pad_last (x :: y :: l) = x :: pad_last (y :: l). Proof. reflexivity. Qed.
(** the fields of the lines written are the records, then blanks up to a full line *)
Lemma fields_chop w n s : fields w n s = chop w n s. Proof. reflexivity. Qed.
Lemma chunk_fields wid w : (0 < w)%nat -> (0 < wid)%nat -> (w * wid = 80)%nat -> forall fuel (recs : list text), recs <> [] -> (length recs <= fuel)%nat -> Forall (fun r : text => length r = wid) recs ->
  exists b c, (b < w)%nat /\ (length recs + b = c * w)%nat /\ chunks fuel w recs <> [] /\
    flat_map (fields wid w) (map (fun l : text => l ++ [lf]) (pad_last (chunks fuel w recs))) = recs ++ repeat (spaces wid) b.
Proof.
  intros W Wi E80. induction fuel as [|f IH]; intros recs NE Len F; [destruct recs; [congruence|cbn in Len; lia]|].
  cbn [chunks]. destruct recs as [|r0 recs0] eqn:ER; [congruence|]. rewrite <- ER in *. clear ER r0 recs0.
  assert (CL : forall l, Forall (fun r : text => length r = wid) l -> length (List.concat l) = (length l * wid)%nat).
  { induction 1 as [|r l H _ IHl]; [reflexivity|]. cbn. rewrite app_length, IHl, H. lia. }
  destruct (le_lt_dec (length recs) w) as [S|B].
  - rewrite (firstn_all2 recs) by exact S. rewrite (skipn_all2 recs) by exact S.
    match goal with |- context [chunks f w ?e] => replace (chunks f w e) with (@nil text) by (destruct f; reflexivity) end.
    cbn [pad_last map flat_map]. rewrite app_nil_r. unfold ljust. rewrite (CL _ F).
    exists (w - length recs)%nat, 1%nat. assert (0 < length recs)%nat by (destruct recs; [congruence|cbn; lia]).
    split; [lia|]. split; [lia|]. split; [discriminate|].
    rewrite fields_chop. replace w with (length recs + (w - length recs))%nat at 1 by lia. rewrite <- app_assoc, chop_recs by exact F. f_equal.
    replace (80 - length recs * wid)%nat with ((w - length recs) * wid)%nat by nia. now apply chop_blank.
  - assert (F1 : Forall (fun r : text => length r = wid) (firstn w recs)).
    { apply Forall_forall. intros c I. apply (proj1 (Forall_forall _ _) F). rewrite <- (firstn_skipn w recs). apply in_or_app. now left. }
    assert (F2 : Forall (fun r : text => length r = wid) (skipn w recs)).
    { apply Forall_forall. intros c I. apply (proj1 (Forall_forall _ _) F). rewrite <- (firstn_skipn w recs). apply in_or_app. now right. }
    assert (L2 : length (skipn w recs) = (length recs - w)%nat) by apply skipn_length.
    destruct (IH (skipn w recs)) as (b & c & Hb & Hc & NE2 & R); [intros Z; rewrite Z in L2; cbn in L2; lia|lia|exact F2|].
    exists b, (S c). split; [exact Hb|]. split; [lia|]. split; [discriminate|].
    destruct (chunks f w (skipn w recs)) as [|y ys]; [congruence|]. rewrite pad_last_cons. cbn [map flat_map]. rewrite R.
    rewrite fields_chop. assert (L1 : length (firstn w recs) = w) by (rewrite firstn_length; lia).
    replace w with (length (firstn w recs) + 0)%nat at 1 by lia. rewrite chop_recs by exact F1. rewrite app_nil_r, app_assoc. f_equal. apply firstn_skipn.
Qed.
(** ** The bank line *)
Lemma solid_txt s : negb (String.eqb s "") && forallb (fun c => negb (isspace c)) (txt s) = true -> solid (txt s).
Proof.
  intros H. apply andb_prop in H as [A B]. split; [destruct s; [discriminate|discriminate]|].
  apply Forall_forall. intros c I. rewrite forallb_forall in B. specialize (B c I). destruct (isspace c) eqn:S; [discriminate|]. split; [reflexivity|]. split; intros ->; discriminate S.
Qed.
Lemma bank_words n nrec a b md tail : solid (txt md) -> words_aux [] ((bank n nrec a b md ++ spaces tail) ++ [lf]) =
  [txt "BANK"; int_text 1; int_text (Z.of_nat n); int_text (Z.of_nat nrec); txt "CONST"; fixed_text 5 a; fixed_text 5 b; fixed_text 5 0%Qc; fixed_text 5 0%Qc; txt md].
Proof.
  intros SM. unfold bank.
  assert (B : forall r, txt "BANK " ++ r = txt "BANK" ++ sp :: r) by reflexivity.
  assert (C : forall r, txt " CONST " ++ r = sp :: txt "CONST" ++ sp :: r) by reflexivity.
  rewrite B, C. repeat (rewrite <- app_assoc || rewrite <- app_comm_cons).
  rewrite (words_tok (txt "BANK")) by (try apply solid_txt; reflexivity).
  unfold fmt_i, fmt_f. rewrite (words_field 5) by (try apply int_solid; reflexivity). rewrite (words_field 8) by (try apply int_solid; reflexivity).
  rewrite (words_field 8) by (try apply int_solid; reflexivity). rewrite (words_tok (txt "CONST")) by (try apply solid_txt; reflexivity).
  rewrite !(words_field 9) by (try apply fixed_solid; reflexivity).
  do 9 f_equal. destruct tail as [|t].
  - cbn [spaces repeat app]. rewrite (words_tok (txt md)) by (try exact SM; reflexivity). reflexivity.
  - change (spaces (S t) ++ [lf]) with (sp :: spaces t ++ [lf]). rewrite (words_tok (txt md)) by (try exact SM; reflexivity). rewrite words_spaces. reflexivity.
Qed.
(** ** Reading back *)
Lemma file_lines t b lines : lines <> [] -> oneline t -> oneline b -> Forall oneline lines ->
  readlines (flat_map (fun l => l ++ [cr; lf]) (pad_last (t :: b :: lines))) = (t ++ [lf]) :: (b ++ [lf]) :: map (fun l : text => l ++ [lf]) (pad_last lines).
Proof.
  intros NE T B L. destruct lines as [|x lines]; [congruence|]. rewrite !pad_last_cons, readlines_file; [reflexivity|].
  constructor; [exact T|]. constructor; [exact B|]. now apply pad_last_oneline.
Qed.
Lemma sub_left (a b : text) w : length a = w -> sub 0 w (a ++ b) = a.
Proof. intros <-. unfold sub. cbn [skipn]. rewrite firstn_app, firstn_all, Nat.sub_diag. cbn. apply app_nil_r. Qed.
Lemma sub_right (a b : text) w v : length a = w -> length b = v -> sub w v (a ++ b) = b.
Proof. intros <- <-. unfold sub. rewrite skipn_app, skipn_all, Nat.sub_diag. cbn. apply firstn_all. Qed.
Lemma sfloat_fmt w d x : sfloat (fmt_f w d x) = Some (printed d x).
Proof.
  unfold sfloat, fmt_f. rewrite strip_rjust by apply fixed_solid. destruct (fixed_text d x) eqn:E; [|rewrite <- E; apply parse_fixed].
  destruct (fixed_solid d x) as [N _]. congruence.
Qed.
Fixpoint mapi {A B} (f : nat -> A -> B) (j : nat) (l : list A) : list B := match l with [] => [] | x :: r => f j x :: mapi f (S j) r end.
Lemma mapi_len {A B} (f : nat -> A -> B) l : forall j, length (mapi f j l) = length l.
Proof. induction l; intros; cbn; auto. Qed.
Lemma mapi_nth {A B} (f : nat -> A -> B) l : forall j i, nth_error (mapi f j l) i = match nth_error l i with Some x => Some (f (j + i)%nat x) | None => None end.
Proof.
  induction l as [|x l IH]; intros j [|i]; cbn; try reflexivity; [now rewrite Nat.add_0_r|]. rewrite IH, <- Nat.add_succ_comm. reflexivity.
Qed.
Lemma mapi_app {A B} (f : nat -> A -> B) a b : forall j, mapi f j (a ++ b) = mapi f j a ++ mapi f (j + length a) b.
Proof. induction a as [|x a IH]; intros j; cbn; [now rewrite Nat.add_0_r|]. now rewrite IH, <- Nat.add_succ_comm. Qed.
Lemma mapi_map {A B C} (f : nat -> B -> C) (g : A -> B) l : forall j, mapi f j (map g l) = mapi (fun i x => f i (g x)) j l.
Proof. induction l; intros; cbn; [reflexivity|]. now rewrite IHl. Qed.
Definition recip_or_0 (v : Qc) : Qc := if Qc_ltb 0%Qc v then (1 / v)%Qc else 0%Qc.
Definition std_pt (start step s : Qc) (j : nat) (y : Qc) : point :=
  ((start + step * qn j)%Qc, qpos (printed 0 (y * s)%Qc), recip_or_0 (printed 0 (y * s)%Qc)).
Definition small_std (s y : Qc) : Prop := (qz (-99999) <= y * s)%Qc /\ (y * s <= qz 999999)%Qc.
Lemma std_rec_len s y : small_std s y -> length (std_rec s y) = 8%nat.
Proof. intros [A B]. unfold std_rec. rewrite app_length, fit0; [reflexivity|lia|exact A|exact B]. Qed.
Lemma blank_sub i w n : (i + w <= n)%nat -> sub i w (spaces n) = spaces w.
Proof.
  intros H. unfold sub, spaces. replace n with (i + (w + (n - i - w)))%nat by lia. rewrite !repeat_app.
  rewrite skipn_app, repeat_length, Nat.sub_diag, skipn_all2 by (rewrite repeat_length; lia). cbn [app skipn].
  rewrite firstn_app, repeat_length, Nat.sub_diag, firstn_all2 by (rewrite repeat_length; lia). cbn. apply app_nil_r.
Qed.
Lemma std_points_ok start step s n : forall ys j b, Forall (small_std s) ys -> (j + length ys = n)%nat ->
  std_points start step (qn n) j (map (std_rec s) ys ++ repeat (spaces 8) b) = Some (mapi (std_pt start step s) j ys).
Proof.
  induction ys as [|y ys IH]; intros j b F J.
  - cbn [map app mapi]. cbn in J. assert (G : (n <= j)%nat) by lia. clear J. revert j G. induction b as [|b IHb]; intros j G; [reflexivity|].
    cbn [repeat std_points]. rewrite !blank_sub by lia. change (sint (spaces 2)) with (Some 0%Z). change (sfloat (spaces 6)) with (Some 0%Qc). cbn [bind].
    rewrite IHb by lia. cbn [bind]. destruct (Qc_ltb_spec (qn j) (qn n)) as [H|_]; [apply qn_lt_inv in H; lia|reflexivity].
  - inversion F as [|? ? P F']; subst. cbn [map app std_points]. unfold std_rec at 1 2.
    rewrite sub_left by reflexivity. rewrite sub_right; [|reflexivity|destruct P as [A B]; apply fit0; [lia|exact A|exact B]].
    change (sint (fmt_i 2 1)) with (Some 1%Z). rewrite sfloat_fmt. cbn [bind]. rewrite IH by (auto; cbn [length] in *; lia). cbn [bind].
    destruct (Qc_ltb_spec (qn j) (qn (j + length (y :: ys)))) as [_|H]; [|exfalso; apply H, qn_lt; cbn; lia].
    cbn [mapi]. unfold std_pt at 2. change (Z.max 1 1) with 1%Z. f_equal. f_equal.
    set (v := printed 0 (y * s)%Qc). unfold qpos, recip_or_0. rewrite qz_1.
    destruct (Qc_ltb_spec 0%Qc v) as [H|H].
    + replace (v / 1)%Qc with v by (field; intros E; discriminate E). destruct (Qc_leb_spec v 0%Qc) as [N|_]; [exfalso; qclra|reflexivity].
    + replace (0 / 1)%Qc with 0%Qc by reflexivity. reflexivity.
Qed.
Lemma in_Forall_map {A B} (f : A -> B) (P : B -> Prop) l : (forall x, In x l -> P (f x)) -> Forall P (map f l).
Proof. intros H. apply Forall_forall. intros y I. apply in_map_iff in I as (x & <- & I). auto. Qed.
Lemma std_rec_oneline s y : oneline (std_rec s y). Proof. apply app_oneline; [apply int_oneline|apply fmt_oneline]. Qed.
Lemma esd_rec_oneline s p : oneline (esd_rec s p). Proof. apply app_oneline; apply fmt_oneline. Qed.
Lemma fxye_rec_oneline s p : oneline (fxye_rec s p). Proof. apply app_oneline; [|apply app_oneline]; apply fmt_oneline. Qed.
Lemma pad_last_ne l : l <> [] -> pad_last l <> []. Proof. destruct l as [|x [|y l]]; cbn; congruence. Qed.
(** the header: whatever follows, the mode and the numbers come back *)
Definition prt_start (tth : list Qc) : Qc := (printed 5 (hd 0 tth * qz 100) / qz 100)%Qc.
Definition prt_step (tth : list Qc) : Qc := (printed 5 (step_of tth * qz 100) / qz 100)%Qc.
Lemma bank80_words n nrec a b md : solid (txt md) -> words (ljust 80 (bank n nrec a b md) ++ [lf]) =
  [txt "BANK"; int_text 1; int_text (Z.of_nat n); int_text (Z.of_nat nrec); txt "CONST"; fixed_text 5 a; fixed_text 5 b; fixed_text 5 0%Qc; fixed_text 5 0%Qc; txt md].
Proof. intros H. unfold words, ljust. apply bank_words, H. Qed.
Definition file_of (name : text) (k n nrec : nat) (a b : Qc) (md : string) (lines : list text) : text :=
  flat_map (fun l => l ++ [cr; lf]) (pad_last (title name k :: ljust 80 (bank n nrec a b md) :: lines)).
Lemma read_std name k n nrec a b s ys : oneline name -> ys <> [] -> n = length ys -> Forall (small_std s) ys ->
  gsas_read (file_of name k n nrec a b "STD" (chunks n 10 (map (std_rec s) ys))) = inl (mapi (std_pt (printed 5 a / qz 100)%Qc (printed 5 b / qz 100)%Qc s) 0 ys).
Proof.
  intros ON NE -> F. unfold gsas_read, file_of.
  assert (W : Forall (fun r : text => length r = 8%nat) (map (std_rec s) ys)) by (apply in_Forall_map; intros; apply std_rec_len; eapply Forall_forall in F; eauto).
  destruct (chunk_fields 8 10 ltac:(lia) ltac:(lia) eq_refl (length ys) (map (std_rec s) ys)) as (bl & c & _ & _ & NC & R); [destruct ys; [congruence|discriminate]|rewrite map_length; lia|exact W|].
  rewrite file_lines; [|exact NC|now apply title_oneline|apply bank_oneline, txt_oneline; reflexivity|apply chunks_oneline, in_Forall_map; intros; apply std_rec_oneline].
  rewrite bank80_words by (apply solid_txt; reflexivity). cbn [nth_error]. destruct (list_eq_dec ascii_dec (txt "STD") (txt "STD")) as [_|N]; [|congruence].
  rewrite !(proj2 (parse_fixed 0 5 _)), parse_float_int. cbn [bind]. rewrite R. change (qz (Z.of_nat (length ys))) with (qn (length ys)). rewrite std_points_ok by (auto; lia). reflexivity.
Qed.
(** ESD *)
Definition esd_pt (start step s : Qc) (j : nat) (p : Qc * Qc) : point := ((start + step * qn j)%Qc, qpos (printed 0 (fst p)), weight (printed 0 (snd p * s)%Qc)).
Definition fits8 (x : Qc) : Prop := (qz (-9999999) <= x)%Qc /\ (x <= qz 99999999)%Qc.
Lemma fits8_len x : fits8 x -> length (fmt_f 8 0 x) = 8%nat.
Proof. intros [A B]. apply fit0; [lia|exact A|exact B]. Qed.
Lemma esd_points_ok start step s : forall ps j b, Forall (fun p => fits8 (fst p) /\ fits8 (snd p * s)%Qc) ps ->
  esd_points start step j (map (esd_rec s) ps ++ repeat (spaces 16) b) = Some (mapi (esd_pt start step s) j (ps ++ repeat (0%Qc, 0%Qc) b)).
Proof.
  induction ps as [|p ps IH]; intros j b F.
  - cbn [map app]. revert j. induction b as [|b IHb]; intros j; [reflexivity|].
    cbn [repeat esd_points]. rewrite !blank_sub by lia. change (sfloat (spaces 8)) with (Some 0%Qc). cbn [bind]. rewrite IHb. reflexivity.
  - inversion F as [|? ? [P Q] F']; subst. cbn [map app esd_points mapi]. unfold esd_rec at 1 2.
    rewrite sub_left by now apply fits8_len. rewrite sub_right by now apply fits8_len.
    rewrite !sfloat_fmt. cbn [bind]. rewrite IH by auto. reflexivity.
Qed.
Lemma read_esd name k n nrec a b s ps : oneline name -> ps <> [] -> n = length ps -> Forall (fun p => fits8 (fst p) /\ fits8 (snd p * s)%Qc) ps ->
  exists bl c, (bl < 5)%nat /\ (n + bl = c * 5)%nat /\
  gsas_read (file_of name k n nrec a b "ESD" (chunks n 5 (map (esd_rec s) ps))) = inl (mapi (esd_pt (printed 5 a / qz 100)%Qc (printed 5 b / qz 100)%Qc s) 0 (ps ++ repeat (0%Qc, 0%Qc) bl)).
Proof.
  intros ON NE -> F. unfold gsas_read, file_of.
  assert (W : Forall (fun r : text => length r = 16%nat) (map (esd_rec s) ps)).
  { apply in_Forall_map. intros p I. eapply Forall_forall in F; [|exact I]. destruct F. unfold esd_rec. rewrite app_length, !fits8_len; auto. }
  destruct (chunk_fields 16 5 ltac:(lia) ltac:(lia) eq_refl (length ps) (map (esd_rec s) ps)) as (bl & c & Hb & Hc & NC & R); [destruct ps; [congruence|discriminate]|rewrite map_length; lia|exact W|].
  rewrite map_length in Hc. exists bl, c. split; [exact Hb|]. split; [exact Hc|].
  rewrite file_lines; [|exact NC|now apply title_oneline|apply bank_oneline, txt_oneline; reflexivity|apply chunks_oneline, in_Forall_map; intros; apply esd_rec_oneline].
  rewrite bank80_words by (apply solid_txt; reflexivity). cbn [nth_error]. destruct (list_eq_dec ascii_dec (txt "ESD") (txt "STD")) as [N|_]; [discriminate|].
  destruct (list_eq_dec ascii_dec (txt "ESD") (txt "ESD")) as [_|N]; [|congruence].
  rewrite !(proj2 (parse_fixed 0 5 _)). cbn [bind]. rewrite R. rewrite esd_points_ok by auto. reflexivity.
Qed.
(** FXYE *)
Definition fxye_pt (s : Qc) (p : Qc * Qc * Qc) : point :=
  (printed 10 (fst (fst p) * s)%Qc, qpos (printed 10 (snd (fst p) * s)%Qc), weight (printed 10 (snd p * s)%Qc)).
Definition sep (s : Qc) (p : Qc * Qc * Qc) : Prop :=
  (Qc_abs (snd (fst p) * s) <= qz 999999999)%Qc /\ (Qc_abs (snd p * s) <= qz 99999999999)%Qc.
Lemma ljust_ljust w s : ljust w (ljust w s) = ljust w s.
Proof.
  unfold ljust at 1. assert (E : (w - length (ljust w s))%nat = O) by (unfold ljust, spaces; rewrite app_length, repeat_length; lia). rewrite E. cbn. apply app_nil_r.
Qed.
Lemma pad_last_id l : Forall (fun x => ljust 80 x = x) l -> pad_last l = l.
Proof. induction 1 as [|x l H F IH]; [reflexivity|]. cbn. destruct l; [now rewrite H|]. now rewrite IH. Qed.
Lemma words_rjust_mid w s w2 s2 r : solid s -> solid s2 -> (length s2 < w2)%nat -> words_aux [] (rjust w s ++ rjust w2 s2 ++ r) = s :: words_aux [] (rjust w2 s2 ++ r).
Proof.
  intros A B L. assert (E : rjust w2 s2 ++ r = sp :: (spaces (w2 - length s2 - 1) ++ s2 ++ r)).
  { unfold rjust. replace (w2 - length s2)%nat with (S (w2 - length s2 - 1)) at 1 by lia. now rewrite <- app_assoc. }
  rewrite E, words_field by (auto; reflexivity). reflexivity.
Qed.
Lemma fxye_words s p tail : sep s p -> words ((fxye_rec s p ++ spaces tail) ++ [lf]) =
  [fixed_text 10 (fst (fst p) * s)%Qc; fixed_text 10 (snd (fst p) * s)%Qc; fixed_text 10 (snd p * s)%Qc].
Proof.
  intros [A B]. unfold words, fxye_rec, fmt_f. rewrite <- !app_assoc.
  assert (NL : forall x, (neg_len x <= 1)%nat) by (intros x; unfold neg_len; destruct (Qc_ltb x 0%Qc); lia).
  rewrite words_rjust_mid; [|apply fixed_solid|apply fixed_solid|]; cycle 1.
  { pose proof (fixed_len 10 (snd (fst p) * s)%Qc 9 ltac:(lia) A) as P. cbv iota in P. specialize (NL (snd (fst p) * s)%Qc). lia. }
  rewrite words_rjust_mid; [|apply fixed_solid|apply fixed_solid|]; cycle 1.
  { pose proof (fixed_len 10 (snd p * s)%Qc 11 ltac:(lia) B) as P. cbv iota in P. specialize (NL (snd p * s)%Qc). lia. }
  do 2 f_equal. destruct tail as [|t].
  - cbn [spaces repeat app]. rewrite words_field by (try apply fixed_solid; reflexivity). reflexivity.
  - change (spaces (S t) ++ [lf]) with (sp :: spaces t ++ [lf]). rewrite words_field by (try apply fixed_solid; reflexivity). rewrite words_spaces. reflexivity.
Qed.
Lemma fxye_points_ok s ps : Forall (sep s) ps -> fxye_points (map (fun l : text => l ++ [lf]) (map (fun p => ljust 80 (fxye_rec s p)) ps)) = inl (map (fxye_pt s) ps).
Proof.
  induction 1 as [|p ps H F IH]; [reflexivity|]. cbn [map fxye_points]. cbv zeta. replace (words (ljust 80 (fxye_rec s p) ++ [lf])) with (words ((fxye_rec s p ++ spaces (80 - length (fxye_rec s p))) ++ [lf])) by reflexivity. rewrite (fxye_words s p _ H).
  cbn [nth_error]. rewrite !(proj2 (parse_fixed 0 10 _)). rewrite IH. reflexivity.
Qed.
Lemma read_fxye name k n nrec a b s ps : oneline name -> ps <> [] -> Forall (sep s) ps ->
  gsas_read (file_of name k n nrec a b "FXYE" (map (fun p => ljust 80 (fxye_rec s p)) ps)) = inl (map (fxye_pt s) ps).
Proof.
  intros ON NE F. unfold gsas_read, file_of.
  rewrite file_lines; [|destruct ps; [congruence|discriminate]|now apply title_oneline|apply bank_oneline, txt_oneline; reflexivity|apply in_Forall_map; intros; apply ljust_oneline, fxye_rec_oneline].
  rewrite pad_last_id by (apply in_Forall_map; intros; apply ljust_ljust).
  rewrite bank80_words by (apply solid_txt; reflexivity). cbn [nth_error].
  destruct (list_eq_dec ascii_dec (txt "FXYE") (txt "STD")) as [N|_]; [discriminate|].
  destruct (list_eq_dec ascii_dec (txt "FXYE") (txt "ESD")) as [N|_]; [discriminate|].
  destruct (list_eq_dec ascii_dec (txt "FXYE") (txt "FXYE")) as [_|N]; [|congruence]. now apply fxye_points_ok.
Qed.
