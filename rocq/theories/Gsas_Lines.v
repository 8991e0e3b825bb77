(* The lines of a GSAS file. *)
From Verif Require Import Common QcArith Text_Model Text_Proofs Gsas_Model Gsas_Spec Gsas_Proofs Gsas_Files.
Open Scope list_scope.

(** [t] is the records, each ended by carriage return and line feed *)
Definition records (t : text) (recs : list text) : Prop := t = flat_map (fun l => l ++ [cr; lf]) recs.
(** [r] is [s] cut or filled with blanks to [w] characters *)
Definition padded (w : nat) (s r : text) : Prop :=
  length r = w /\ forall i, (i < w)%nat -> nth_error r i = match nth_error s i with Some c => Some c | None => Some sp end.
(** how one over the k-th power of ten is printed *)
Definition tenth_text (k : nat) (s : text) : Prop :=
  (k = 0%nat /\ s = txt "1") \/ ((1 <= k <= 4)%nat /\ s = txt "0." ++ repeat "0"%char (k - 1) ++ txt "1") \/
  ((5 <= k)%nat /\ exists d, s = txt "1e-" ++ d /\ (2 <= length d)%nat /\ parse_int d = Some (Z.of_nat k)).
(** the i-th word of a line is a number *)
Definition word_is (line : text) (i : nat) (z : Z) : Prop := exists w, nth_error (words (line ++ [lf])) i = Some w /\ parse_int w = Some z.
(** a file of 80-character records: the title, a header that counts the points and the records that follow, and [nrec] of those *)
Definition gsas_lines (t name : text) (k n nrec : nat) : Prop :=
  exists head bank body s, records t (head :: bank :: body) /\ Forall (fun r => length r = 80%nat) (head :: bank :: body) /\
    tenth_text k s /\ padded 80 (txt "Angular Profile: " ++ name ++ txt " scale=" ++ s) head /\
    length body = nrec /\ word_is bank 2 (Z.of_nat n) /\ word_is bank 3 (Z.of_nat nrec).

Lemma scale_text_ok k : tenth_text k (scale_text k).
Proof.
  unfold tenth_text, scale_text. destruct k as [|k]; [left; auto|right]. destruct (Nat.ltb_spec (S k) 5) as [H|H].
  - left. split; [lia|]. reflexivity.
  - right. split; [lia|]. eexists. split; [reflexivity|]. destruct (dec_ok (Z.of_nat (S k)) ltac:(lia)) as (NE & A & V & _).
    split; [unfold zfill; rewrite app_length, repeat_length; lia|].
    destruct (zeros_ok (2 - length (dec (Z.of_nat (S k))))) as (Z1 & Z2).
    assert (D : alldigits (zfill 2 (dec (Z.of_nat (S k))))) by (unfold zfill; apply Forall_app; now split).
    assert (W : num (zfill 2 (dec (Z.of_nat (S k)))) 0 = Z.of_nat (S k)) by (unfold zfill; rewrite num_app by assumption; now rewrite Z2).
    set (z := zfill 2 (dec (Z.of_nat (S k)))) in *.
    assert (N : z <> []).
    { intros E. apply (f_equal (@length _)) in E. unfold z, zfill in E. rewrite app_length, repeat_length in E. cbn [length] in E. lia. }
    unfold parse_int. rewrite strip_solid by (split; [exact N|now apply digits_solid]).
    rewrite read_sign_digits; [|exact N|intros c r E; rewrite E in D; now inversion D].
    rewrite <- (app_nil_r z). rewrite (read_digits_app _ D). cbn [read_digits]. rewrite W.
    destruct z as [|c r]; [congruence|]. reflexivity.
Qed.
Lemma ljust_firstn w s : padded w s (ljust w (firstn w s)).
Proof.
  split; [apply ljust_len; rewrite firstn_length; lia|]. intros i Hi. unfold ljust.
  destruct (Nat.ltb_spec i (length s)) as [L|L].
  - rewrite nth_error_app1 by (rewrite firstn_length; lia). rewrite <- (firstn_skipn w s) at 2.
    rewrite nth_error_app1 by (rewrite firstn_length; lia). destruct (nth_error (firstn w s) i) eqn:E; [reflexivity|].
    apply nth_error_None in E. rewrite firstn_length in E. lia.
  - rewrite (proj2 (nth_error_None s i)) by lia. rewrite nth_error_app2 by (rewrite firstn_length; lia).
    unfold spaces. assert (G : forall m j, (j < m)%nat -> nth_error (repeat sp m) j = Some sp).
    { induction m as [|m IH]; intros [|j] J; cbn; [lia|lia|reflexivity|apply IH; lia]. }
    apply G. rewrite firstn_length in *. lia.
Qed.
Lemma head_padded name k : padded 80 (txt "Angular Profile: " ++ name ++ txt " scale=" ++ scale_text k) (title name k).
Proof. unfold title. exact (ljust_firstn 80 _). Qed.
(** ** The records of the data *)
Definition len80 (r : text) : Prop := length r = 80%nat.
Lemma chunks_80 wid w : (0 < w)%nat -> (0 < wid)%nat -> (w * wid = 80)%nat -> forall fuel (recs : list text), recs <> [] -> (length recs <= fuel)%nat ->
  Forall (fun r : text => length r = wid) recs -> Forall len80 (pad_last (chunks fuel w recs)) /\
  length (chunks fuel w recs) = ((length recs + (w - 1)) / w)%nat /\ chunks fuel w recs <> [].
Proof.
  intros W Wi E80. induction fuel as [|f IH]; intros recs NE Len F; [destruct recs; [congruence|cbn in Len; lia]|].
  cbn [chunks]. destruct recs as [|r0 recs0] eqn:ER; [congruence|]. rewrite <- ER in *. clear ER r0 recs0.
  assert (CL : forall l, Forall (fun r : text => length r = wid) l -> length (List.concat l) = (length l * wid)%nat).
  { induction 1 as [|r l H _ IHl]; [reflexivity|]. cbn. rewrite app_length, IHl, H. lia. }
  assert (0 < length recs)%nat by (destruct recs; [congruence|cbn; lia]).
  destruct (le_lt_dec (length recs) w) as [S|B].
  - rewrite (firstn_all2 recs) by exact S. rewrite (skipn_all2 recs) by exact S.
    match goal with |- context [chunks f w ?e] => replace (chunks f w e) with (@nil text) by (destruct f; reflexivity) end.
    cbn [pad_last length]. split; [|split; [|discriminate]].
    + constructor; [|constructor]. unfold len80. apply ljust_len. rewrite (CL _ F). nia.
    + apply (Nat.div_unique _ _ 1 (length recs - 1)); lia.
  - assert (F1 : Forall (fun r : text => length r = wid) (firstn w recs)).
    { apply Forall_forall. intros c I. apply (proj1 (Forall_forall _ _) F). rewrite <- (firstn_skipn w recs). apply in_or_app. now left. }
    assert (F2 : Forall (fun r : text => length r = wid) (skipn w recs)).
    { apply Forall_forall. intros c I. apply (proj1 (Forall_forall _ _) F). rewrite <- (firstn_skipn w recs). apply in_or_app. now right. }
    assert (L2 : length (skipn w recs) = (length recs - w)%nat) by apply skipn_length.
    destruct (IH (skipn w recs)) as (P80 & PL & NE2); [intros Z; rewrite Z in L2; cbn in L2; lia|lia|exact F2|].
    split; [|split; [|discriminate]].
    + destruct (chunks f w (skipn w recs)) as [|c cs] eqn:EC; [congruence|]. rewrite pad_last_cons. constructor; [|exact P80].
      unfold len80. rewrite (CL _ F1), firstn_length. nia.
    + cbn [length]. rewrite PL, L2. replace (length recs + (w - 1))%nat with (length recs - w + (w - 1) + 1 * w)%nat by lia.
      rewrite Nat.div_add by lia. lia.
Qed.
Lemma pad_last_80 l : Forall len80 l -> pad_last l = l.
Proof.
  induction 1 as [|x l H F IH]; [reflexivity|]. cbn [pad_last]. destruct l as [|y l].
  - unfold ljust. unfold len80 in H. rewrite H. cbn. now rewrite app_nil_r.
  - now rewrite IH.
Qed.
Lemma pad_last_len l : length (pad_last l) = length l.
Proof. induction l as [|x [|y l] IH]; [reflexivity|reflexivity|]. rewrite pad_last_cons. cbn [length] in *. now rewrite IH. Qed.
Lemma rjust_le w s m : (length s <= m)%nat -> (w <= m)%nat -> (length (rjust w s) <= m)%nat.
Proof. intros A B. unfold rjust, spaces. rewrite app_length, repeat_length. lia. Qed.
Lemma int_len w n : (0 < w)%nat -> (Z.of_nat n < 10 ^ Z.of_nat w)%Z -> length (fmt_i w (Z.of_nat n)) = w.
Proof.
  intros W H. unfold fmt_i. apply rjust_len. unfold int_text. rewrite Z.abs_eq by lia.
  destruct (dec_ok (Z.of_nat n) ltac:(lia)) as (_ & _ & _ & L). specialize (L w W H).
  destruct (Z.ltb_spec (Z.of_nat n) 0); [lia|]. exact L.
Qed.
(** between 0 and 10^k - 1 with five decimals *)
Lemma fmt5_le k m x : (0 < k)%nat -> (k + 6 <= m)%nat -> (9 <= m)%nat -> (0 <= x)%Qc -> (x <= qz (10 ^ Z.of_nat k - 1))%Qc -> (length (fmt_f 9 5 x) <= m)%nat.
Proof.
  intros K M9 M P B. unfold fmt_f. apply rjust_le; [|exact M].
  pose proof (fixed_len 5 x k K) as L. unfold neg_len, Qc_abs in L. destruct (Qc_ltb_spec x 0%Qc) as [N|_]; [exfalso; qclra|].
  specialize (L B). lia.
Qed.
Lemma bank_80 n nrec a b md la : (length (txt md) <= 80 - 66 - la)%nat -> (la <= 14)%nat -> (length (fmt_f 9 5 a) <= la)%nat -> (length (fmt_f 9 5 b) <= 9)%nat ->
  (Z.of_nat n < 10 ^ 8)%Z -> (Z.of_nat nrec < 10 ^ 8)%Z -> (length (bank n nrec a b md) <= 80)%nat.
Proof.
  intros M LA A B N R. unfold bank. rewrite !app_length; cbn [length]; rewrite !app_length; cbn [length]; rewrite !app_length; cbn [length].
  repeat (rewrite !app_length; cbn [length]).
  rewrite !int_len by (cbn; lia). change (length (fmt_i 5 1)) with 5%nat. change (length (fmt_f 9 5 0%Qc)) with 9%nat.
  change (length (txt "BANK ")) with 5%nat. change (length (txt " CONST ")) with 7%nat. lia.
Qed.
Lemma file_lines_80 name k n nrec a b md lines : (length (bank n nrec a b md) <= 80)%nat -> solid (txt md) -> lines <> [] -> Forall len80 (pad_last lines) -> length lines = nrec ->
  gsas_lines (file_of name k n nrec a b md lines) name k n nrec.
Proof.
  intros B80 S NE F80 L. exists (title name k), (ljust 80 (bank n nrec a b md)), (pad_last lines), (scale_text k).
  destruct lines as [|l ls]; [congruence|]. split; [reflexivity|]. destruct (head_padded name k) as [HL HP].
  split; [constructor; [exact HL|constructor; [now apply ljust_len|exact F80]]|].
  split; [apply scale_text_ok|]. split; [split; assumption|]. split; [now rewrite pad_last_len|].
  unfold word_is. rewrite bank80_words by exact S. cbn [nth_error]. split; eexists; (split; [reflexivity|]); apply (parse_int_text 0).
Qed.
(** ** What the writer leaves *)
Definition file_written isdir fs tth ys name mode err dir (t : text) : Prop :=
  exists fs', gsas_writer isdir fs tth ys name mode err dir = (fs', None) /\ fget fs' (outfile dir name) = Some (Text t).
Lemma written_text isdir fs tth ys name mode err dir t : (forall d, dir = Some d -> isdir d = true) ->
  length tth = length ys -> (forall e, err = Some e -> length e = length ys) -> gsas_text tth ys name mode err = inl t ->
  file_written isdir fs tth ys name mode err dir t.
Proof.
  intros D L LE T. unfold file_written, gsas_writer.
  assert (V : valid tth ys err (txt ".gsas") = true).
  { unfold valid. rewrite L, Nat.eqb_refl. destruct err as [e|]; [|reflexivity]. rewrite (LE e eq_refl). now rewrite Nat.eqb_refl. }
  rewrite V. cbn [negb]. rewrite outfile_path by exact D. rewrite T. eexists. split; [reflexivity|]. apply fget_put.
Qed.
Lemma text_full tth ys name mode err m : qmax ys = Some m -> (0 <= m)%Qc -> length tth = length ys -> (2 <= length ys)%nat ->
  let k := scale_exp m in let s := scale_of k in let n := length ys in
  (wmode mode err = Some "STD"%string -> gsas_text tth ys name mode err = inl (file_of name k n ((n + 9) / 10) (hd 0 tth * qz 100)%Qc (step_of tth * qz 100)%Qc "STD" (chunks n 10 (map (std_rec s) ys)))) /\
  (forall e, mode = Some "ESD"%string -> err = Some e -> gsas_text tth ys name mode err = inl (file_of name k n ((n + 4) / 5) (hd 0 tth * qz 100)%Qc (step_of tth * qz 100)%Qc "ESD" (chunks n 5 (map (esd_rec s) (combine ys e))))) /\
  (forall e, mode = Some "FXYE"%string -> err = Some e -> gsas_text tth ys name mode err = inl (file_of name k n n (hd 0 tth * qz 100)%Qc (step_of tth * qz 100)%Qc "FXYE" (map (fun p => ljust 80 (fxye_rec s p)) (combine (combine tth ys) e)))).
Proof.
  intros M P L N. unfold gsas_text. rewrite M. destruct (Qc_ltb_spec m 0%Qc) as [H|_]; [exfalso; now apply (Qcle_not_lt _ _ P)|].
  destruct (Nat.eqb_spec (length tth) 1) as [E|_]; [exfalso; lia|]. cbv zeta. repeat split.
  - intros W. destruct err as [e|]; cbn [wmode] in W; [subst mode; cbn|]; reflexivity.
  - intros e -> ->. reflexivity.
  - intros e -> ->. reflexivity.
Qed.
(** the angles: the first, and the mean step *)
Definition axis_ok (tth : list Qc) (top : Z) : Prop :=
  (0 <= hd 0 tth)%Qc /\ (hd 0 tth <= qz top)%Qc /\ (0 <= last tth 0 - hd 0 tth)%Qc /\ (last tth 0 - hd 0 tth <= qz 9 * qz (Z.of_nat (length tth) - 1))%Qc.
Lemma hundred_le x z : (x <= qz z)%Qc -> (x * qz 100 <= qz (z * 100))%Qc.
Proof. intros H. rewrite qz_mul. apply Qcmult_le_compat_r; [exact H|discriminate]. Qed.
Lemma hundred_pos x : (0 <= x)%Qc -> (0 <= x * qz 100)%Qc.
Proof. intros H. replace 0%Qc with (0 * qz 100)%Qc by reflexivity. apply Qcmult_le_compat_r; [exact H|discriminate]. Qed.
Lemma step_ok tth top : (2 <= length tth)%nat -> axis_ok tth top -> (length (fmt_f 9 5 (step_of tth * qz 100)%Qc) <= 9)%nat.
Proof.
  intros N (_ & _ & A & B). assert (P : (0 < qz (Z.of_nat (length tth) - 1))%Qc) by (apply (qz_lt 0); lia).
  apply (fmt5_le 3); [lia|lia|lia| |].
  - apply hundred_pos. unfold step_of. apply Qc_le_div; [exact P|]. now rewrite Qcmult_0_l.
  - eapply Qcle_trans; [apply (hundred_le _ 9); unfold step_of; apply Qc_div_le; [exact P|exact B]|]. apply qz_le. cbn. lia.
Qed.
Lemma start_ok tth top k m : axis_ok tth top -> (0 < k)%nat -> (k + 6 <= m)%nat -> (9 <= m)%nat -> (top * 100 <= 10 ^ Z.of_nat k - 1)%Z ->
  (length (fmt_f 9 5 (hd 0 tth * qz 100)%Qc) <= m)%nat.
Proof.
  intros (A & B & _) K M M9 T. apply (fmt5_le k); [exact K|exact M|exact M9|now apply hundred_pos|].
  eapply Qcle_trans; [apply (hundred_le _ top B)|]. apply qz_le. exact T.
Qed.
Lemma div_small n w : (0 < w)%nat -> (2 <= n)%nat -> (Z.of_nat n < 10 ^ 8)%Z -> (Z.of_nat ((n + (w - 1)) / w) < 10 ^ 8)%Z.
Proof.
  intros W N H. assert ((n + (w - 1)) / w <= n)%nat; [|lia].
  destruct (Nat.eq_dec w 1) as [->|]; [rewrite Nat.div_1_r; lia|].
  apply Nat.div_le_upper_bound; [lia|]. nia.
Qed.
Theorem std_lines isdir fs tth ys name mode err dir k :
  (forall d, dir = Some d -> isdir d = true) -> length tth = length ys -> (2 <= length ys)%nat -> (Z.of_nat (length ys) < 10 ^ 8)%Z ->
  (forall e, err = Some e -> length e = length ys /\ mode = Some "STD"%string) ->
  (exists y, In y ys /\ (0 <= y)%Qc) -> decades ys k -> (forall y, In y ys -> (qz (-99999) <= y / ten k)%Qc) -> axis_ok tth 999 ->
  exists t, file_written isdir fs tth ys name mode err dir t /\ gsas_lines t name k (length ys) ((length ys + 9) / 10).
Proof.
  intros D L N N8 LE (y0 & I0 & P0) DE LO AX. destruct (decades_is ys k y0 I0 P0 DE) as (m & M & PM & K). subst k. set (k := scale_exp m) in *.
  assert (F : Forall (small_std (scale_of k)) ys).
  { apply Forall_forall. intros y I. split; [rewrite scale_ten; now apply LO|now apply (under_max ys)]. }
  destruct (text_full tth ys name mode err m M PM L N) as (T & _ & _). fold k in T.
  specialize (T ltac:(destruct err as [e|]; [now destruct (LE e eq_refl)|reflexivity])).
  eexists. split; [eapply written_text; eauto; intros e E; now destruct (LE e E)|].
  assert (W : Forall (fun r : text => length r = 8%nat) (map (std_rec (scale_of k)) ys)) by (apply in_Forall_map; intros; apply std_rec_len; eapply Forall_forall in F; eauto).
  destruct (chunks_80 8 10 ltac:(lia) ltac:(lia) eq_refl (length ys) (map (std_rec (scale_of k)) ys)) as (F80 & FL & NE); [destruct ys; [cbn in N; lia|discriminate]|rewrite map_length; lia|exact W|].
  rewrite map_length in FL. apply file_lines_80; [|apply solid_txt; reflexivity|exact NE|exact F80|exact FL].
  apply (bank_80 _ _ _ _ _ 11); [cbn; lia|lia| | |exact N8|apply (div_small _ 10); [lia|exact N|exact N8]].
  - apply (start_ok tth 999 5 11 AX); lia.
  - apply (step_ok tth 999); [lia|exact AX].
Qed.
Theorem esd_lines isdir fs tth ys es name dir k :
  (forall d, dir = Some d -> isdir d = true) -> length tth = length ys -> length es = length ys -> (2 <= length ys)%nat -> (Z.of_nat (length ys) < 10 ^ 8)%Z ->
  (exists y, In y ys /\ (0 <= y)%Qc) -> decades ys k ->
  (forall y, In y ys -> qz (-9999999) <= y /\ y <= qz 99999999)%Qc -> (forall e, In e es -> qz (-9999999) <= e / ten k /\ e / ten k <= qz 99999999)%Qc -> axis_ok tth 999 ->
  exists t, file_written isdir fs tth ys name (Some "ESD"%string) (Some es) dir t /\ gsas_lines t name k (length ys) ((length ys + 4) / 5).
Proof.
  intros D L LE N N8 (y0 & I0 & P0) DE HY HE AX. destruct (decades_is ys k y0 I0 P0 DE) as (m & M & PM & K). subst k. set (k := scale_exp m) in *.
  destruct (text_full tth ys name (Some "ESD"%string) (Some es) m M PM L N) as (_ & T & _). fold k in T.
  specialize (T es eq_refl eq_refl).
  eexists. split; [eapply written_text; eauto; intros e E; injection E as <-; exact LE|].
  assert (CL : length (combine ys es) = length ys) by (rewrite combine_length; lia).
  assert (W : Forall (fun r : text => length r = 16%nat) (map (esd_rec (scale_of k)) (combine ys es))).
  { apply in_Forall_map. intros [y e] I. unfold esd_rec. cbn [fst snd]. rewrite app_length, !fits8_len; [reflexivity| |].
    - unfold fits8. rewrite scale_ten. apply HE. now apply in_combine_r in I.
    - apply HY. now apply in_combine_l in I. }
  destruct (chunks_80 16 5 ltac:(lia) ltac:(lia) eq_refl (length ys) (map (esd_rec (scale_of k)) (combine ys es))) as (F80 & FL & NE).
  - intros E. apply (f_equal (@length _)) in E. rewrite map_length, CL in E. cbn in E. lia.
  - rewrite map_length, CL. lia.
  - exact W.
  - rewrite map_length, CL in FL. apply file_lines_80; [|apply solid_txt; reflexivity|exact NE|exact F80|exact FL].
    apply (bank_80 _ _ _ _ _ 11); [cbn; lia|lia| | |exact N8|apply (div_small _ 5); [lia|exact N|exact N8]].
    + apply (start_ok tth 999 5 11 AX); lia.
    + apply (step_ok tth 999); [lia|exact AX].
Qed.
Lemma fmt10_le w k x : (0 < k)%nat -> (1 + k + 11 <= w)%nat -> (qz (1 - 10 ^ Z.of_nat k) <= x)%Qc -> (x <= qz (10 ^ Z.of_nat k - 1))%Qc -> (length (fmt_f w 10 x) = w)%nat.
Proof.
  intros K W A B. unfold fmt_f. apply rjust_len. pose proof (fixed_len 10 x k K) as L.
  assert (neg_len x <= 1)%nat by (unfold neg_len; destruct (Qc_ltb x 0%Qc); lia).
  assert (length (fixed_text 10 x) <= neg_len x + k + 11)%nat; [|lia]. apply L. unfold Qc_abs. destruct (Qc_ltb_spec x 0%Qc); [|exact B].
  replace (10 ^ Z.of_nat k - 1)%Z with (- (1 - 10 ^ Z.of_nat k))%Z by lia. rewrite qz_opp. qclra.
Qed.
Theorem fxye_lines isdir fs tth ys es name dir k :
  (forall d, dir = Some d -> isdir d = true) -> length tth = length ys -> length es = length ys -> (2 <= length ys)%nat -> (Z.of_nat (length ys) < 10 ^ 8)%Z ->
  (exists y, In y ys /\ (0 <= y)%Qc) -> decades ys k ->
  (forall t, In t tth -> 0 <= t /\ t <= qz 999)%Qc -> (forall y, In y ys -> qz (-999999999) <= y / ten k)%Qc ->
  (forall e, In e es -> qz (-99999999999) <= e / ten k /\ e / ten k <= qz 99999999999)%Qc -> axis_ok tth 99 ->
  exists t, file_written isdir fs tth ys name (Some "FXYE"%string) (Some es) dir t /\ gsas_lines t name k (length ys) (length ys).
Proof.
  intros D L LE N N8 (y0 & I0 & P0) DE HT HY HE AX. destruct (decades_is ys k y0 I0 P0 DE) as (m & M & PM & K). subst k. set (k := scale_exp m) in *.
  destruct (text_full tth ys name (Some "FXYE"%string) (Some es) m M PM L N) as (_ & _ & T). fold k in T.
  specialize (T es eq_refl eq_refl).
  eexists. split; [eapply written_text; eauto; intros e E; injection E as <-; exact LE|].
  assert (CL : length (combine (combine tth ys) es) = length ys) by (rewrite !combine_length; lia).
  assert (W : Forall len80 (map (fun p => ljust 80 (fxye_rec (scale_of k) p)) (combine (combine tth ys) es))).
  { apply in_Forall_map. intros [[t y] e] I. unfold len80, fxye_rec. cbn [fst snd]. apply ljust_len.
    pose proof (in_combine_l _ _ _ _ I) as I1. pose proof (in_combine_l _ _ _ _ I1) as It. pose proof (in_combine_r _ _ _ _ I1) as Iy. pose proof (in_combine_r _ _ _ _ I) as Ie.
    rewrite !app_length. rewrite (fmt10_le 22 9), (fmt10_le 22 9), (fmt10_le 24 11); [lia|lia|lia| | |lia|lia| | |lia|lia| |].
    - rewrite scale_ten. eapply Qcle_trans; [|apply (proj1 (HE e Ie))]. apply qz_le. lia.
    - rewrite scale_ten. eapply Qcle_trans; [apply (proj2 (HE e Ie))|]. apply qz_le. lia.
    - rewrite scale_ten. eapply Qcle_trans; [|apply (HY y Iy)]. apply qz_le. lia.
    - eapply Qcle_trans; [apply (under_max ys k y DE Iy)|]. apply qz_le. lia.
    - destruct (HT t It) as [T0 T1]. eapply Qcle_trans; [apply (qz_le _ 0); lia|]. change (qz 0) with (0 * scale_of k)%Qc || replace (qz 0) with (0 * scale_of k)%Qc by (rewrite qz_0; ring).
      apply Qcmult_le_compat_r; [exact T0|]. apply Qclt_le_weak, scale_pos.
    - destruct (HT t It) as [T0 T1]. eapply Qcle_trans; [|apply (qz_le 999); lia]. eapply Qcle_trans; [|exact T1].
      pose proof (scale_le1 k) as S1. pose proof (scale_pos k) as S0. set (s := scale_of k) in *. clearbody s. qcnra. }
  apply file_lines_80; [|apply solid_txt; reflexivity| | |now rewrite map_length].
  - apply (bank_80 _ _ _ _ _ 10); [cbn; lia|lia| | |exact N8|exact N8].
    + apply (start_ok tth 99 4 10 AX); lia.
    + apply (step_ok tth 99); [lia|exact AX].
  - intros E. apply (f_equal (@length _)) in E. rewrite map_length, CL in E. cbn in E. lia.
  - now rewrite pad_last_80.
Qed.
