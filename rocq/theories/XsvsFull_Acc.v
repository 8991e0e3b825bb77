(* The double precision tables of xsvs against the exact ones. *)
From Coq Require Import Reals Qreals.
From Flocq Require Import Core BinarySingleNaN.
From Verif Require Import Common F64 GridF_Model RunMean_Model XsvsF_Model XsvsF_Spec XsvsF_Proofs XsvsF_Acc.
From Verif Require Import Roi_Model Xsvs_Model Xsvs_Spec.
From Verif Require Xsvs_Proofs.
From Verif Require Import XsvsFull_Model.
From Verif Require XsvsFull_Proofs.
From Coq Require Import Lra.
Local Open Scope nat_scope.

Definition real (q : Qc) : R := Q2R (this q).
Lemma real_eq (q : Qc) (x : Q) : (this q == x)%Q -> real q = Q2R x. Proof. intros H. apply Qeq_eqR. exact H. Qed.
Lemma real_add a b : real (a + b)%Qc = (real a + real b)%R. Proof. unfold real at 2 3. rewrite <- Q2R_plus. apply real_eq. apply Qred_correct. Qed.
Lemma real_mul a b : real (a * b)%Qc = (real a * real b)%R. Proof. unfold real at 2 3. rewrite <- Q2R_mult. apply real_eq. apply Qred_correct. Qed.
Lemma real_opp a : real (- a)%Qc = (- real a)%R. Proof. unfold real at 2. rewrite <- Q2R_opp. apply real_eq. apply Qred_correct. Qed.
Lemma real_sub a b : real (a - b)%Qc = (real a - real b)%R. Proof. unfold Qcminus, Rminus. rewrite real_add, real_opp. reflexivity. Qed.
Lemma real_qz z : real (qz z) = IZR z. Proof. unfold real. rewrite qz_this. unfold Q2R. cbn. field. Qed.
Lemma real_qn n : real (qn n) = INR n. Proof. unfold qn. rewrite real_qz, <- INR_IZR_INZ. reflexivity. Qed.
Lemma real_div a b : b <> 0%Qc -> real (a / b)%Qc = (real a / real b)%R.
Proof.
  intros N. assert (E : (a / b * b = a)%Qc) by (field; exact N). assert (M : real b <> 0%R).
  { intros X. apply N. apply Qc_is_canon. apply eqR_Qeq. fold (real b). rewrite X. change (this 0%Qc) with (0 # 1)%Q. unfold Q2R. cbn. field. }
  apply (f_equal real) in E. rewrite real_mul in E. rewrite <- E. field. exact M.
Qed.
Lemma real_qsum l : real (qsum l) = fold_right Rplus 0%R (map real l).
Proof. induction l as [|a l IH]; cbn; [apply (real_qn 0)|]. rewrite real_add, IH. reflexivity. Qed.

Lemma given_filter (f : nat -> frame) (h : list Z -> Qc) ns :
  map (fun m => match f m with Some px => h px | None => 0%Qc end) (filter (fun m => is_good (f m)) ns) = map h (given (map f ns)) /\
  length (filter (fun m => is_good (f m)) ns) = length (given (map f ns)).
Proof.
  induction ns as [|m ns [IH1 IH2]]; [split; reflexivity|]. cbn [filter map given flat_map]. destruct (f m) as [px|] eqn:E; cbn [is_good app map length].
  - rewrite E. split; f_equal; assumption.
  - split; assumption.
Qed.
Lemma average_nil : average [] = 0%R. Proof. unfold average. cbn. unfold Rdiv. apply Rmult_0_l. Qed.
Lemma mean_average f h n : real (mean_good f h n) = average (map (fun px => real (h px)) (given (map f (seq 0 n)))).
Proof.
  unfold mean_good. destruct (given_filter f h (seq 0 n)) as [E1 E2]. rewrite E1, E2. destruct (given (map f (seq 0 n))) as [|x xs] eqn:G; cbn [length Nat.eqb].
  - cbn [map]; rewrite average_nil. apply (real_qn 0).
  - rewrite real_div by (apply qn_neq0; lia). rewrite real_qsum, real_qn, map_map. unfold average. rewrite map_length. reflexivity.
Qed.
Lemma given_map {A B} (g : A -> B) l : given (map (option_map g) l) = map g (given l).
Proof. unfold given. induction l as [|[x|] l IH]; cbn; [reflexivity|rewrite IH; reflexivity|exact IH]. Qed.
Lemma given_length {A} (l : list (option A)) : length (given l) <= length l.
Proof. unfold given. induction l as [|[x|] l IH]; cbn; lia. Qed.

Lemma filter_length_le {A} (f : A -> bool) l : length (filter f l) <= length l.
Proof. induction l as [|a l IH]; cbn; [lia|]. destruct (f a); cbn; lia. Qed.
Section Hist.
Context (labels : list Z) (max_cts : nat) (l j b : nat).
Hypothesis HL : (Z.of_nat (length labels) <= 2 ^ 53)%Z.
Lemma select_short {A} f : forall ls (px : list A), length (select f ls px) <= length ls.
Proof.
  intros ls px. unfold select. rewrite map_length. refine (Nat.le_trans _ _ _ (filter_length_le _ _) _). rewrite combine_length. lia.
Qed.
Lemma hist_counted px : counted (hist_counts labels max_cts l j b px).
Proof.
  unfold counted, hist_counts. cbn [fst snd].
  assert (A : length (roi_data labels px j) <= length labels). { unfold roi_data. destruct (nth_error (unique labels) j); [apply select_short|cbn; lia]. }
  set (v := roi_data labels px j) in *. pose proof (filter_length_le (in_range max_cts l) v) as B.
  assert (C : length (filter (in_bin max_cts l b) v) <= length (filter (in_range max_cts l) v)).
  { clear. induction v as [|x v IH]; cbn; [lia|]. assert (D : in_bin max_cts l b x = true -> in_range max_cts l x = true) by (unfold in_bin, in_range; destruct (b + 2 =? edges max_cts l) eqn:E; lia).
    destruct (in_bin max_cts l b x); [rewrite D by reflexivity|destruct (in_range max_cts l x)]; cbn; lia. }
  lia.
Qed.
Lemma hist_share px : share (hist_counts labels max_cts l j b px) = real (density max_cts l (roi_data labels px j) b).
Proof.
  unfold share, hist_counts, density. cbn [fst snd]. set (t := length (filter (in_range max_cts l) _)). destruct (t =? 0) eqn:E.
  - replace (Z.of_nat t =? 0)%Z with true by lia. symmetry. apply (real_qn 0).
  - replace (Z.of_nat t =? 0)%Z with false by lia. rewrite real_div by (apply qn_neq0; lia). rewrite !real_qn, !INR_IZR_INZ. reflexivity.
Qed.
End Hist.

Lemma nothing_given images : given images = [] -> xsvs_entry [images] = (fzero, fzero).
Proof.
  intros G. unfold xsvs_entry. cbn [entry_sets]. assert (E : fold_left (entry_image 0) images (Entry 0 fzero fzero fzero fzero) = Entry 0 fzero fzero fzero fzero).
  { induction images as [|[c|] images IH]; [reflexivity|discriminate|]. cbn [fold_left]. cbn [given flat_map app] in G.
    assert (S : entry_image 0 (Entry 0 fzero fzero fzero fzero) None = Entry 0 fzero fzero fzero fzero) by (vm_compute; reflexivity). rewrite S. apply IH. exact G. }
  rewrite E. vm_compute. reflexivity.
Qed.

Section Tables.
Context (conv : Z -> Z) (T num_times : nat) (labels : list Z) (max_cts : nat).
Hypothesis conv_0 : conv 0%Z = 0%Z.
Hypothesis conv_add : forall a b, conv (conv a + conv b)%Z = conv (a + b)%Z.
Hypothesis HT : 2 <= T.
Hypothesis Hn : 1 <= num_times.
Hypothesis HL : (Z.of_nat (length labels) <= 2 ^ 53)%Z.
Notation evs := (XsvsFull_Proofs.evs conv labels max_cts).
Lemma evs_alt l j b imgs : evs l j b imgs = map (option_map (hist_counts labels max_cts l j b)) (map (mixed_as conv (length labels) imgs l) (seq 0 (length imgs))).
Proof. unfold XsvsFull_Proofs.evs. rewrite map_map. reflexivity. Qed.
Lemma evs_len l j b imgs : length (evs l j b imgs) = length imgs. Proof. unfold XsvsFull_Proofs.evs. rewrite map_length, seq_length. reflexivity. Qed.
Lemma evs_counted l j b imgs c : In (Some c) (evs l j b imgs) -> counted c.
Proof.
  rewrite evs_alt. intros I. apply in_map_iff in I. destruct I as [f [E _]]. destruct f as [px|]; [|discriminate]. injection E as <-. apply hist_counted. exact HL.
Qed.
Theorem table_range image_sets : Forall (Xsvs_Proofs.well_sized conv labels) image_sets -> (Z.of_nat (length image_sets) <= 2 ^ 53)%Z ->
  (forall imgs, In imgs image_sets -> (Z.of_nat (length imgs) <= 2 ^ 53)%Z) ->
  exists p sd, xsvsF conv T num_times labels max_cts image_sets = Some (p, sd) /\ forall l j b, l < num_times -> unit (p l j b).
Proof.
  intros W HS HI. destruct (XsvsFull_Proofs.xsvsF_ok conv T num_times labels max_cts conv_0 conv_add HT Hn image_sets W) as [p [sd [E H]]].
  exists p, sd. split; [exact E|]. intros l j b Hl. specialize (H l j b Hl).
  destruct (XsvsF_Proofs.sets_ok (map (evs l j b) image_sets) 0 fzero fzero) as [U _].
  - rewrite map_length. lia.
  - exact unit0.
  - exact unit0.
  - intros images I. apply in_map_iff in I. destruct I as [imgs [<- I]]. split; [rewrite evs_len; apply HI, I|]. intros c. apply evs_counted.
  - unfold xsvs_entry in H. destruct (entry_sets 0 (map (evs l j b) image_sets) fzero fzero) as [a ap]. injection H as -> _. exact U.
Qed.
Lemma variance_nil : variance [] = 0%R. Proof. unfold variance. cbn [map]. apply average_nil. Qed.
Theorem table_one_set imgs : Xsvs_Proofs.well_sized conv labels imgs -> (Z.of_nat (length imgs) < 2 ^ 53)%Z ->
  exists p sd q v, xsvsF conv T num_times labels max_cts [imgs] = Some (p, sd) /\ xsvs conv T num_times labels max_cts [imgs] = Some (q, v) /\
  forall l j b, l < num_times -> let n := INR (length imgs) in
    (Rabs (B2R (p l j b) - real (q l j b)) <= (n + 23) / 2 * bpow radix2 (-53))%R /\
    (sd l j b = B754_nan /\ (real (v l j b) < (2 * n + 42) * bpow radix2 (-53))%R \/
     is_finite (sd l j b) = true /\ (0 <= B2R (sd l j b))%R /\ (Rabs (B2R (sd l j b) * B2R (sd l j b) - real (v l j b)) <= (2 * n + 50) * bpow radix2 (-53))%R).
Proof.
  intros W HI. destruct (XsvsFull_Proofs.xsvsF_ok conv T num_times labels max_cts conv_0 conv_add HT Hn [imgs]) as [p [sd [E H]]]; [constructor; [exact W|constructor]|].
  destruct (Xsvs_Proofs.xsvs_one_set conv T num_times labels max_cts conv_0 conv_add HT Hn imgs W) as [q [v [E' H']]].
  exists p, sd, q, v. split; [exact E|]. split; [exact E'|]. intros l j b Hl n. specialize (H l j b Hl). destruct (H' l j b Hl) as [Hq Hv].
  set (ims := evs l j b imgs) in *. cbn [map] in H. fold ims in H.
  assert (Gs : map share (given ims) = map (fun px => real (density max_cts l (roi_data labels px j) b)) (given (map (mixed_as conv (length labels) imgs l) (seq 0 (length imgs))))).
  { unfold ims. rewrite evs_alt, given_map, map_map. apply map_ext. intros px. apply hist_share. }
  assert (Rq : real (q l j b) = average (map share (given ims))). { rewrite Hq, Gs. unfold Xsvs_Proofs.set_mean. rewrite mean_average. reflexivity. }
  assert (Rv : real (v l j b) = (average (map (fun x => x * x) (map share (given ims))) - average (map share (given ims)) * average (map share (given ims)))%R).
  { rewrite Hv, real_sub, real_mul, Rq. f_equal. rewrite Gs, map_map. unfold Xsvs_Proofs.set_mean2. rewrite mean_average. f_equal. apply map_ext. intros px. unfold Xsvs_Proofs.hd. apply real_mul. }
  assert (Ln : (INR (length (given ims)) <= n)%R). { apply le_INR. refine (Nat.le_trans _ _ _ (given_length _) _). unfold ims. rewrite evs_len. lia. }
  pose proof (pos_INR (length (given ims))) as P0. pose proof (bpow_gt_0 radix2 (-53)) as Pu. set (u := bpow radix2 (-53)) in *.
  destruct (given ims) as [|g0 gs] eqn:G.
  - rewrite (nothing_given ims G) in H. injection H as Hp Hs. rewrite Hp, Hs, Rq. cbn [map] in Rv |- *. rewrite average_nil in Rv |- *. rewrite Rv. change (B2R fzero) with 0%R. cbn [length INR] in *.
    rewrite !Rmult_0_l, !Rminus_0_r, Rabs_R0. split; [nra|]. right. split; [reflexivity|]. split; [lra|nra].
  - assert (N : given ims <> []) by (rewrite G; discriminate). rewrite <- G in *.
    assert (Ni : (Z.of_nat (length ims) < 2 ^ 53)%Z) by (unfold ims; rewrite evs_len; exact HI).
    assert (HC : forall c, In (Some c) ims -> counted c) by (intros c; apply evs_counted).
    rewrite (entry_one ims) in H. injection H as Hp Hs. destruct (prob_err ims N Ni HC) as [P _]. pose proof (deviation_ok ims N Ni HC) as D.
    rewrite <- Hp in P. rewrite <- Hs in D. rewrite variance_alt in D by (destruct (given ims); [congruence|discriminate]). rewrite <- Rv in D. rewrite <- Rq in P. fold u in P, D. split.
    + refine (Rle_trans _ _ _ P _). apply Rmult_le_compat_r; lra.
    + destruct D as [[D1 D2]|[D1 [D2 D3]]]; [left|right].
      * split; [exact D1|]. refine (Rlt_le_trans _ _ _ D2 _). apply Rmult_le_compat_r; lra.
      * split; [exact D1|]. split; [exact D2|]. refine (Rle_trans _ _ _ D3 _). apply Rmult_le_compat_r; lra.
Qed.
End Tables.
