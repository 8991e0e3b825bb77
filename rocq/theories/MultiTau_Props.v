(* Property theorems C01-C07 (one-time multi-tau correlation). *)
From Verif Require Import Common MultiTau_Model MultiTau_Spec MultiTau_Labels
  MultiTau_Proofs MultiTau_Main MultiTau_Out.

(* ---------------- running example ---------------- *)
Definition px (z : Z) : option Qc := Some (qz z).
(** Labels 5, 2, background 0, 5: so label 2 is ROI 1 and label 5 is ROI 2. *)
Definition ex_labels : list Z := [5; 2; 0; 5]%Z.
Definition ex_images : list (list (option Qc)) :=
  map (fun z => [px z; px (z * z); None; px (z + 3)]) [1;2;3;4;5;6;7;8;9;10;11]%Z.
(** The same with frame 4 bad. *)
Definition ex_bad : list (list (option Qc)) :=
  firstn 4 ex_images ++ [[None; None; None; None]] ++ skipn 5 ex_images.
Definition show (o : option (list (list (option Qc)) * list nat)) :=
  option_map (fun x => (map (map (option_map this)) (fst x), snd x)) o.

(* ------------------------------------------------------------------ *)
(** C01: the lag axis. *)
Theorem C01_lag_axis : forall levels ch,
  1 <= levels -> ch mod 2 = 0 -> 2 <= ch ->
  exists tot lags dict, multi_tau_lags levels ch = Some (tot, lags, dict) /\
    tot = length lags /\ 2 * length lags = (levels + 1) * ch /\
    length dict = levels /\ concat dict = lags /\
    nth_error dict 0 = Some (seq 0 ch) /\
    (forall l, 1 <= l < levels -> exists d, nth_error dict l = Some d /\
        length d = ch / 2 /\ forall x, In x d -> exists q, x = q * 2 ^ l) /\
    (forall l i, is_lag ch levels l i -> nth_error lags (lag_pos ch l i) = Some (i * 2 ^ l)) /\
    nth_error lags 0 = Some 0 /\
    (forall t t' x x', t < t' -> nth_error lags t = Some x -> nth_error lags t' = Some x' -> x < x').
Proof. exact lags_facts. Qed.
Print Assumptions C01_lag_axis.
Example C01_ex : option_map (fun x => snd (fst x)) (multi_tau_lags 3 4)
  = Some [0; 1; 2; 3; 4; 6; 8; 12].
Proof. reflexivity. Qed.

Theorem C01_odd_rejected : forall levels ch, ch mod 2 <> 0 -> multi_tau_lags levels ch = None.
Proof. exact lags_odd. Qed.
Print Assumptions C01_odd_rejected.
Example C01_odd_ex : 7 mod 2 <> 0. Proof. discriminate. Qed.

(** Every index of the axis is the position of exactly one (level, multiple). *)
Theorem C01_positions : forall nb L t, nb mod 2 = 0 -> 2 <= nb -> 1 <= L ->
  t < (L + 1) * nb / 2 -> exists l i, is_lag nb L l i /\ t = lag_pos nb l i.
Proof. exact pos_lag. Qed.
Print Assumptions C01_positions.

(* ------------------------------------------------------------------ *)
(** C02: coarse graining in the ring buffers. *)
Theorem C02_rings : forall nb L labels images,
  nb mod 2 = 0 -> 2 <= nb -> 1 <= L ->
  (forall im, In im images -> length im = length labels) ->
  exists c outs s, init_cfg nb L labels = Some c /\
    lazy_one_time c (init_state c) images = Some (outs, s) /\
    forall l i, l < L -> i < nb -> i < length images / 2 ^ l ->
    exists ring cu, nth_error (buf s) l = Some ring /\ nth_error (cur s) l = Some cu /\
      length ring = nb /\
      nth_error ring (Z.to_nat ((cu - 1 - Z.of_nat i) mod Z.of_nat nb))
      = Some (map (fun p => pmean (map (fun f => nth p f None)
                        (block_frames images l (length images / 2 ^ l - 1 - i))))
                  (all_positions labels)).
Proof.
  exact (fun nb L labels images He Hb HL Him =>
    match main nb L labels images He Hb HL Him with
    | ex_intro _ c (ex_intro _ outs (ex_intro _ s
        (conj Hc (conj Hl (conj _ (conj _ (conj _ Hr))))))) =>
      ex_intro _ c (ex_intro _ outs (ex_intro _ s (conj Hc (conj Hl Hr))))
    end).
Qed.
Print Assumptions C02_rings.
Example C02_ex : forall im, In im ex_images -> length im = length ex_labels.
Proof. intros im H. apply in_map_iff in H as (z & <- & _). reflexivity. Qed.
Example C02_ex_block :   (* level 1 block 4 = mean of frames 8 and 9 *)
  map (fun p => option_map this (pmean (map (fun f => nth p f None) (block_frames ex_images 1 4)))) [0; 1; 3]
  = [Some (19 # 2); Some (181 # 2); Some (25 # 2)]%Q.
Proof. vm_compute. reflexivity. Qed.

(* ------------------------------------------------------------------ *)
(** C03 and C05: the accumulators equal the means over good pairs, for every
    frame sequence including bad (NaN) frames. *)
Theorem C03_accumulators : forall nb L labels images,
  nb mod 2 = 0 -> 2 <= nb -> 1 <= L ->
  (forall im, In im images -> length im = length labels) ->
  exists c outs s, init_cfg nb L labels = Some c /\
    lazy_one_time c (init_state c) images = Some (outs, s) /\
    length outs = length images /\
    2 * length (G s) = (L + 1) * nb /\
    2 * length (past s) = (L + 1) * nb /\
    2 * length (fut s) = (L + 1) * nb /\
    (forall l i, is_lag nb L l i ->
     nth_error (G s) (lag_pos nb l i)
       = Some (map (spec_G labels images l i) (seq 1 (n_rois labels))) /\
     nth_error (past s) (lag_pos nb l i)
       = Some (map (spec_past labels images l i) (seq 1 (n_rois labels))) /\
     nth_error (fut s) (lag_pos nb l i)
       = Some (map (spec_fut labels images l i) (seq 1 (n_rois labels)))).
Proof. exact accumulators. Qed.
Print Assumptions C03_accumulators.
Example C03_ex_hyps : 4 mod 2 = 0 /\ 2 <= 4 /\ 1 <= 3 /\ is_lag 4 3 2 3.
Proof. unfold is_lag. cbn. repeat split; auto; try (right; lia); lia. Qed.
Example C03_ex_val :
  this (spec_G ex_labels ex_images 1 2 1) = (14171 # 12)%Q /\
  good_pairs ex_labels ex_images 1 2 = [0; 1; 2].
Proof. vm_compute. split; reflexivity. Qed.

(** The reported g2 and lag axis, completely determined. *)
Theorem C03_reported : forall nb L labels images,
  nb mod 2 = 0 -> 2 <= nb -> 1 <= L -> images <> [] ->
  (forall im, In im images -> length im = length labels) ->
  exists g2 lags, multi_tau_auto_corr nb L labels images = Some (g2, lags) /\
  length g2 = length lags /\ 2 * length g2 <= (L + 1) * nb /\
  (forall l i, is_lag nb L l i -> lag_pos nb l i < length g2 ->
     nth_error lags (lag_pos nb l i) = Some (i * 2 ^ l) /\
     nth_error g2 (lag_pos nb l i)
     = Some (map (spec_g2 labels images l i) (seq 1 (n_rois labels))) /\
     forall r, 1 <= r <= n_rois labels -> spec_past labels images l i r <> 0%Qc) /\
  (2 * length g2 < (L + 1) * nb ->
     exists l i r, is_lag nb L l i /\ lag_pos nb l i = length g2 /\
       1 <= r <= n_rois labels /\ spec_past labels images l i r = 0%Qc).
Proof. exact corr_ok. Qed.
Print Assumptions C03_reported.
Example C03_reported_ex :
  option_map (fun x => (nth_error (fst x) 0, snd x)) (show (multi_tau_auto_corr 4 2 ex_labels ex_images))
   = Some (Some [Some (79 # 46); Some (274 # 225)]%Q, [0; 1; 2; 3; 4; 6]).
Proof. vm_compute. reflexivity. Qed.

(** An odd number of buffers is rejected. *)
Theorem C03_odd_rejected : forall nb L labels images,
  nb mod 2 <> 0 -> multi_tau_auto_corr nb L labels images = None.
Proof. exact corr_odd. Qed.
Print Assumptions C03_odd_rejected.

(* ------------------------------------------------------------------ *)
(** C04: resumption.  Feeding the second part with the state left by the first
    gives the same yields and the same state, for any configuration, any state
    and any split; failure of either part is failure of the whole. *)
Theorem C04_resume : forall c a b s,
  lazy_one_time c s (a ++ b)
  = (r1 <- lazy_one_time c s a ;; r2 <- lazy_one_time c (snd r1) b ;;
     Some (fst r1 ++ fst r2, snd r2)).
Proof. exact lazy_app. Qed.
Print Assumptions C04_resume.
Example C04_ex : (c <- init_cfg 4 2 ex_labels ;;
  r1 <- lazy_one_time c (init_state c) (firstn 5 ex_images) ;;
  r2 <- lazy_one_time c (snd r1) (skipn 5 ex_images) ;;
  Some (length (fst r1), length (fst r2), map (map this) (past (snd r2))))
  = (c <- init_cfg 4 2 ex_labels ;;
     r <- lazy_one_time c (init_state c) ex_images ;;
     Some (5, 6, map (map this) (past (snd r)))).
Proof. vm_compute. reflexivity. Qed.

(** Consequently the values after resumption are those of the whole sequence. *)
Theorem C04_resume_values : forall nb L labels a b,
  nb mod 2 = 0 -> 2 <= nb -> 1 <= L ->
  (forall im, In im (a ++ b) -> length im = length labels) ->
  exists c outs1 s1 outs2 s2, init_cfg nb L labels = Some c /\
    lazy_one_time c (init_state c) a = Some (outs1, s1) /\
    lazy_one_time c s1 b = Some (outs2, s2) /\
    lazy_one_time c (init_state c) (a ++ b) = Some (outs1 ++ outs2, s2) /\
    forall l i, is_lag nb L l i ->
     nth_error (G s2) (lag_pos nb l i)
       = Some (map (spec_G labels (a ++ b) l i) (seq 1 (n_rois labels))).
Proof. exact resume_values. Qed.
Print Assumptions C04_resume_values.

(* ------------------------------------------------------------------ *)
(** C05: a bad frame contributes to nothing.  [good_pairs] excludes every block
    containing a frame with a NaN in a ROI pixel, and the accumulators do not
    depend on what the other pixels of a bad frame are. *)
Theorem C05_bad_frames_irrelevant : forall labels a b im im' l i r,
  good labels [im] 0 0 = false -> good labels [im'] 0 0 = false ->
  spec_G labels (a ++ im :: b) l i r = spec_G labels (a ++ im' :: b) l i r /\
  spec_past labels (a ++ im :: b) l i r = spec_past labels (a ++ im' :: b) l i r /\
  spec_fut labels (a ++ im :: b) l i r = spec_fut labels (a ++ im' :: b) l i r.
Proof. exact bad_irrelevant. Qed.
Print Assumptions C05_bad_frames_irrelevant.
Theorem C05_pairs_are_good : forall labels images l i k,
  In k (good_pairs labels images l i) <->
  (k + i + 1) * 2 ^ l <= length images /\
  (forall f, In f (block_frames images l k) \/ In f (block_frames images l (k + i)) ->
     forall p, p < length labels -> (0 < nth p labels 0)%Z -> nth p f None <> None).
Proof. exact good_pairs_iff. Qed.
Print Assumptions C05_pairs_are_good.
Example C05_ex : good_pairs ex_labels ex_bad 1 1 = [0; 3] /\
  good_pairs ex_labels ex_images 1 1 = [0; 1; 2; 3].
Proof. vm_compute. split; reflexivity. Qed.
Example C05_ex_run : option_map snd (multi_tau_auto_corr 4 2 ex_labels ex_bad)
  = Some [0; 1; 2; 3; 4; 6].
Proof. vm_compute. reflexivity. Qed.

(* ------------------------------------------------------------------ *)
(** C06: time-constant positive image; scaling. *)
Theorem C06_constant_image : forall labels im n,
  (forall p, In p (all_positions labels) -> exists x, nth p im None = Some x /\ (0 < x)%Qc) ->
  forall nb L,
  nb mod 2 = 0 -> 2 <= nb -> 1 <= L -> 1 <= n -> length im = length labels ->
  1 <= n_rois labels ->
  exists g2 lags, multi_tau_auto_corr nb L labels (repeat im n) = Some (g2, lags) /\
    length g2 = length lags /\
    (forall l i, is_lag nb L l i -> (lag_pos nb l i < length g2 <-> (i + 1) * 2 ^ l <= n)) /\
    (forall l i, is_lag nb L l i -> (i + 1) * 2 ^ l <= n ->
       nth_error lags (lag_pos nb l i) = Some (i * 2 ^ l) /\
       exists row, nth_error g2 (lag_pos nb l i) = Some row /\ length row = n_rois labels /\
         forall r, 1 <= r <= n_rois labels ->
           nth_error row (r - 1)
           = Some (Some (roi_avg labels (fun p => num (nth p im None) * num (nth p im None))%Qc r
                         / (roi_avg labels (fun p => num (nth p im None)) r
                            * roi_avg labels (fun p => num (nth p im None)) r))%Qc)).
Proof. exact corr_const. Qed.
Print Assumptions C06_constant_image.
Theorem C06_uniform_roi_is_one : forall labels im,
  (forall p, In p (all_positions labels) -> exists x, nth p im None = Some x /\ (0 < x)%Qc) ->
  forall r a, 1 <= r <= n_rois labels ->
  (forall p, In p (roi_positions labels r) -> nth p im None = Some a) ->
  (roi_avg labels (fun p => num (nth p im None) * num (nth p im None))%Qc r
   / (roi_avg labels (fun p => num (nth p im None)) r
      * roi_avg labels (fun p => num (nth p im None)) r))%Qc = 1%Qc.
Proof. exact ratio_uniform. Qed.
Print Assumptions C06_uniform_roi_is_one.
Example C06_ex : show (multi_tau_auto_corr 4 2 ex_labels (repeat [px 3; px 7; px 9; px 3] 5))
  = Some (repeat [Some 1; Some 1]%Q 4, [0; 1; 2; 3]).
Proof. vm_compute. reflexivity. Qed.
(** A time-constant image that is not uniform inside a ROI does not give 1. *)
Example C06_nonuniform :
  show (multi_tau_auto_corr 4 2 ex_labels (repeat [px 1; px 7; px 9; px 3] 5))
  = Some (repeat [Some 1; Some (5 # 4)]%Q 4, [0; 1; 2; 3]).
Proof. vm_compute. reflexivity. Qed.

Theorem C06_scaling : forall nb L labels images a,
  nb mod 2 = 0 -> 2 <= nb -> 1 <= L ->
  (forall im, In im images -> length im = length labels) -> a <> 0%Qc ->
  multi_tau_auto_corr nb L labels (map (map (option_map (Qcmult a))) images)
  = multi_tau_auto_corr nb L labels images.
Proof. exact corr_scale. Qed.
Print Assumptions C06_scaling.

(* ------------------------------------------------------------------ *)
(** C07: label compaction. *)
Theorem C07_compaction : forall labels,
  let (la, pl) := extract_label_indices labels in
  pl = all_positions labels /\
  la = map (fun p => nth p labels 0%Z) pl /\
  remap la = map (fun p => Z.of_nat (roi_no labels (nth p labels 0%Z))) pl.
Proof. exact compaction. Qed.
Print Assumptions C07_compaction.
Theorem C07_rank_properties : forall labels,
  (forall x, In x labels -> (0 < x)%Z -> 1 <= roi_no labels x <= n_rois labels) /\
  (forall r, 1 <= r <= n_rois labels -> exists x, In x labels /\ (0 < x)%Z /\ roi_no labels x = r) /\
  (forall x y, In x labels -> In y labels -> (0 < x)%Z -> (0 < y)%Z ->
     ((x < y)%Z <-> roi_no labels x < roi_no labels y) /\
     (x = y <-> roi_no labels x = roi_no labels y)).
Proof. exact rank_properties. Qed.
Print Assumptions C07_rank_properties.
Example C07_ex : remap (fst (extract_label_indices [3; 0; 1; 7; -4; 3; 2]%Z)) = [3; 1; 4; 3; 2]%Z.
Proof. reflexivity. Qed.
