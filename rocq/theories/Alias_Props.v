(* Property theorems C113 (results kept from the correlation generators). *)
From Verif Require Import Common MultiTau_Model MultiTau_Spec TwoTime_Model TwoTime_Spec Alias_Model Alias_Spec Alias_Proofs.

(* ---------------- running example: two series, interleaved, one of them continued by a second call ---------------- *)
Definition al_im (l : list Z) : image := map (fun z => Some (qz z)) l.
Definition al_a := al_im [1; 2; 9; 4]%Z.
Definition al_b := al_im [3; 1; 9; 2]%Z.
Definition al_c := al_im [2; 5; 9; 1]%Z.
Definition al_labels : list Z := [1; 1; 0; 5]%Z.
Definition al_prog : list cmd :=
  [Start 2 2 al_labels; Feed 0 al_a; Start 4 1 [1; 1; 1; 1]%Z; Feed 1 al_b; Feed 0 al_b; Resume 0; Feed 2 al_c; Feed 1 al_a].
Definition al_q (g : list (list (option Qc))) := map (map (option_map this)) g.
Definition al_seen (x : option (list (list (option Qc)) * list nat)) := option_map (fun y => (al_q (fst y), snd y)) x.
Definition al_mat (x : option mat) := option_map (fun g => map al_q g) x.

(* ------------------------------------------------------------------ *)
(** Any number of one-time generators, fed in any order and continued from any of their results, keep apart: at the end
    of the program every result, however old, still shows the correlation of exactly the images its series had been
    shown when it was yielded. *)
Theorem C113_one_time : forall p b, history p = Some b -> exists m, run p = Some m /\ length (outs m) = length (due b) /\
  forall r o i u ims, nth_error (outs m) r = Some o -> nth_error (due b) r = Some (i, (u, ims)) ->
  show (mem m) o = multi_tau_auto_corr (bufs u) (levels u) (labels_of u) ims.
Proof. exact gens_ok. Qed.
Print Assumptions C113_one_time.
Example C113_one_time_ex : option_map (fun b => map (fun d => (fst d, length (snd (snd d)))) (due b)) (history al_prog) = Some [(0, 1); (1, 1); (0, 2); (0, 3); (1, 2)]
  /\ option_map (fun m => map (fun o => option_map (fun x => length (fst x)) (show (mem m) o)) (outs m)) (run al_prog) = Some [Some 1; Some 1; Some 2; Some 2; Some 2].
Proof. split; vm_compute; reflexivity. Qed.

(** A result is not a checkpoint: a call continuing from an earlier result goes on from the newest image of the series,
    not from the image of that result. *)
Theorem C113_resume_refuted : ~ forall nb L labels a b c m o,
  run [Start nb L labels; Feed 0 a; Feed 0 b; Resume 0; Feed 1 c] = Some m -> nth_error (outs m) 2 = Some o ->
  show (mem m) o = multi_tau_auto_corr nb L labels [a; c].
Proof.
  assert (X : exists m o, run [Start 2 1 al_labels; Feed 0 al_a; Feed 0 al_b; Resume 0; Feed 1 al_c] = Some m /\ nth_error (outs m) 2 = Some o /\
    al_seen (show (mem m) o) <> al_seen (multi_tau_auto_corr 2 1 al_labels [al_a; al_c])).
  { do 2 eexists. split; [vm_compute; reflexivity|]. split; [reflexivity|]. vm_compute; discriminate. }
  destruct X as (m & o & R & O & D). intros H. apply D. f_equal. eapply H; eauto.
Qed.
Print Assumptions C113_resume_refuted.
(** it does continue from the newest image *)
Theorem C113_resume_newest : forall nb L labels a b c m o, nb mod 2 = 0 -> 2 <= nb -> 1 <= L ->
  length a = length labels -> length b = length labels -> length c = length labels ->
  run [Start nb L labels; Feed 0 a; Feed 0 b; Resume 0; Feed 1 c] = Some m -> nth_error (outs m) 2 = Some o ->
  show (mem m) o = multi_tau_auto_corr nb L labels [a; b; c].
Proof.
  intros nb L labels a b c m o H1 H2 H3 A B C R O.
  destruct (gens_ok [Start nb L labels; Feed 0 a; Feed 0 b; Resume 0; Feed 1 c]
    {| series_of := [0; 0]; all := [({| bufs := nb; levels := L; labels_of := labels |}, [a; b; c])];
       due := [(0, ({| bufs := nb; levels := L; labels_of := labels |}, [a])); (0, ({| bufs := nb; levels := L; labels_of := labels |}, [a; b]));
               (0, ({| bufs := nb; levels := L; labels_of := labels |}, [a; b; c]))] |}) as (m' & R' & _ & Q).
  - unfold history. cbn [foldM note]. unfold good_setup. cbn [bufs levels labels_of]. rewrite H1, (proj2 (Nat.leb_le _ _) H2), (proj2 (Nat.leb_le _ _) H3). cbn [Nat.eqb andb bind].
    cbn -[Nat.eqb]. unfold shown. cbn [fst snd labels_of]. rewrite A, Nat.eqb_refl. cbn -[Nat.eqb]. rewrite B, Nat.eqb_refl. cbn -[Nat.eqb]. rewrite C, Nat.eqb_refl. reflexivity.
  - rewrite R in R'. injection R' as <-. apply (Q 2 o 0 _ _ O eq_refl).
Qed.
Print Assumptions C113_resume_newest.
Example C113_resume_ex : option_map (fun m => map (fun o => al_seen (show (mem m) o)) (outs m)) (run [Start 2 1 al_labels; Feed 0 al_a; Feed 0 al_b; Resume 0; Feed 1 al_c])
  = Some (map al_seen [multi_tau_auto_corr 2 1 al_labels [al_a]; multi_tau_auto_corr 2 1 al_labels [al_a; al_b]; multi_tau_auto_corr 2 1 al_labels [al_a; al_b; al_c]])
  /\ al_seen (multi_tau_auto_corr 2 1 al_labels [al_a; al_c]) <> al_seen (multi_tau_auto_corr 2 1 al_labels [al_a; al_b; al_c]).
Proof. split; [vm_compute; reflexivity|vm_compute; discriminate]. Qed.

(** Two-time generators continued only from their newest result keep apart as well, but their results share one matrix:
    converting any kept one, after other conversions or not, gives the matrix of all images of its series, and leaves
    that matrix in every result kept of the series. *)
Theorem C113_two_time : forall p b, history2 p = Some b -> exists m, run2 p = Some m /\ length (outs2 m) = length (res_of b) /\
  forall r i n u ims, nth_error (res_of b) r = Some (i, n) -> nth_error (all2 b) i = Some (u, ims) ->
  exists m' g, exec2 m (Convert2 r) = Some m' /\ two_time_corr (labels_of (one u)) ims (room u) (bufs (one u)) (levels (one u)) = Some g /\
  forall r' n' t', nth_error (res_of b) r' = Some (i, n') -> nth_error (outs2 m) r' = Some t' -> show2 (mem2 m') t' = Some g.
Proof. exact gens2_ok. Qed.
Print Assumptions C113_two_time.
Definition al_prog2 : list cmd2 :=
  [Start2 2 2 4 al_labels; Feed2 0 al_a; Feed2 0 al_b; Convert2 0; Start2 4 1 3 [1; 1; 1; 1]%Z; Feed2 1 al_b; Resume2 1; Feed2 2 al_c; Convert2 2; Feed2 1 al_a].
Example C113_two_time_ex : option_map res_of (history2 al_prog2) = Some [(0, 1); (0, 2); (1, 1); (0, 3); (1, 2)]
  /\ option_map (fun m => option_map (fun m' => map (fun t => al_mat (show2 (mem2 m') t)) (firstn 2 (outs2 m'))) (exec2 m (Convert2 0))) (run2 al_prog2)
     = Some (Some (repeat (al_mat (two_time_corr al_labels [al_a; al_b; al_c] 4 2 2)) 2)).
Proof. split; vm_compute; reflexivity. Qed.

(** So a kept result does not keep what it showed when it was yielded. *)
Theorem C113_two_time_kept_refuted : ~ forall nb L nf labels a b m m' t,
  run2 [Start2 nb L nf labels; Feed2 0 a; Convert2 0] = Some m ->
  run2 [Start2 nb L nf labels; Feed2 0 a; Convert2 0; Feed2 0 b] = Some m' ->
  nth_error (outs2 m) 0 = Some t -> show2 (mem2 m') t = show2 (mem2 m) t.
Proof.
  intros H.
  assert (X : exists m m' t, run2 [Start2 2 1 4 al_labels; Feed2 0 al_a; Convert2 0] = Some m /\
    run2 [Start2 2 1 4 al_labels; Feed2 0 al_a; Convert2 0; Feed2 0 al_b] = Some m' /\ nth_error (outs2 m) 0 = Some t /\
    al_mat (show2 (mem2 m') t) <> al_mat (show2 (mem2 m) t)).
  { do 3 eexists. split; [vm_compute; reflexivity|]. split; [vm_compute; reflexivity|]. split; [reflexivity|]. vm_compute. discriminate. }
  destruct X as (m & m' & t & R & R' & O & D). apply D. f_equal. eapply H; eauto.
Qed.
Print Assumptions C113_two_time_kept_refuted.

(** And a call continuing from an earlier result neither continues from the newest image nor from the image of that
    result: the image number is the result's own, everything else is shared. *)
Theorem C113_two_time_stale_refuted :
  (~ forall nb L nf labels a b c m t, run2 [Start2 nb L nf labels; Feed2 0 a; Feed2 0 b; Resume2 0; Feed2 1 c; Convert2 2] = Some m ->
     nth_error (outs2 m) 2 = Some t -> show2 (mem2 m) t = two_time_corr labels [a; b; c] nf nb L) /\
  (~ forall nb L nf labels a b c m t, run2 [Start2 nb L nf labels; Feed2 0 a; Feed2 0 b; Resume2 0; Feed2 1 c; Convert2 2] = Some m ->
     nth_error (outs2 m) 2 = Some t -> show2 (mem2 m) t = two_time_corr labels [a; c] nf nb L).
Proof.
  assert (X : exists m t, run2 [Start2 2 1 4 al_labels; Feed2 0 al_a; Feed2 0 al_b; Resume2 0; Feed2 1 al_c; Convert2 2] = Some m /\ nth_error (outs2 m) 2 = Some t /\
    al_mat (show2 (mem2 m) t) <> al_mat (two_time_corr al_labels [al_a; al_b; al_c] 4 2 1) /\ al_mat (show2 (mem2 m) t) <> al_mat (two_time_corr al_labels [al_a; al_c] 4 2 1)).
  { do 2 eexists. split; [vm_compute; reflexivity|]. split; [reflexivity|]. split; vm_compute; discriminate. }
  destruct X as (m & t & R & O & D1 & D2). split; intros H; [apply D1|apply D2]; f_equal; eapply H; eauto.
Qed.
Print Assumptions C113_two_time_stale_refuted.
