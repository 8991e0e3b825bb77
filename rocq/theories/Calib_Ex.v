(* A worked case for C92: a small symmetric image seen from a centre a quarter pixel too far left. *)
From Coq Require Import Reals Sorted.
From Verif Require Import Common RoiPolar_Model RoiPolar_Proofs PixGrid_Props Calib_Model Calib_Spec.
From Coq Require Import Lra.
Local Open Scope R_scope.
Local Open Scope list_scope.

Definition ex_image : list R := [11; 20; 20; 11;  0; 11; 11; 0;  0; 11; 11; 0;  11; 20; 20; 11].
Definition pol (x y v : R) : R * (R * R) := (atan2 y x, (sqrt (x * x + y * y), v)).
Definition ex_px : list (R * (R * R)) :=
  [pol (-5/4) (-3/2) 11; pol (-1/4) (-3/2) 20; pol (3/4) (-3/2) 20; pol (7/4) (-3/2) 11;
   pol (-5/4) (-1/2) 0; pol (-1/4) (-1/2) 11; pol (3/4) (-1/2) 11; pol (7/4) (-1/2) 0;
   pol (-5/4) (1/2) 0; pol (-1/4) (1/2) 11; pol (3/4) (1/2) 11; pol (7/4) (1/2) 0;
   pol (-5/4) (3/2) 11; pol (-1/4) (3/2) 20; pol (3/4) (3/2) 20; pol (7/4) (3/2) 11].
Lemma pol_ok x y v x' y' : x = x' -> y = y' -> y <> 0 ->
  0 <= sqrt (x * x + y * y) /\ - PI < atan2 y x <= PI /\ x' = sqrt (x * x + y * y) * cos (atan2 y x) /\ y' = sqrt (x * x + y * y) * sin (atan2 y x) /\ (sqrt (x * x + y * y) = 0 -> atan2 y x = 0) /\ v = v :> R.
Proof.
  intros <- <- N. assert (P : 0 < x * x + y * y) by (pose proof (Rle_0_sqr x); unfold Rsqr in *; assert (0 < y * y) by (apply Rsqr_pos_lt in N; exact N); lra).
  destruct (atan2_range y x P) as (A & B & C). split; [apply sqrt_pos|]. split; [exact A|]. split; [exact B|]. split; [exact C|]. split; [|reflexivity].
  intros E. pose proof (sqrt_lt_R0 _ P). lra.
Qed.
Lemma ex_pixels : pixel_list 4 4 ex_image (3 / 2, 5 / 4) (1, 1) ex_px.
Proof.
  split; [reflexivity|]. intros i j Hi Hj.
  do 4 (try (destruct i as [|i])); try lia; do 4 (try (destruct j as [|j])); try lia; cbn [Nat.mul Nat.add ex_px ex_image nth_error];
    (eexists _, _, _; split; [reflexivity|]; split; [reflexivity|]; cbn [fst snd INR];
     match goal with |- context [sqrt (?a * ?a + ?b * ?b)] => edestruct (pol_ok a b 0) as (A & B & C & D & E & _); [| | |split; [exact A|]; split; [exact B|]; split; [exact C|]; split; [exact D|exact E]]; lra end).
Qed.
Lemma quad x y : y <> 0 -> x <> 0 -> let t := atan2 y x in
  (0 < x -> 0 < y -> 0 < t < PI / 2) /\ (0 < x -> y < 0 -> - (PI / 2) < t < 0) /\ (x < 0 -> 0 < y -> PI / 2 < t < PI) /\ (x < 0 -> y < 0 -> - PI < t < - (PI / 2)).
Proof.
  intros Ny Nx t. subst t. unfold atan2. pose proof (atan_bound (y / x)) as B.
  assert (Pos : 0 < y / x -> 0 < atan (y / x)) by (intros H; rewrite <- atan_0; now apply atan_increasing).
  assert (Neg : y / x < 0 -> atan (y / x) < 0) by (intros H; rewrite <- atan_0; now apply atan_increasing).
  assert (E : y / x * x = y) by (field; exact Nx).
  repeat split; intros; repeat (destruct (Rlt_dec _ _)); try lra;
    first [assert (0 < y / x) by nra; specialize (Pos ltac:(assumption)); lra | assert (y / x < 0) by nra; specialize (Neg ltac:(assumption)); lra].
Qed.
(** sector k of four *)
Lemma edges4 k : edge (- PI) PI 4 k = - PI + INR k * (PI / 2).
Proof. unfold edge. cbn [INR]. field. Qed.
Lemma sqrt_between a b v : 0 <= a -> 0 <= b -> a * a < v -> v < b * b -> a < sqrt v < b.
Proof.
  intros Ha Hb L U. assert (0 <= v) by nra. split.
  - rewrite <- (sqrt_square a Ha). apply sqrt_lt_1; nra.
  - rewrite <- (sqrt_square b Hb) at 1. apply sqrt_lt_1; nra.
Qed.
Definition is_bin (lo hi : R) (nx : nat) (sel : list (R * (R * R))) (j : nat) (c s : R) (n : nat) : Prop := exists b,
  chosen (fun p => edge lo hi nx j <= fst (snd p) /\ (fst (snd p) < edge lo hi nx (S j) \/ S j = nx /\ fst (snd p) = edge lo hi nx (S j))) sel b /\
  c = (edge lo hi nx j + edge lo hi nx (S j)) / 2 /\ s = total (map (fun p => snd (snd p)) b) /\ n = length b.
Lemma edges10 k : edge (2/5) (12/5) 10 k = 2/5 + INR k / 5.
Proof. unfold edge. cbn [INR]. field. Qed.
Ltac in_bin := rewrite ?edges10; cbn [fst snd INR]; split; [lra|left; lra].
Ltac out_bin := rewrite ?edges10; cbn [fst snd INR]; let A := fresh in let B := fresh in intros [A [B|[_ B]]]; lra.
Ltac bins := eexists; split; [repeat first [apply ch_nil | apply ch_keep; [in_bin|] | apply ch_drop; [out_bin|]] | rewrite ?edges10; cbn [INR map snd fst total length]; repeat split; first [reflexivity|lra]].
(** the left half: radii .559 (11), 1.346 (0), 1.521 (20), 1.953 (11) *)
Definition left_bins : list (R * R * nat) := [(1/2, 11, 1%nat); (7/10, 0, 0%nat); (9/10, 0, 0%nat); (11/10, 0, 0%nat); (13/10, 0, 1%nat); (3/2, 20, 1%nat); (17/10, 0, 0%nat); (19/10, 11, 1%nat); (21/10, 0, 0%nat); (23/10, 0, 0%nat)].
Definition right_bins : list (R * R * nat) := [(1/2, 0, 0%nat); (7/10, 0, 0%nat); (9/10, 11, 1%nat); (11/10, 0, 0%nat); (13/10, 0, 0%nat); (3/2, 0, 0%nat); (17/10, 20, 1%nat); (19/10, 0, 1%nat); (21/10, 0, 0%nat); (23/10, 11, 1%nat)].
Lemma bins_left sel a b c d p q r s : 2/5 < a < 3/5 -> 6/5 < b < 7/5 -> 7/5 < c < 8/5 -> 9/5 < d < 2 ->
  sel = [(p, (d, 11)); (q, (c, 20)); (r, (b, 0)); (s, (a, 11))] \/ sel = [(p, (b, 0)); (q, (a, 11)); (r, (d, 11)); (s, (c, 20))] ->
  forall j x y n, nth_error left_bins j = Some (x, y, n) -> is_bin (2/5) (12/5) 10 sel j x y n.
Proof.
  intros Ha Hb Hc Hd HS j x y n E. do 10 (destruct j as [|j]; [cbn in E; injection E as <- <- <-; destruct HS as [-> | ->]; bins|]). destruct j; discriminate.
Qed.
Lemma bins_right sel a b c d p q r s : 4/5 < a < 1 -> 9/5 < b < 2 -> 8/5 < c < 9/5 -> 11/5 < d < 12/5 ->
  sel = [(q, (c, 20)); (p, (d, 11)); (s, (a, 11)); (r, (b, 0))] \/ sel = [(q, (a, 11)); (p, (b, 0)); (s, (c, 20)); (r, (d, 11))] ->
  forall j x y n, nth_error right_bins j = Some (x, y, n) -> is_bin (2/5) (12/5) 10 sel j x y n.
Proof.
  intros Ha Hb Hc Hd HS j x y n E. do 10 (destruct j as [|j]; [cbn in E; injection E as <- <- <-; destruct HS as [-> | ->]; bins|]). destruct j; discriminate.
Qed.
Lemma peaks_11_20 : peaks_at [11 / 1; 20 / 1; 11 / 1] 1 0 [1%Z].
Proof.
  split; [repeat constructor|]. intros i. cbn [In]. split.
  - intros [<-|[]]. split; [split; [cbn; lia|]|].
    + intros j a b Nj Hj [H0 Ha] [_ Hb]. cbn in Hb. injection Hb as <-. assert (J : j = 0%Z \/ j = 2%Z) by lia. destruct J as [-> | ->]; cbn in Ha; injection Ha as <-; lra.
    + intros m _ _. exists 1%Z, 0%Z, (20/1), (11/1). repeat split; try lia; try reflexivity. lra.
  - intros [[H _] _]. cbn in H. left. lia.
Qed.
Ltac keep := repeat first [apply ch_nil | apply ch_keep; [cbn; lra|] | apply ch_drop; [cbn; lra|]].
Lemma trace_of sel px from to bins kept c : chosen (fun p => from < fst p <= to) px sel -> length bins = 10%nat ->
  (forall j x y n, nth_error bins j = Some (x, y, n) -> is_bin (2/5) (12/5) 10 sel j x y n) -> chosen (fun b => 10 < snd (fst b)) bins kept ->
  map (fun b : R * R * nat => snd (fst b) / INR (snd b)) kept = [11 / 1; 20 / 1; 11 / 1] -> sample (map (fun b => fst (fst b)) kept) 1 c ->
  traced px from to 10 (Some (2/5)) (Some (12/5)) 1 0 1 [c].
Proof.
  intros Cs Lb Hb Ck Ek Sk. exists kept, [1%Z]. split. { exists sel, (2/5), (12/5), bins. repeat split; auto; lra. }
  rewrite Ek. split; [exact peaks_11_20|]. split; [easy|]. split; [reflexivity|].
  intros [|[|k]] t Et; try discriminate. injection Et as <-. exists 1%Z, c. auto.
Qed.
Lemma left_kept : chosen (fun b => 10 < snd (fst b)) left_bins [(1/2, 11, 1%nat); (3/2, 20, 1%nat); (19/10, 11, 1%nat)].
Proof. unfold left_bins. keep. Qed.
Lemma right_kept : chosen (fun b => 10 < snd (fst b)) right_bins [(9/10, 11, 1%nat); (17/10, 20, 1%nat); (23/10, 11, 1%nat)].
Proof. unfold right_bins. keep. Qed.
Ltac root := match goal with |- ?a < sqrt ?v < ?b => apply (sqrt_between a b v); lra end.
Ltac angles := match goal with
  |- context [atan2 ?y ?x] => let Q := fresh in pose proof (quad x y ltac:(lra) ltac:(lra)) as Q; cbv zeta in Q; destruct Q as (?Q1 & ?Q2 & ?Q3 & ?Q4);
    repeat match goal with H : (_ < _ -> _) |- _ => first [specialize (H ltac:(lra)) | clear H] end end.
Ltac sectors := unfold ex_px; repeat first [apply ch_nil | apply ch_keep; [unfold pol; cbn [fst snd]; rewrite !edges4; cbn [INR]; pose proof PI_RGT_0; angles; lra|] | apply ch_drop; [unfold pol; cbn [fst snd]; rewrite !edges4; cbn [INR]; pose proof PI_RGT_0; angles; lra|]].
Lemma ex_traced k t : nth_error [[3/2]; [17/10]; [17/10]; [3/2]] k = Some t -> traced ex_px (edge (- PI) PI 4 k) (edge (- PI) PI 4 (S k)) 10 (Some (2/5)) (Some (12/5)) 1 0 1 t.
Proof.
  intros E. destruct k as [|[|[|[|k]]]]; [injection E as <-|injection E as <-|injection E as <-|injection E as <-|destruct k; discriminate].
  - eapply (trace_of [pol (-5/4) (-3/2) 11; pol (-1/4) (-3/2) 20; pol (-5/4) (-1/2) 0; pol (-1/4) (-1/2) 11] _ _ _ left_bins); [sectors|reflexivity| |exact left_kept|reflexivity|split; [lia|reflexivity]].
    unfold pol. eapply (bins_left _ _ _ _ _ _ _ _ _); [| | | |left; reflexivity]; root.
  - eapply (trace_of [pol (3/4) (-3/2) 20; pol (7/4) (-3/2) 11; pol (3/4) (-1/2) 11; pol (7/4) (-1/2) 0] _ _ _ right_bins); [sectors|reflexivity| |exact right_kept|reflexivity|split; [lia|reflexivity]].
    unfold pol. eapply (bins_right _ _ _ _ _ _ _ _ _); [| | | |left; reflexivity]; root.
  - eapply (trace_of [pol (3/4) (1/2) 11; pol (7/4) (1/2) 0; pol (3/4) (3/2) 20; pol (7/4) (3/2) 11] _ _ _ right_bins); [sectors|reflexivity| |exact right_kept|reflexivity|split; [lia|reflexivity]].
    unfold pol. eapply (bins_right _ _ _ _ _ _ _ _ _); [| | | |right; reflexivity]; root.
  - eapply (trace_of [pol (-5/4) (1/2) 0; pol (-1/4) (1/2) 11; pol (-5/4) (3/2) 11; pol (-1/4) (3/2) 20] _ _ _ left_bins); [sectors|reflexivity| |exact left_kept|reflexivity|split; [lia|reflexivity]].
    unfold pol. eapply (bins_left _ _ _ _ _ _ _ _ _); [| | | |right; reflexivity]; root.
Qed.

(** ** the same from the centre *)
Definition ex_image2 : list R := [11; 20; 20; 11;  20; 11; 11; 20;  20; 11; 11; 20;  11; 20; 20; 11].
Definition ex_px2 : list (R * (R * R)) :=
  [pol (-3/2) (-3/2) 11; pol (-1/2) (-3/2) 20; pol (1/2) (-3/2) 20; pol (3/2) (-3/2) 11;
   pol (-3/2) (-1/2) 20; pol (-1/2) (-1/2) 11; pol (1/2) (-1/2) 11; pol (3/2) (-1/2) 20;
   pol (-3/2) (1/2) 20; pol (-1/2) (1/2) 11; pol (1/2) (1/2) 11; pol (3/2) (1/2) 20;
   pol (-3/2) (3/2) 11; pol (-1/2) (3/2) 20; pol (1/2) (3/2) 20; pol (3/2) (3/2) 11].
Lemma ex_pixels2 : pixel_list 4 4 ex_image2 (3 / 2, 3 / 2) (1, 1) ex_px2.
Proof.
  split; [reflexivity|]. intros i j Hi Hj.
  do 4 (try (destruct i as [|i])); try lia; do 4 (try (destruct j as [|j])); try lia; cbn [Nat.mul Nat.add ex_px2 ex_image2 nth_error];
    (eexists _, _, _; split; [reflexivity|]; split; [reflexivity|]; cbn [fst snd INR];
     match goal with |- context [sqrt (?a * ?a + ?b * ?b)] => edestruct (pol_ok a b 0) as (A & B & C & D & E & _); [| | |split; [exact A|]; split; [exact B|]; split; [exact C|]; split; [exact D|exact E]]; lra end).
Qed.
Definition mid_bins : list (R * R * nat) := [(1/2, 0, 0%nat); (7/10, 11, 1%nat); (9/10, 0, 0%nat); (11/10, 0, 0%nat); (13/10, 0, 0%nat); (3/2, 40, 2%nat); (17/10, 0, 0%nat); (19/10, 0, 0%nat); (21/10, 11, 1%nat); (23/10, 0, 0%nat)].
Lemma bins_mid sel a b c d p q r s : 3/5 < a < 4/5 -> 7/5 < b < 8/5 -> 7/5 < c < 8/5 -> 2 < d < 11/5 ->
  sel = [(p, (d, 11)); (q, (c, 20)); (r, (b, 20)); (s, (a, 11))] \/ sel = [(p, (b, 20)); (q, (a, 11)); (r, (d, 11)); (s, (c, 20))] \/
  sel = [(q, (c, 20)); (p, (d, 11)); (s, (a, 11)); (r, (b, 20))] \/ sel = [(q, (a, 11)); (p, (b, 20)); (s, (c, 20)); (r, (d, 11))] ->
  forall j x y n, nth_error mid_bins j = Some (x, y, n) -> is_bin (2/5) (12/5) 10 sel j x y n.
Proof.
  intros Ha Hb Hc Hd HS j x y n E. do 10 (destruct j as [|j]; [cbn in E; injection E as <- <- <-; destruct HS as [-> | [-> | [-> | ->]]]; bins|]). destruct j; discriminate.
Qed.
Lemma mid_kept : chosen (fun b => 10 < snd (fst b)) mid_bins [(7/10, 11, 1%nat); (3/2, 40, 2%nat); (21/10, 11, 1%nat)].
Proof. unfold mid_bins. keep. Qed.
Ltac sectors2 := unfold ex_px2; repeat first [apply ch_nil | apply ch_keep; [unfold pol; cbn [fst snd]; rewrite !edges4; cbn [INR]; pose proof PI_RGT_0; angles; lra|] | apply ch_drop; [unfold pol; cbn [fst snd]; rewrite !edges4; cbn [INR]; pose proof PI_RGT_0; angles; lra|]].
Ltac avg2 := cbn [map fst snd INR]; apply f_equal2; [reflexivity|apply f_equal2; [lra|reflexivity]].
Lemma ex_traced2 k t : nth_error [[3/2]; [3/2]; [3/2]; [3/2]] k = Some t -> traced ex_px2 (edge (- PI) PI 4 k) (edge (- PI) PI 4 (S k)) 10 (Some (2/5)) (Some (12/5)) 1 0 1 t.
Proof.
  intros E. destruct k as [|[|[|[|k]]]]; [injection E as <-|injection E as <-|injection E as <-|injection E as <-|destruct k; discriminate].
  - eapply (trace_of [pol (-3/2) (-3/2) 11; pol (-1/2) (-3/2) 20; pol (-3/2) (-1/2) 20; pol (-1/2) (-1/2) 11] _ _ _ mid_bins); [sectors2|reflexivity| |exact mid_kept|avg2|split; [lia|reflexivity]].
    unfold pol. eapply (bins_mid _ _ _ _ _ _ _ _ _); [| | | |left; reflexivity]; root.
  - eapply (trace_of [pol (1/2) (-3/2) 20; pol (3/2) (-3/2) 11; pol (1/2) (-1/2) 11; pol (3/2) (-1/2) 20] _ _ _ mid_bins); [sectors2|reflexivity| |exact mid_kept|avg2|split; [lia|reflexivity]].
    unfold pol. eapply (bins_mid _ _ _ _ _ _ _ _ _); [| | | |right; right; left; reflexivity]; root.
  - eapply (trace_of [pol (1/2) (1/2) 11; pol (3/2) (1/2) 20; pol (1/2) (3/2) 20; pol (3/2) (3/2) 11] _ _ _ mid_bins); [sectors2|reflexivity| |exact mid_kept|avg2|split; [lia|reflexivity]].
    unfold pol. eapply (bins_mid _ _ _ _ _ _ _ _ _); [| | | |right; right; right; reflexivity]; root.
  - eapply (trace_of [pol (-3/2) (1/2) 20; pol (-1/2) (1/2) 11; pol (-3/2) (3/2) 11; pol (-1/2) (3/2) 20] _ _ _ mid_bins); [sectors2|reflexivity| |exact mid_kept|avg2|split; [lia|reflexivity]].
    unfold pol. eapply (bins_mid _ _ _ _ _ _ _ _ _); [| | | |right; left; reflexivity]; root.
Qed.

Lemma ex_averaged : averaged ex_px (edge (- PI) PI 4 0) (edge (- PI) PI 4 1) 10 (Some (2/5)) (Some (12/5)) [(1/2, 11, 1%nat); (3/2, 20, 1%nat); (19/10, 11, 1%nat)].
Proof.
  exists [pol (-5/4) (-3/2) 11; pol (-1/4) (-3/2) 20; pol (-5/4) (-1/2) 0; pol (-1/4) (-1/2) 11], (2/5), (12/5), left_bins.
  split; [sectors|]. split; [reflexivity|]. split; [reflexivity|]. split; [lra|]. split; [reflexivity|]. split; [|exact left_kept].
  unfold pol. eapply (bins_left _ _ _ _ _ _ _ _ _); [| | | |left; reflexivity]; root.
Qed.
