From Coq Require Import Reals Sorted.
From Verif Require Import Common Roi_Model Roi_Proofs RoiPolar_Model RoiPolar_Proofs PixGrid_Props Peak_Model Peak_Spec Peak_Proofs Calib_Model Calib_Spec Calib_Proofs.
From Coq Require Import Lra.
Local Open Scope R_scope.
Local Open Scope list_scope.

Lemma chosen_filter {A} (P : A -> Prop) (f : A -> bool) l r : (forall a, P a <-> f a = true) -> chosen P l r -> r = filter f l.
Proof.
  intros E. induction 1 as [|a l r H _ IH|a l r H _ IH]; cbn; [reflexivity| |].
  - apply E in H. rewrite H. now f_equal.
  - destruct (f a) eqn:F; [|exact IH]. apply E in F. contradiction.
Qed.
Lemma filter_chosen {A} (P : A -> Prop) (f : A -> bool) l : (forall a, P a <-> f a = true) -> chosen P l (filter f l).
Proof. intros E. induction l as [|a l IH]; cbn; [constructor|]. destruct (f a) eqn:F; constructor; auto; [now apply E|]. rewrite E. congruence. Qed.
(** ** pixels *)
Lemma pixels_ok h w II center size px : length II = (h * w)%nat -> pixel_list h w II center size px -> pixels center size h w II = px.
Proof.
  intros LI [L H]. unfold pixels. apply nth_error_ext. intros k.
  assert (La : length (angle_grid center size h w) = (h * w)%nat) by apply concat_tab_length.
  assert (Lr : length (radial_grid center size h w) = (h * w)%nat) by apply concat_tab_length.
  destruct (Nat.ltb_spec k (h * w)) as [Hk|Hk].
  - assert (Hw : (w <> 0)%nat) by (intros ->; lia). pose proof (Nat.div_mod k w Hw) as D. pose proof (Nat.mod_upper_bound k w Hw) as M.
    assert (Hi : (k / w < h)%nat) by (apply Nat.div_lt_upper_bound; lia). replace k with (k / w * w + k mod w)%nat by lia.
    destruct (H (k / w) (k mod w) Hi M)%nat as (phi & r & v & E & EI & Hr & Hp & X & Y & Z). rewrite E.
    assert (C : forall {A B} (a : list A) (b : list B) k x y, nth_error a k = Some x -> nth_error b k = Some y -> nth_error (combine a b) k = Some (x, y)).
    { clear. intros A B a. induction a as [|x a IH]; intros [|y b] [|k] u v; cbn; intros; try discriminate; [congruence|eauto]. }
    destruct (proj2 (C89_radial center size h w) (k / w)%nat (k mod w)%nat _ _ Hi M eq_refl eq_refl) as (r' & Er & Hr' & Q).
    destruct (proj2 (C89_angle center size h w) (k / w)%nat (k mod w)%nat _ _ Hi M eq_refl eq_refl) as (t & Et & Ht & Xt & Yt & Zt).
    assert (r' = r). { apply Rsqr_inj; [exact Hr'|exact Hr|]. unfold Rsqr. rewrite Q, X, Y. pose proof (sin2_cos2 phi) as S. unfold Rsqr in S.
      replace (r * cos phi * (r * cos phi) + r * sin phi * (r * sin phi)) with (r * r * (sin phi * sin phi + cos phi * cos phi)) by ring. rewrite S. ring. }
    subst r'. rewrite <- Q, (sqrt_square r Hr) in Xt, Yt.
    assert (t = phi). { destruct (Req_EM_T r 0) as [Er0|N].
      - rewrite (Z Er0). apply Zt; [rewrite X, Er0; ring|rewrite Y, Er0; ring].
      - apply (C89_angle_unique r); [lra|exact Ht|exact Hp|congruence|congruence]. }
    subst t. apply C; [exact Et|]. now apply C.
  - rewrite (proj2 (nth_error_None px k)) by lia. apply nth_error_None. rewrite !combine_length. lia.
Qed.
(** ** bins *)
Lemma rlinspace_nth lo hi n k : (k <= n)%nat -> (0 < n)%nat -> nth_error (rlinspace lo hi (n + 1)) k = Some (edge lo hi n k).
Proof. intros H Hn. unfold rlinspace. rewrite nth_error_map_seq by lia. unfold edge. do 4 f_equal. f_equal. f_equal. lia. Qed.
Lemma rlinspace_len lo hi n : length (rlinspace lo hi n) = n.
Proof. unfold rlinspace. now rewrite map_length, seq_length. Qed.
Lemma hist_nth xs e : forall j a b, nth_error e j = Some a -> nth_error e (S j) = Some b ->
  nth_error (hist xs e) j = Some (filter (fun p => in_bin (S (S j) =? length e)%nat a b (fst p)) xs).
Proof.
  induction e as [|x e IH]; intros j a b A B; [destruct j; discriminate|]. destruct e as [|y e']; [destruct j as [|[|j]]; discriminate|]. destruct j as [|j].
  - cbn [nth_error] in A, B. injection A as ->. injection B as ->. cbn [hist nth_error length]. destruct e'; reflexivity.
  - cbn [hist]. cbn [nth_error]. exact (IH j a b A B).
Qed.
Lemma hist_len xs e : length (hist xs e) = (length e - 1)%nat.
Proof. induction e as [|x e IH]; [reflexivity|]. destruct e as [|y e']; [reflexivity|]. cbn [hist length] in *. rewrite IH. lia. Qed.
Lemma centers_nth e : forall j a b, nth_error e j = Some a -> nth_error e (S j) = Some b -> nth_error (centers e) j = Some ((a + b) * (1 / 2)).
Proof.
  induction e as [|x e IH]; intros j a b A B; [destruct j; discriminate|]. destruct e as [|y e']; [destruct j as [|[|j]]; discriminate|]. destruct j as [|j].
  - cbn in A, B. injection A as ->. injection B as ->. reflexivity.
  - cbn [centers]. cbn [nth_error]. exact (IH j a b A B).
Qed.
Lemma centers_len e : length (centers e) = (length e - 1)%nat.
Proof. induction e as [|x e IH]; [reflexivity|]. destruct e as [|y e']; [reflexivity|]. cbn [centers length] in *. rewrite IH. lia. Qed.
Lemma pairwise_nth {A} (e : list A) : forall j a b, nth_error e j = Some a -> nth_error e (S j) = Some b -> nth_error (pairwise e) j = Some (a, b).
Proof.
  induction e as [|x e IH]; intros j a b H B; [destruct j; discriminate|]. destruct e as [|y e']; [destruct j as [|[|j]]; discriminate|]. destruct j as [|j].
  - cbn in H, B |- *. congruence.
  - cbn [pairwise]. cbn [nth_error]. exact (IH j a b H B).
Qed.
Lemma pairwise_len {A} (e : list A) : length (pairwise e) = (length e - 1)%nat.
Proof. induction e as [|x e IH]; [reflexivity|]. destruct e as [|y e']; [reflexivity|]. cbn [pairwise length] in *. rewrite IH. lia. Qed.
Lemma filter_map_comm {A B} (g : A -> B) (f : B -> bool) l : filter f (map g l) = map g (filter (fun a => f (g a)) l).
Proof. induction l as [|a l IH]; cbn; [reflexivity|]. destruct (f (g a)); cbn; congruence. Qed.
Lemma lower_min given sel lo : lower given sel lo -> match given with Some m => Some m | None => np_min (map fst (map snd sel)) end = Some lo.
Proof.
  unfold lower. destruct given as [m|]; [congruence|]. intros [(p & I & ->) M].
  destruct (np_min_ok (map fst (map snd sel))) as (m & -> & Im & Um); [destruct sel; [easy|discriminate]|]. f_equal. apply Rle_antisym.
  - apply Um. apply in_map. now apply in_map.
  - rewrite map_map in Im. apply in_map_iff in Im as (q & <- & Iq). now apply M.
Qed.
Lemma upper_max given sel hi : upper given sel hi -> match given with Some m => Some m | None => np_max (map fst (map snd sel)) end = Some hi.
Proof.
  unfold upper. destruct given as [m|]; [congruence|]. intros [(p & I & ->) M].
  destruct (np_max_ok (map fst (map snd sel))) as (m & -> & Im & Um); [destruct sel; [easy|discriminate]|]. f_equal. apply Rle_antisym.
  - rewrite map_map in Im. apply in_map_iff in Im as (q & <- & Iq). now apply M.
  - apply Um. apply in_map. now apply in_map.
Qed.
Definition flat (b : R * (R * nat)) : R * R * nat := (fst b, fst (snd b), snd (snd b)).
Lemma trace_run px from to nx min_x max_x w thresh mx kept : (0 < nx)%nat -> averaged px from to nx min_x max_x kept ->
  ring_trace mx w thresh (Z.of_nat nx) min_x max_x (sector px (from, to)) =
  (cands <- find_peaks (map (fun b : R * R * nat => snd (fst b) / INR (snd b)) kept) w thresh ;;
   match cands with [] => None | _ => Some (map (at_ (map (fun b => fst (fst b)) kept)) (pyslice cands 0 mx)) end).
Proof.
  intros Hnx (sel & lo & hi & bins & Cs & Hlo & Hhi & Hle & Lb & Hb & Ck). unfold ring_trace.
  assert (Es : sector px (from, to) = map snd sel).
  { unfold sector. cbn [fst snd]. f_equal. symmetry. eapply chosen_filter; [|exact Cs]. intros a. rewrite andb_true_iff, rleb_true, rltb_true. tauto. }
  rewrite Es. unfold bin_1D. rewrite (lower_min _ _ _ Hlo), (upper_max _ _ _ Hhi). cbn [bind].
  replace (Z.of_nat nx <? 0)%Z with false by lia.
  assert (B : rltb hi lo = false) by (destruct (rltb hi lo) eqn:E; [apply rltb_true in E; lra|reflexivity]). rewrite B. cbn [andb]. rewrite Nat2Z.id.
  cbn [bind fst snd]. set (e := rlinspace lo hi (nx + 1)).
  assert (Le : length e = (nx + 1)%nat) by apply rlinspace_len.
  assert (EB : map flat (combine (centers e) (map (fun b => (rsuml (map snd b), length b)) (hist (map snd sel) e))) = bins).
  { apply nth_error_ext. intros j. destruct (Nat.ltb_spec j nx) as [Hj|Hj].
    - destruct (nth_error bins j) as [[[c s] n]|] eqn:Ej; [|apply nth_error_None in Ej; lia].
      destruct (Hb j c s n Ej) as (b & Cb & -> & -> & ->). pose proof (rlinspace_nth lo hi nx j ltac:(lia) Hnx) as E1. pose proof (rlinspace_nth lo hi nx (S j) ltac:(lia) Hnx) as E2.
      fold e in E1, E2. rewrite nth_error_map. 
      assert (C : forall {A B} (a : list A) (b : list B) k x y, nth_error a k = Some x -> nth_error b k = Some y -> nth_error (combine a b) k = Some (x, y)).
      { clear. intros A B a. induction a as [|x a IH]; intros [|y b] [|k] u v; cbn; intros; try discriminate; [congruence|eauto]. }
      erewrite C; [|exact (centers_nth e j _ _ E1 E2)|rewrite nth_error_map, (hist_nth _ e j _ _ E1 E2); reflexivity].
      cbn [option_map]. unfold flat. cbn [fst snd]. rewrite filter_map_comm.
      assert (Eb : b = filter (fun a => in_bin (S (S j) =? length e)%nat (edge lo hi nx j) (edge lo hi nx (S j)) (fst (snd a))) sel).
      { eapply chosen_filter; [|exact Cb]. intros a. unfold in_bin. rewrite andb_true_iff, rleb_true. rewrite Le. destruct (Nat.eqb_spec (S (S j)) (nx + 1)) as [Q|Q].
        - rewrite rleb_true. split; [intros [U [V|[_ V]]]; split; lra|]. intros [U V]. split; [exact U|]. destruct V as [V|V]; [now left|right; split; [lia|exact V]].
        - rewrite rltb_true. split; [intros [U [V|[V _]]]; [auto|lia]|]. intros [U V]. auto. }
      rewrite <- Eb. rewrite !map_map, map_length. change rsuml with total. apply f_equal. apply (f_equal (fun c => (c, _, _))). lra.
    - rewrite (proj2 (nth_error_None bins j)) by lia. apply nth_error_None. rewrite map_length, combine_length, centers_len, Le. lia. }
  set (cb := combine _ _) in *. set (kb := filter (fun p => rltb 10 (fst (snd p))) cb).
  assert (EK : map flat kb = kept).
  { unfold kb. rewrite (chosen_filter _ (fun b : R * R * nat => rltb 10 (snd (fst b))) _ _ (fun a => iff_sym (rltb_true _ _)) Ck), <- EB, filter_map_comm. reflexivity. }
  assert (EA : map (fun p => fst (snd p) / INR (snd (snd p))) kb = map (fun b : R * R * nat => snd (fst b) / INR (snd b)) kept) by (rewrite <- EK, map_map; reflexivity).
  assert (EC : map fst kb = map (fun b => fst (fst b)) kept) by (rewrite <- EK, map_map; reflexivity).
  rewrite EA, EC. reflexivity.
Qed.
Lemma trace_none px from to nx min_x max_x w thresh mx : (1 <= w)%Z -> (0 < nx)%nat -> ringless px from to nx min_x max_x w thresh ->
  ring_trace mx w thresh (Z.of_nat nx) min_x max_x (sector px (from, to)) = None.
Proof.
  intros Hw Hnx (kept & A & P). rewrite (trace_run _ _ _ _ _ _ _ _ _ _ Hnx A). destruct kept as [|b kept].
  - unfold find_peaks, argrelmax. now destruct (w <? 1)%Z.
  - rewrite (find_peaks_ok _ w thresh [] Hw); [reflexivity|discriminate|exact P].
Qed.
Lemma trace_ok px from to nx min_x max_x w thresh mx tr : (1 <= w)%Z -> (0 < nx)%nat -> traced px from to nx min_x max_x w thresh mx tr ->
  ring_trace (Z.of_nat mx) w thresh (Z.of_nat nx) min_x max_x (sector px (from, to)) = Some tr.
Proof.
  intros Hw Hnx (kept & ps & Av & P & Nps & Lt & Ht). rewrite (trace_run _ _ _ _ _ _ _ _ _ _ Hnx Av). set (avg := map _ kept) in *.
  assert (Na : avg <> []). { intros E. destruct ps as [|p ps]; [easy|]. destruct P as [_ P]. destruct (proj1 (P p) ltac:(now left)) as [[Q _] _]. rewrite E in Q. cbn in Q. lia. }
  rewrite (find_peaks_ok avg w thresh ps Hw Na P). cbn [bind]. destruct ps as [|p0 ps']; [easy|]. set (ps := p0 :: ps') in *. f_equal.
  assert (Ep : pyslice ps 0 (Z.of_nat mx) = firstn mx ps).
  { destruct (Nat.leb_spec mx (length ps)) as [Q|Q]; [now apply pyslice_firstn|]. unfold pyslice. cbv zeta.
    replace (pybound (Z.of_nat (length ps)) 0) with 0%Z by (unfold pybound; destruct (Z.ltb_spec 0 0); lia).
    replace (pybound (Z.of_nat (length ps)) (Z.of_nat mx)) with (Z.of_nat (length ps)) by (unfold pybound; destruct (Z.ltb_spec (Z.of_nat mx) 0); lia).
    rewrite Nat2Z.id. cbn [Z.to_nat skipn]. rewrite Nat.sub_0_r, !firstn_all2 by lia. reflexivity. }
  rewrite Ep. apply nth_error_ext. intros k. rewrite nth_error_map.
  assert (Q : forall {A} (l : list A) n k, (k < n)%nat -> nth_error (firstn n l) k = nth_error l k).
  { clear. intros A l. induction l as [|a l IH]; intros [|m] [|j] Hj; cbn; try reflexivity; try lia. apply IH. lia. }
  destruct (nth_error tr k) as [t|] eqn:Et.
  - assert (Hk : (k < length tr)%nat) by (apply nth_error_Some; congruence). destruct (Ht k t Et) as (p & b & Ek & Sb & ->). rewrite Q by lia. rewrite Ek. cbn [option_map]. f_equal.
    exact (sample_fun _ _ _ _ (sample_at _ p (sample_range _ _ _ Sb)) Sb).
  - apply nth_error_None in Et. rewrite (proj2 (nth_error_None (firstn mx ps) k)); [reflexivity|]. rewrite firstn_length. lia.
Qed.
(** ** the shift *)
Lemma mapM_ok {A B} (f : A -> option B) l r : length r = length l -> (forall k a, nth_error l k = Some a -> exists b, nth_error r k = Some b /\ f a = Some b) -> mapM f l = Some r.
Proof.
  revert r. induction l as [|a l IH]; intros [|b r] L H; try discriminate; [reflexivity|]. cbn. destruct (H 0%nat a eq_refl) as (b' & E & F). cbn in E. injection E as <-. rewrite F. cbn [bind].
  rewrite (IH r); [reflexivity|cbn in L; lia|]. intros k. exact (H (S k)).
Qed.
Lemma nat_min_ok l : forall a, (nat_min a l <= a)%nat /\ (forall b, In b l -> (nat_min a l <= b)%nat) /\ In (nat_min a l) (a :: l).
Proof.
  induction l as [|b l IH]; intros a; cbn [nat_min]; [split; [lia|]; split; [easy|now left]|]. destruct (IH (Nat.min a b)) as (A & B & C). split; [lia|]. split.
  - intros c [<-|Hc]; [lia|now apply B].
  - destruct C as [C|C]; [|right; now right]. rewrite <- C. destruct (Nat.min_dec a b) as [->| ->]; [now left|right; now left].
Qed.
Lemma sum_to_ext n f g : (forall k, (k < n)%nat -> f k = g k) -> sum_to n f = sum_to n g.
Proof. induction n as [|n IH]; intros H; cbn; [reflexivity|]. rewrite IH, H by (intros; try apply H; lia). reflexivity. Qed.
Lemma sum_to_plus n f g : sum_to n (fun k => f k + g k) = sum_to n f + sum_to n g.
Proof. induction n as [|n IH]; cbn; [ring|]. rewrite IH. ring. Qed.
Lemma sum_to_scale n c f : sum_to n (fun k => c * f k) = c * sum_to n f.
Proof. induction n as [|n IH]; cbn; [ring|]. rewrite IH. ring. Qed.
Lemma sum_to_const n c : sum_to n (fun _ => c) = INR n * c.
Proof. induction n as [|n IH]; [cbn; ring|]. cbn [sum_to]. rewrite IH, S_INR. ring. Qed.
Lemma sum_to_le n f b : (forall k, (k < n)%nat -> Rabs (f k) <= b) -> Rabs (sum_to n f) <= INR n * b.
Proof.
  induction n as [|n IH]; intros H; [cbn; rewrite Rabs_R0; lra|]. cbn [sum_to]. rewrite S_INR. eapply Rle_trans; [apply Rabs_triang|].
  pose proof (H n ltac:(lia)). pose proof (IH ltac:(intros; apply H; lia)). lra.
Qed.
Lemma total_app a b : total (a ++ b) = total a + total b.
Proof. induction a as [|x a IH]; cbn; [ring|]. rewrite IH. ring. Qed.
Lemma total_seq (f : nat -> R) n : total (map f (seq 0 n)) = sum_to n f.
Proof. induction n as [|n IH]; [reflexivity|]. rewrite seq_S, map_app, total_app, IH. cbn. ring. Qed.
Lemma total_nth l : total l = sum_to (length l) (fun k => nth k l 0).
Proof. rewrite <- total_seq. f_equal. rewrite <- (map_nth_seq 0 l) at 1. reflexivity. Qed.
Lemma total_map_nth {A} (d : A) (f : A -> R) l : total (map f l) = sum_to (length l) (fun k => f (nth k l d)).
Proof. rewrite <- (map_nth_seq d l) at 1. rewrite map_map. apply total_seq. Qed.
Lemma phi_len n : length (phi_edges (S n)) = S n. Proof. apply rlinspace_len. Qed.
Lemma phi_nth n k : (0 < n)%nat -> (k <= n)%nat -> nth_error (phi_edges (S n)) k = Some (edge (- PI) PI n k).
Proof. intros Hn Hk. unfold phi_edges. replace (S n) with (n + 1)%nat by lia. now apply rlinspace_nth. Qed.
Lemma angle_center n k : (0 < n)%nat -> (edge (- PI) PI n k + edge (- PI) PI n (S k)) * (1 / 2) = sector_angle n k.
Proof. intros Hn. unfold edge, sector_angle. rewrite S_INR. field. apply not_0_INR. lia. Qed.
Lemma phi_centers n : (0 < n)%nat -> centers (phi_edges (S n)) = map (sector_angle n) (seq 0 n).
Proof.
  intros Hn. apply nth_error_ext. intros k. destruct (Nat.ltb_spec k n) as [Hk|Hk].
  - rewrite nth_error_map_seq by exact Hk. rewrite (centers_nth _ k _ _ (phi_nth n k Hn ltac:(lia)) (phi_nth n (S k) Hn ltac:(lia))). now rewrite angle_center.
  - rewrite !(proj2 (nth_error_None _ _)); [reflexivity|rewrite map_length, seq_length; lia|rewrite centers_len, phi_len; lia].
Qed.
Lemma pairwise_map_seq (f : nat -> R) n s : pairwise (map f (seq s n)) = map (fun k => (f k, f (S k))) (seq s (n - 1)).
Proof.
  revert s. induction n as [|n IH]; intros s; [reflexivity|]. destruct n as [|n]; [reflexivity|]. specialize (IH (S s)).
  cbn [seq map pairwise] in *. rewrite IH. replace (S (S n) - 1)%nat with (S n) by lia. cbn [seq map]. replace (S n - 1)%nat with n by lia. reflexivity.
Qed.
Lemma delta_ok n : (2 <= n)%nat -> mean (diffs (map (sector_angle n) (seq 0 n))) = 2 * PI / INR n.
Proof.
  intros Hn. assert (N : INR n <> 0) by (apply not_0_INR; lia). unfold diffs. rewrite pairwise_map_seq, map_map. cbn [fst snd].
  assert (E : map (fun x => sector_angle n (S x) - sector_angle n x) (seq 0 (n - 1)) = map (fun _ => 2 * PI / INR n) (seq 0 (n - 1))).
  { apply map_ext. intros k. unfold sector_angle. rewrite S_INR. field. exact N. }
  rewrite E. unfold mean. rewrite map_length, seq_length. change rsuml with total. rewrite total_seq, sum_to_const.
  assert (INR (n - 1) <> 0) by (apply not_0_INR; lia). field. auto.
Qed.
Lemma fourier_ok f n (u : nat -> R) : (2 <= n)%nat -> fourier f (map (sector_angle n) (seq 0 n)) (map u (seq 0 n)) = 2 / INR n * sum_to n (fun k => f (sector_angle n k) * u k).
Proof.
  intros Hn. unfold fourier. rewrite (delta_ok n Hn).
  assert (E : map (fun p => f (fst p) * snd p) (combine (map (sector_angle n) (seq 0 n)) (map u (seq 0 n))) = map (fun k => f (sector_angle n k) * u k) (seq 0 n)).
  { generalize 0%nat. generalize n at 2 3 5. intros m. induction m as [|m IH]; intros s; [reflexivity|]. cbn [seq map combine fst snd]. f_equal. apply IH. }
  rewrite E. change rsuml with total. rewrite total_seq. field. split; [apply not_0_INR; lia|apply PI_neq0].
Qed.
Definition meets_all (px : list (R * (R * R))) n nx min_x max_x w thresh mx ts :=
  length ts = n /\ forall k t, nth_error ts k = Some t -> traced px (edge (- PI) PI n k) (edge (- PI) PI n (S k)) nx min_x max_x w thresh mx t.
Theorem center_ok h w II center size n mx thresh win nx min_x max_x px ts m (u : nat -> R) nxn : length II = (h * w)%nat -> pixel_list h w II center size px ->
  (1 <= win)%Z -> (2 <= n)%nat -> nxn = match nx with Some z => Z.to_nat z | None => (h + w)%nat end -> (0 < nxn)%nat ->
  length ts = n -> (forall k t, nth_error ts k = Some t -> traced px (edge (- PI) PI n k) (edge (- PI) PI n (S k)) nxn min_x max_x win thresh mx t) ->
  (forall t, In t ts -> (m <= length t)%nat) -> (exists t, In t ts /\ length t = m) -> (0 < m)%nat -> (forall k, (k < n)%nat -> deviation ts m k (u k)) ->
  refine_center h w II center size (S n) (Z.of_nat mx) thresh win nx min_x max_x =
  Some (Some (fst center + 2 / INR n * sum_to n (fun k => cos (sector_angle n k) * u k) / fst size, snd center + 2 / INR n * sum_to n (fun k => sin (sector_angle n k) * u k) / snd size)).
Proof.
  intros LI P Hw Hn En Hnx Lts HT Hm1 [tm [Im Lm]] Hm Hu. unfold refine_center.
  assert (EN : match nx with Some n0 => n0 | None => Z.of_nat (h + w) end = Z.of_nat nxn) by (destruct nx as [z|]; lia). rewrite EN, (pixels_ok _ _ _ _ _ _ LI P).
  rewrite (mapM_ok _ _ ts).
  2: { rewrite pairwise_len, phi_len. lia. }
  2: { intros k a Ha. assert (Hk : (k < n)%nat) by (assert (Q : nth_error (pairwise (phi_edges (S n))) k <> None) by congruence; apply nth_error_Some in Q; rewrite pairwise_len, phi_len in Q; lia).
       rewrite (pairwise_nth _ k _ _ (phi_nth n k ltac:(lia) ltac:(lia)) (phi_nth n (S k) ltac:(lia) ltac:(lia))) in Ha. injection Ha as <-.
       destruct (nth_error ts k) as [t|] eqn:Et; [|apply nth_error_None in Et; lia]. exists t. split; [reflexivity|]. apply trace_ok; [exact Hw|exact Hnx|]. now apply HT. }
  cbn [bind]. destruct ts as [|t0 tr]; [cbn in Lts; lia|]. cbn [map]. destruct (nat_min_ok (map (@length R) tr) (length t0)) as (A & B & C).
  assert (Em : nat_min (length t0) (map (@length R) tr) = m).
  { apply Nat.le_antisymm.
    - destruct Im as [->|Im]; [lia|]. rewrite <- Lm. apply B. now apply in_map.
    - destruct C as [<-|C]; [apply Hm1; now left|]. apply in_map_iff in C as (t & <- & It). apply Hm1. now right. }
  rewrite Em. set (ts := t0 :: tr) in *. rewrite phi_centers by lia. rewrite map_length, seq_length.
  replace (m =? 0)%nat with false by (symmetry; apply Nat.eqb_neq; lia). replace (n <? 2)%nat with false by (symmetry; apply Nat.ltb_ge; lia). cbn [orb].
  assert (ED : mean_dr ts m = map u (seq 0 n)).
  { unfold mean_dr. apply nth_error_ext. intros k. rewrite nth_error_map. destruct (Nat.ltb_spec k n) as [Hk|Hk].
    - rewrite nth_error_map_seq by exact Hk. destruct (Hu k Hk) as (t & Et & Q). rewrite Et. cbn [option_map]. f_equal.
      unfold mean. rewrite map_length, seq_length. change rsuml with total. rewrite total_seq.
      apply (Rmult_eq_reg_l (INR m)); [|apply not_0_INR; lia]. cbn [Nat.add]. rewrite Q.
      replace (INR m * (sum_to m (fun j => nth j t 0 - ring_mean ts j) / INR m)) with (sum_to m (fun j => nth j t 0 - ring_mean ts j)) by (field; apply not_0_INR; lia).
      apply sum_to_ext. intros j _. unfold entry, ring_mean, mean. rewrite map_length. reflexivity.
    - rewrite !(proj2 (nth_error_None _ _)); [reflexivity|rewrite map_length, seq_length; lia|lia]. }
  rewrite ED, !fourier_ok by exact Hn. reflexivity.
Qed.
(** ** sums over the sectors *)
Lemma tele n (f : nat -> R) : sum_to n (fun k => f (S k) - f k) = f n - f 0%nat.
Proof. induction n as [|n IH]; cbn [sum_to]; [ring|]. rewrite IH. ring. Qed.
Lemma sin_small n : (2 <= n)%nat -> sin (PI / INR n) <> 0.
Proof.
  intros Hn. assert (0 < INR n) by (apply lt_0_INR; lia). assert (2 <= INR n) by (change 2 with (INR 2); apply le_INR; lia). pose proof PI_RGT_0.
  assert (0 < PI / INR n) by (apply Rdiv_lt_0_compat; lra). assert (PI / INR n < PI).
  { apply (Rmult_lt_reg_r (INR n)); [lra|]. replace (PI / INR n * INR n) with PI by (field; lra). nra. }
  assert (0 < sin (PI / INR n)) by (apply sin_gt_0; lra). lra.
Qed.
Lemma cos_diff a d : sin (a + d) - sin (a - d) = 2 * cos a * sin d.
Proof. rewrite sin_plus, sin_minus. ring. Qed.
Lemma sin_diff a d : cos (a - d) - cos (a + d) = 2 * sin a * sin d.
Proof. rewrite cos_plus, cos_minus. ring. Qed.
Lemma harmonic a d n : sin d <> 0 -> 2 * INR n * d = 2 * PI \/ 2 * INR n * d = 4 * PI ->
  sum_to n (fun k => cos (a + (2 * INR k + 1) * d)) = 0 /\ sum_to n (fun k => sin (a + (2 * INR k + 1) * d)) = 0.
Proof.
  intros Hs Hn. assert (P : sin (a + 2 * INR n * d) = sin a /\ cos (a + 2 * INR n * d) = cos a).
  { assert (T : forall b, sin (b + 2 * PI) = sin b /\ cos (b + 2 * PI) = cos b) by (intros b; rewrite sin_plus, cos_plus, sin_2PI, cos_2PI; split; ring).
    destruct Hn as [-> | ->]; [apply T|]. replace (a + 4 * PI) with (a + 2 * PI + 2 * PI) by ring. destruct (T (a + 2 * PI)) as [-> ->]. apply T. }
  split; apply (Rmult_eq_reg_l (2 * sin d)); try lra; rewrite Rmult_0_r, <- sum_to_scale.
  - rewrite (sum_to_ext n _ (fun k => (fun k => sin (a + 2 * INR k * d)) (S k) - (fun k => sin (a + 2 * INR k * d)) k)).
    + pose proof (tele n (fun k => sin (a + 2 * INR k * d))) as T. cbv beta in T. rewrite T. cbn [INR]. rewrite (proj1 P). replace (a + 2 * 0 * d) with a by ring. ring.
    + intros k _. cbv beta. rewrite S_INR. replace (a + 2 * (INR k + 1) * d) with (a + (2 * INR k + 1) * d + d) by ring.
      replace (a + 2 * INR k * d) with (a + (2 * INR k + 1) * d - d) by ring. rewrite cos_diff. ring.
  - rewrite (sum_to_ext n _ (fun k => (fun k => - cos (a + 2 * INR k * d)) (S k) - (fun k => - cos (a + 2 * INR k * d)) k)).
    + pose proof (tele n (fun k => - cos (a + 2 * INR k * d))) as T. cbv beta in T. rewrite T. cbn [INR]. rewrite (proj2 P). replace (a + 2 * 0 * d) with a by ring. ring.
    + intros k _. cbv beta. rewrite S_INR. replace (a + 2 * (INR k + 1) * d) with (a + (2 * INR k + 1) * d + d) by ring.
      replace (a + 2 * INR k * d) with (a + (2 * INR k + 1) * d - d) by ring. pose proof (sin_diff (a + (2 * INR k + 1) * d) d). lra.
Qed.
Lemma sector_sums n : (3 <= n)%nat ->
  sum_to n (fun k => cos (sector_angle n k)) = 0 /\ sum_to n (fun k => sin (sector_angle n k)) = 0 /\
  sum_to n (fun k => cos (sector_angle n k) * cos (sector_angle n k)) = INR n / 2 /\ sum_to n (fun k => sin (sector_angle n k) * sin (sector_angle n k)) = INR n / 2 /\
  sum_to n (fun k => cos (sector_angle n k) * sin (sector_angle n k)) = 0.
Proof.
  intros Hn. assert (N : INR n <> 0) by (apply not_0_INR; lia).
  assert (E1 : forall k, sector_angle n k = - PI + (2 * INR k + 1) * (PI / INR n)) by (intros k; unfold sector_angle; field; exact N).
  assert (E2 : forall k, 2 * sector_angle n k = - 2 * PI + (2 * INR k + 1) * (2 * PI / INR n)) by (intros k; unfold sector_angle; field; exact N).
  destruct (harmonic (- PI) (PI / INR n) n (sin_small n ltac:(lia)) ltac:(left; field; exact N)) as [C1 S1].
  assert (D : sin (2 * PI / INR n) <> 0).
  { assert (3 <= INR n) by (replace 3 with (INR 3) by (cbn; ring); apply le_INR; lia). pose proof PI_RGT_0.
    assert (0 < 2 * PI / INR n) by (apply Rdiv_lt_0_compat; lra). assert (2 * PI / INR n < PI).
    { apply (Rmult_lt_reg_r (INR n)); [lra|]. replace (2 * PI / INR n * INR n) with (2 * PI) by (field; lra). nra. }
    assert (0 < sin (2 * PI / INR n)) by (apply sin_gt_0; lra). lra. }
  destruct (harmonic (- 2 * PI) (2 * PI / INR n) n D ltac:(right; field; exact N)) as [C2 S2].
  split; [rewrite <- C1; apply sum_to_ext; intros k _; now rewrite E1|]. split; [rewrite <- S1; apply sum_to_ext; intros k _; now rewrite E1|].
  split; [|split].
  - rewrite (sum_to_ext n _ (fun k => 1 / 2 + 1 / 2 * cos (- 2 * PI + (2 * INR k + 1) * (2 * PI / INR n)))).
    + rewrite sum_to_plus, sum_to_const, sum_to_scale, C2. field.
    + intros k _. rewrite <- E2, cos_2a_cos. field.
  - rewrite (sum_to_ext n _ (fun k => 1 / 2 + - (1 / 2) * cos (- 2 * PI + (2 * INR k + 1) * (2 * PI / INR n)))).
    + rewrite sum_to_plus, sum_to_const, sum_to_scale, C2. field.
    + intros k _. rewrite <- E2, cos_2a_sin. field.
  - rewrite (sum_to_ext n _ (fun k => 1 / 2 * sin (- 2 * PI + (2 * INR k + 1) * (2 * PI / INR n)))).
    + rewrite sum_to_scale, S2. ring.
    + intros k _. rewrite <- E2, sin_2a. field.
Qed.
(** Averages of values within e of a + b·cos + c·sin recover b and c within 4e. *)
Lemma recover n m ts (u : nat -> R) (RR : nat -> R) dx dy eps : (3 <= n)%nat -> length ts = n -> (0 < m)%nat -> (forall k, (k < n)%nat -> deviation ts m k (u k)) ->
  (forall k t j, nth_error ts k = Some t -> (j < m)%nat -> Rabs (entry t j - (RR j + dx * cos (sector_angle n k) + dy * sin (sector_angle n k))) <= eps) ->
  Rabs (2 / INR n * sum_to n (fun k => cos (sector_angle n k) * u k) - dx) <= 4 * eps /\
  Rabs (2 / INR n * sum_to n (fun k => sin (sector_angle n k) * u k) - dy) <= 4 * eps.
Proof.
  intros Hn L Hm Hu HE. assert (N : 0 < INR n) by (apply lt_0_INR; lia). assert (M : 0 < INR m) by (apply lt_0_INR; lia).
  destruct (sector_sums n Hn) as (SC & SS & SCC & SSS & SCS).
  set (c := fun k => cos (sector_angle n k)) in *. set (s := fun k => sin (sector_angle n k)) in *.
  set (x := fun k j => entry (nth k ts []) j - (RR j + dx * c k + dy * s k)).
  assert (X : forall k j, (k < n)%nat -> (j < m)%nat -> Rabs (x k j) <= eps).
  { intros k j Hk Hj. apply HE; [|exact Hj]. apply nth_error_nth'. lia. }
  assert (Mean : forall j, total (map (fun t => entry t j) ts) / INR (length ts) = RR j + sum_to n (fun k => x k j) / INR n).
  { intros j. rewrite (total_map_nth []), L. rewrite (sum_to_ext n _ (fun k => x k j + (RR j + (dx * c k + dy * s k)))) by (intros k _; unfold x; ring).
    rewrite sum_to_plus, sum_to_plus, sum_to_plus, sum_to_const, !sum_to_scale.
    rewrite SC, SS. field. lra. }
  assert (U : forall k, (k < n)%nat -> Rabs (u k - (dx * c k + dy * s k)) <= 2 * eps).
  { intros k Hk. destruct (Hu k Hk) as (t & Et & Q). apply (nth_error_nth _ _ []) in Et.
    assert (Q2 : INR m * (u k - (dx * c k + dy * s k)) = sum_to m (fun j => x k j - sum_to n (fun k => x k j) / INR n)).
    { rewrite Rmult_minus_distr_l, Q. rewrite <- sum_to_const. apply (Rplus_eq_reg_r (sum_to m (fun _ => dx * c k + dy * s k))). rewrite <- sum_to_plus.
      unfold Rminus at 1. rewrite Rplus_assoc, Rplus_opp_l, Rplus_0_r. apply sum_to_ext. intros j _. rewrite Mean. unfold x at 2. rewrite Et. ring. }
    apply (Rmult_le_reg_l (INR m)); [exact M|]. rewrite <- (Rabs_pos_eq (INR m)) at 1 by lra. rewrite <- Rabs_mult, Q2. apply sum_to_le. intros j Hj.
    unfold Rminus. eapply Rle_trans; [apply Rabs_triang|]. rewrite Rabs_Ropp. pose proof (X k j Hk Hj).
    assert (Rabs (sum_to n (fun k0 => x k0 j) / INR n) <= eps).
    { unfold Rdiv. rewrite Rabs_mult, (Rabs_pos_eq (/ INR n)) by (apply Rlt_le, Rinv_0_lt_compat, N). apply (Rmult_le_reg_r (INR n)); [exact N|].
      rewrite Rmult_assoc, Rinv_l, Rmult_1_r by lra. rewrite Rmult_comm. rewrite Rmult_comm, (Rmult_comm eps). apply sum_to_le. intros i Hi. now apply X. }
    lra. }
  assert (F : forall f : nat -> R, (forall k, Rabs (f k) <= 1) -> Rabs (2 / INR n * sum_to n (fun k => f k * u k) - 2 / INR n * sum_to n (fun k => f k * (dx * c k + dy * s k))) <= 4 * eps).
  { intros f Hf. replace (2 / INR n * sum_to n (fun k => f k * u k) - 2 / INR n * sum_to n (fun k => f k * (dx * c k + dy * s k)))
      with (2 / INR n * sum_to n (fun k => f k * (u k - (dx * c k + dy * s k)))).
    2: { rewrite (sum_to_ext n (fun k => f k * (u k - (dx * c k + dy * s k))) (fun k => f k * u k + -1 * (f k * (dx * c k + dy * s k)))) by (intros; ring). rewrite sum_to_plus, sum_to_scale. ring. }
    rewrite Rabs_mult, (Rabs_pos_eq (2 / INR n)) by (apply Rlt_le, Rdiv_lt_0_compat; lra). apply (Rmult_le_reg_l (INR n / 2)); [lra|].
    rewrite <- Rmult_assoc. replace (INR n / 2 * (2 / INR n)) with 1 by (field; lra). rewrite Rmult_1_l. replace (INR n / 2 * (4 * eps)) with (INR n * (2 * eps)) by field.
    apply sum_to_le. intros k Hk. rewrite Rabs_mult. pose proof (U k Hk). pose proof (Hf k). pose proof (Rabs_pos (f k)). pose proof (Rabs_pos (u k - (dx * c k + dy * s k))). nra. }
  assert (CB : forall t, Rabs (cos t) <= 1) by (intros t; apply Rabs_le; pose proof (COS_bound t); lra).
  assert (SB : forall t, Rabs (sin t) <= 1) by (intros t; apply Rabs_le; pose proof (SIN_bound t); lra).
  split.
  - pose proof (F c (fun k => CB _)) as G. rewrite (sum_to_ext n (fun k => c k * (dx * c k + dy * s k)) (fun k => dx * (c k * c k) + dy * (c k * s k))) in G by (intros; ring).
    rewrite sum_to_plus, !sum_to_scale in G. unfold c, s in G. rewrite SCC, SCS in G. replace (2 / INR n * (dx * (INR n / 2) + dy * 0)) with dx in G by (field; lra). exact G.
  - pose proof (F s (fun k => SB _)) as G. rewrite (sum_to_ext n (fun k => s k * (dx * c k + dy * s k)) (fun k => dx * (c k * s k) + dy * (s k * s k))) in G by (intros; ring).
    rewrite sum_to_plus, !sum_to_scale in G. unfold c, s in G. rewrite SSS, SCS in G. replace (2 / INR n * (dx * 0 + dy * (INR n / 2))) with dy in G by (field; lra). exact G.
Qed.
(** ** failures *)
Lemma mapM_none {A B} (f : A -> option B) l k a : nth_error l k = Some a -> f a = None -> mapM f l = None.
Proof. revert k. induction l as [|b l IH]; intros [|k] H F; cbn in *; try discriminate; [injection H as ->; now rewrite F|]. rewrite (IH k H F). now destruct (f b). Qed.
Lemma dark_trace mx w thresh nx min_x max_x (xs : list (R * R)) : (forall p, In p xs -> snd p = 0) -> ring_trace mx w thresh nx min_x max_x xs = None.
Proof.
  intros D. unfold ring_trace. destruct (bin_1D xs nx min_x max_x) as [[c b]|] eqn:E; [|reflexivity]. cbn [bind fst snd].
  assert (K : filter (fun p : R * (R * nat) => rltb 10 (fst (snd p))) (combine (centers c) b) = []).
  { unfold bin_1D in E. destruct (match min_x with Some m => Some m | None => np_min (map fst xs) end); [|discriminate]. cbn [bind] in E.
    destruct (match max_x with Some m => Some m | None => np_max (map fst xs) end); [|discriminate]. cbn [bind] in E. destruct (_ <? 0)%Z; [discriminate|]. destruct (_ && _); [discriminate|].
    injection E as _ <-. set (e := rlinspace _ _ _). clearbody e.
    assert (H : forall q, In q (map (fun b => (rsuml (map snd b), length b)) (hist xs e)) -> fst q = 0).
    { intros q Q. apply in_map_iff in Q as (bb & <- & I). cbn [fst].
      assert (S : forall p, In p bb -> In p xs).
      { clear - I. revert I. induction e as [|a e IH]; intros I; [destruct I|]. destruct e as [|a' e']; [destruct I|]. cbn [hist] in I. destruct I as [<-|I]; [|now apply IH]. intros p Hp. now apply filter_In in Hp. }
      clear I. induction bb as [|p bb IH]; [reflexivity|]. cbn. rewrite (D p) by (apply S; now left). rewrite IH; [ring|]. intros q Hq. apply S. now right. }
    revert H. generalize (map (fun b => (rsuml (map snd b), length b)) (hist xs e)). intros l. generalize (centers c). induction l as [|q l IH]; intros [|a c0] H; cbn; try reflexivity.
    rewrite (H q) by now left. replace (rltb 10 0) with false; [apply IH; intros; apply H; now right|]. symmetry. destruct (rltb 10 0) eqn:F; [apply rltb_true in F; lra|reflexivity]. }
  rewrite K. unfold find_peaks, argrelmax. now destruct (w <? 1)%Z.
Qed.
Lemma center_dark h w II center size n mx thresh win nx min_x max_x px k : length II = (h * w)%nat -> pixel_list h w II center size px -> (k < n)%nat ->
  (forall phi r v, In (phi, (r, v)) px -> edge (- PI) PI n k < phi <= edge (- PI) PI n (S k) -> v = 0) ->
  refine_center h w II center size (S n) mx thresh win nx min_x max_x = None.
Proof.
  intros LI P Hk D. unfold refine_center. rewrite (pixels_ok _ _ _ _ _ _ LI P).
  rewrite (mapM_none _ _ k (edge (- PI) PI n k, edge (- PI) PI n (S k))); [reflexivity| |].
  - apply pairwise_nth; apply phi_nth; lia.
  - apply dark_trace. intros p I. unfold sector in I. apply in_map_iff in I as ([phi [r v]] & <- & I). apply filter_In in I as [I C]. cbn [fst snd] in *.
    apply andb_true_iff in C as [C1 C2]. apply rleb_true in C1. apply rltb_true in C2. exact (D phi r v I (conj C2 C1)).
Qed.
Lemma center_ringless h w II center size n mx thresh win nx min_x max_x px k nxn : length II = (h * w)%nat -> pixel_list h w II center size px ->
  (1 <= win)%Z -> nxn = match nx with Some z => Z.to_nat z | None => (h + w)%nat end -> (0 < nxn)%nat -> (k < n)%nat ->
  ringless px (edge (- PI) PI n k) (edge (- PI) PI n (S k)) nxn min_x max_x win thresh ->
  refine_center h w II center size (S n) mx thresh win nx min_x max_x = None.
Proof.
  intros LI P Hw En Hnx Hk D. unfold refine_center. rewrite (pixels_ok _ _ _ _ _ _ LI P).
  assert (EN : match nx with Some n0 => n0 | None => Z.of_nat (h + w) end = Z.of_nat nxn) by (destruct nx as [z|]; lia). rewrite EN.
  rewrite (mapM_none _ _ k (edge (- PI) PI n k, edge (- PI) PI n (S k))); [reflexivity| |].
  - apply pairwise_nth; apply phi_nth; lia.
  - now apply trace_none.
Qed.
