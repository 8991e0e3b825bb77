From Coq Require Import Reals List Lia.
From Verif Require Import Common Recip_Model Recip_Spec.
From Coq Require Import Lra.
Local Open Scope R_scope.

(** ** Buffers *)
Lemma triples_flat3 l : triples (flat3 l) = l.
Proof. induction l as [|[[a b] c] l IH]; [reflexivity|]. cbn. f_equal. exact IH. Qed.
Lemma couples_flat2 l : couples (flat2 l) = l.
Proof. induction l as [|[a b] l IH]; [reflexivity|]. cbn. f_equal. exact IH. Qed.
Lemma flat3_len l : length (flat3 l) = (length l * 3)%nat.
Proof. induction l as [|[[a b] c] l IH]; [reflexivity|]. unfold flat3 in *. cbn. rewrite IH. reflexivity. Qed.
Lemma flat2_len l : length (flat2 l) = (length l * 2)%nat.
Proof. induction l as [|[a b] l IH]; [reflexivity|]. unfold flat2 in *. cbn. rewrite IH. reflexivity. Qed.
Lemma nth_flat3 l k v : nth_error l k = Some v -> nth_error (flat3 l) (k * 3) = Some (fst (fst v)) /\
  nth_error (flat3 l) (k * 3 + 1) = Some (snd (fst v)) /\ nth_error (flat3 l) (k * 3 + 2) = Some (snd v).
Proof.
  revert k. induction l as [|[[a b] c] l IH]; intros [|k] H; cbn in H; try discriminate.
  - injection H as <-. cbn. auto.
  - specialize (IH k H). replace (S k * 3)%nat with (3 + k * 3)%nat by lia.
    replace (3 + k * 3 + 1)%nat with (3 + (k * 3 + 1))%nat by lia. replace (3 + k * 3 + 2)%nat with (3 + (k * 3 + 2))%nat by lia. exact IH.
Qed.
Lemma nth_skip {A} (l : list A) a k : nth_error (skipn a l) k = nth_error l (a + k).
Proof. revert a. induction l as [|x l IH]; intros [|a]; cbn; try reflexivity; [destruct k; reflexivity|apply IH]. Qed.
Lemma nth_firstn {A} (l : list A) a k : (k < a)%nat -> nth_error (firstn a l) k = nth_error l k.
Proof. revert a k. induction l as [|x l IH]; intros [|a] [|k] H; cbn; try reflexivity; try lia. apply IH. lia. Qed.
Lemma write_ok buf off vals : (off + length vals <= length buf)%nat -> exists b, write_block buf off vals = Some b /\
  length b = length buf /\ forall k, nth_error b k = if ((off <=? k) && (k <? off + length vals))%nat then nth_error vals (k - off) else nth_error buf k.
Proof.
  intros H. unfold write_block. replace (off + length vals <=? length buf)%nat with true by (symmetry; apply Nat.leb_le; exact H).
  eexists. split; [reflexivity|]. assert (Lf : length (firstn off buf) = off) by (rewrite firstn_length; lia).
  split; [rewrite !app_length, Lf, skipn_length; lia|]. intros k.
  destruct ((off <=? k) && (k <? off + length vals))%nat eqn:E.
  - rewrite nth_error_app2 by lia. rewrite Lf. rewrite nth_error_app1 by lia. reflexivity.
  - destruct (Nat.lt_ge_cases k off) as [L|G].
    + rewrite nth_error_app1 by lia. apply nth_firstn. exact L.
    + rewrite nth_error_app2 by lia. rewrite Lf. rewrite nth_error_app2 by lia. rewrite nth_skip. f_equal. lia.
Qed.
Lemma read_ok buf off n vals : (off + n <= length buf)%nat -> length vals = n ->
  (forall k, (k < n)%nat -> nth_error buf (off + k) = nth_error vals k) -> read_block buf off n = Some vals.
Proof.
  intros H L HN. unfold read_block. replace (off + n <=? length buf)%nat with true by (symmetry; apply Nat.leb_le; exact H). f_equal.
  apply nth_error_ext_len; [rewrite firstn_length, skipn_length; lia|]. intros k Hk. rewrite firstn_length, skipn_length in Hk.
  rewrite nth_firstn, nth_skip by lia. apply HN. lia.
Qed.
Definition holds (buf : list R) (off : nat) (vals : list R) : Prop := forall k, (k < length vals)%nat -> nth_error buf (off + k) = nth_error vals k.
Definition same_outside (b buf : list R) (off n : nat) : Prop := length b = length buf /\ forall k, (k < off \/ off + n <= k)%nat -> nth_error b k = nth_error buf k.
Lemma write_holds buf off vals n : (off + n <= length buf)%nat -> length vals = n -> exists b, write_block buf off vals = Some b /\ holds b off vals /\ same_outside b buf off n.
Proof.
  intros H L. destruct (write_ok buf off vals ltac:(lia)) as [b [E [Lb HN]]]. exists b. split; [exact E|]. split.
  - intros k Hk. rewrite HN. replace ((off <=? off + k) && (off + k <? off + length vals))%nat with true by (symmetry; apply andb_true_iff; split; [apply Nat.leb_le|apply Nat.ltb_lt]; lia).
    f_equal. lia.
  - split; [exact Lb|]. intros k Hk. rewrite HN. replace ((off <=? k) && (k <? off + length vals))%nat with false; [reflexivity|].
    symmetry. apply andb_false_iff. rewrite Nat.leb_gt, Nat.ltb_ge. lia.
Qed.
Lemma over_ok buf off n (l : list V3) f : (off + n <= length buf)%nat -> (length l * 3)%nat = n -> holds buf off (flat3 l) ->
  exists b, over_block buf off n f = Some b /\ holds b off (flat3 (map f l)) /\ same_outside b buf off n.
Proof.
  intros H L Hh. unfold over_block. rewrite (read_ok buf off n (flat3 l)); [|exact H|rewrite flat3_len; exact L|intros k Hk; apply Hh; rewrite flat3_len, L; exact Hk].
  cbn [bind]. rewrite triples_flat3. apply write_holds; [exact H|]. rewrite flat3_len, map_length. exact L.
Qed.
Lemma same_trans a b c off n : same_outside a b off n -> same_outside b c off n -> same_outside a c off n.
Proof. intros [L1 H1] [L2 H2]. split; [congruence|]. intros k Hk. rewrite H1, H2 by exact Hk. reflexivity. Qed.

(** ** Pixels *)
Lemma len_flat_map_rows {A} (f : nat -> nat -> A) w h : forall s, length (flat_map (fun j => map (f j) (seq 0 w)) (seq s h)) = (h * w)%nat.
Proof. induction h as [|h IH]; intros s; [reflexivity|]. cbn [seq flat_map]. rewrite app_length, map_length, seq_length, IH. lia. Qed.
Lemma pixels_len d del gam : length (delta_gamma d del gam) = (xSize d * ySize d)%nat.
Proof.
  unfold delta_gamma. cbv zeta.
  rewrite (len_flat_map_rows (fun j i => (del - atan ((INR j - yCen d) * (yPixSize d / cdist d)), gam - atan ((INR i - xCen d) * (xPixSize d / cdist d))))). apply Nat.mul_comm.
Qed.
Lemma nth_flat_map_rows {A} (f : nat -> nat -> A) w h : forall s j c, (j < h)%nat -> (c < w)%nat ->
  nth_error (flat_map (fun j => map (f j) (seq 0 w)) (seq s h)) (j * w + c) = Some (f (s + j)%nat c).
Proof.
  induction h as [|h IH]; intros s j c Hj Hc; [lia|]. cbn [seq flat_map]. destruct j as [|j].
  - rewrite nth_error_app1 by (rewrite map_length, seq_length; lia). cbn. rewrite nth_error_map_seq by exact Hc. f_equal. f_equal. lia.
  - rewrite nth_error_app2 by (rewrite map_length, seq_length; lia). rewrite map_length, seq_length.
    replace (S j * w + c - w)%nat with (j * w + c)%nat by lia. rewrite IH by lia. f_equal. f_equal. lia.
Qed.
Lemma pixel_nth d del gam j c : (j < ySize d)%nat -> (c < xSize d)%nat -> nth_error (delta_gamma d del gam) (j * xSize d + c) =
  Some (del - atan ((INR j - yCen d) * (yPixSize d / cdist d)), gam - atan ((INR c - xCen d) * (xPixSize d / cdist d))).
Proof.
  intros Hj Hc. unfold delta_gamma. cbv zeta.
  rewrite (nth_flat_map_rows (fun j i => (del - atan ((INR j - yCen d) * (yPixSize d / cdist d)), gam - atan ((INR i - xCen d) * (xPixSize d / cdist d)))) (xSize d) (ySize d) 0 j c Hj Hc).
  reflexivity.
Qed.

(** ** processImages *)
Definition at_pixel (mode : nat) (U : mat) (theta chi phi mu lambda : R) (dg : R * R) : V3 :=
  let q := q_theta theta mu lambda dg in
  let q := if (1 <? mode)%nat then mulv (phi_matrix chi phi) q else q in
  if (mode =? 4)%nat then mulv U q else q.
Definition six (angles : list R) (i : nat) (del theta chi phi mu gam : R) : Prop :=
  forall k, (k < 6)%nat -> nth_error angles (i * 6 + k) = nth_error [del; theta; chi; phi; mu; gam] k.
Definition image_done (d : ccd) (lambda : R) (mode : nat) (angles : list R) (U : mat) (q : list R) (i : nat) : Prop :=
  forall del theta chi phi mu gam, six angles i del theta chi phi mu gam ->
  holds q (i * (xSize d * ySize d) * 3) (flat3 (map (at_pixel mode U theta chi phi mu lambda) (delta_gamma d del gam))).
Lemma six_exists angles i n : length angles = (n * 6)%nat -> (i < n)%nat -> exists del theta chi phi mu gam, six angles i del theta chi phi mu gam.
Proof.
  intros L Hi. exists (nth (i * 6) angles 0), (nth (i * 6 + 1) angles 0), (nth (i * 6 + 2) angles 0), (nth (i * 6 + 3) angles 0), (nth (i * 6 + 4) angles 0), (nth (i * 6 + 5) angles 0).
  intros k Hk. rewrite (nth_error_nth_lt angles (i * 6 + k) 0) by lia.
  destruct k as [|[|[|[|[|[|k]]]]]]; try lia; cbn [nth_error]; f_equal; f_equal; lia.
Qed.
Lemma image_ok d lambda mode angles U n delgam q i : let size := (xSize d * ySize d)%nat in
  length angles = (n * 6)%nat -> (i < n)%nat -> length delgam = (n * size * 2)%nat -> length q = (n * size * 3)%nat ->
  exists delgam' q', image_step d lambda mode angles U (delgam, q) i = Some (delgam', q') /\ length delgam' = length delgam /\
    image_done d lambda mode angles U q' i /\ same_outside q' q (i * size * 3) (size * 3).
Proof.
  intros size La Hi Ld Lq. destruct (six_exists angles i n La Hi) as [del [theta [chi [phi [mu [gam H6]]]]]].
  assert (B : (i * size + size <= n * size)%nat) by nia.
  unfold image_step. fold size. rewrite (read_ok angles (i * 6) 6 [del; theta; chi; phi; mu; gam]); [|lia|reflexivity|exact H6]. cbn [bind].
  set (dg := delta_gamma d del gam). assert (Lg : length dg = size) by apply pixels_len.
  destruct (write_holds delgam (i * size * 2) (flat2 dg) (size * 2)) as [dl' [E1 [Hd [Ld' _]]]]; [rewrite Ld; nia|rewrite flat2_len, Lg; reflexivity|].
  rewrite E1. cbn [bind].
  rewrite (read_ok dl' (i * size * 2) (size * 2) (flat2 dg)); [|rewrite Ld', Ld; nia|rewrite flat2_len, Lg; reflexivity|intros k Hk; apply Hd; rewrite flat2_len, Lg; exact Hk].
  cbn [bind]. rewrite couples_flat2.
  destruct (write_holds q (i * size * 3) (flat3 (map (q_theta theta mu lambda) dg)) (size * 3)) as [q1 [E2 [H1 S1]]]; [rewrite Lq; nia|rewrite flat3_len, map_length, Lg; reflexivity|].
  rewrite E2. cbn [bind].
  assert (Step2 : exists q2, (if (1 <? mode)%nat then over_block q1 (i * size * 3) (size * 3) (mulv (phi_matrix chi phi)) else Some q1) = Some q2 /\
     holds q2 (i * size * 3) (flat3 (map (fun p => let q := q_theta theta mu lambda p in if (1 <? mode)%nat then mulv (phi_matrix chi phi) q else q) dg)) /\ same_outside q2 q (i * size * 3) (size * 3)).
  { destruct (1 <? mode)%nat.
    - destruct (over_ok q1 (i * size * 3) (size * 3) (map (q_theta theta mu lambda) dg) (mulv (phi_matrix chi phi))) as [q2 [E [H S]]];
        [rewrite (proj1 S1), Lq; nia|rewrite map_length, Lg; reflexivity|exact H1|].
      exists q2. split; [exact E|]. rewrite map_map in H. split; [exact H|]. eapply same_trans; eassumption.
    - exists q1. split; [reflexivity|]. split; [exact H1|exact S1]. }
  destruct Step2 as [q2 [E3 [H2 S2]]]. rewrite E3. cbn [bind].
  assert (Step3 : exists q3, (if (mode =? 4)%nat then over_block q2 (i * size * 3) (size * 3) (mulv U) else Some q2) = Some q3 /\
     holds q3 (i * size * 3) (flat3 (map (at_pixel mode U theta chi phi mu lambda) dg)) /\ same_outside q3 q (i * size * 3) (size * 3)).
  { unfold at_pixel. destruct (mode =? 4)%nat.
    - match type of H2 with holds _ _ (flat3 ?l) => destruct (over_ok q2 (i * size * 3) (size * 3) l (mulv U)) as [q3 [E [H S]]] end;
        [rewrite (proj1 S2), Lq; nia|rewrite map_length, Lg; reflexivity|exact H2|].
      exists q3. split; [exact E|]. rewrite map_map in H. split; [exact H|]. eapply same_trans; eassumption.
    - exists q2. split; [reflexivity|]. split; [exact H2|exact S2]. }
  destruct Step3 as [q3 [E4 [H3 S3]]]. rewrite E4. cbn [bind]. exists dl', q3. split; [reflexivity|]. split; [exact Ld'|]. split; [|exact S3].
  intros del' theta' chi' phi' mu' gam' H6'. assert (EQ : forall k, (k < 6)%nat -> nth_error [del; theta; chi; phi; mu; gam] k = nth_error [del'; theta'; chi'; phi'; mu'; gam'] k).
  { intros k Hk. rewrite <- (H6 k Hk). apply H6'. exact Hk. }
  pose proof (EQ 0%nat ltac:(lia)) as e0. pose proof (EQ 1%nat ltac:(lia)) as e1. pose proof (EQ 2%nat ltac:(lia)) as e2.
  pose proof (EQ 3%nat ltac:(lia)) as e3. pose proof (EQ 4%nat ltac:(lia)) as e4. pose proof (EQ 5%nat ltac:(lia)) as e5.
  cbn in e0, e1, e2, e3, e4, e5. injection e0 as <-. injection e1 as <-. injection e2 as <-. injection e3 as <-. injection e4 as <-. injection e5 as <-.
  exact H3.
Qed.
Lemma images_ok d lambda mode angles U n : let size := (xSize d * ySize d)%nat in length angles = (n * 6)%nat -> forall m s delgam q,
  (s + m = n)%nat -> length delgam = (n * size * 2)%nat -> length q = (n * size * 3)%nat ->
  (forall i, (i < s)%nat -> image_done d lambda mode angles U q i) ->
  exists st, foldM (image_step d lambda mode angles U) (seq s m) (delgam, q) = Some st /\ length (snd st) = length q /\
    forall i, (i < n)%nat -> image_done d lambda mode angles U (snd st) i.
Proof.
  intros size La. induction m as [|m IH]; intros s delgam q Hs Ld Lq HD.
  - exists (delgam, q). split; [reflexivity|]. split; [reflexivity|]. intros i Hi. apply HD. lia.
  - cbn [seq foldM]. destruct (image_ok d lambda mode angles U n delgam q s La ltac:(lia) Ld Lq) as [dl' [q' [E [L' [HI [Lq' HS]]]]]].
    rewrite E. cbn [bind]. destruct (IH (S s) dl' q') as [st [Es [Ls Hst]]].
    + lia.
    + rewrite L'. exact Ld.
    + rewrite Lq'. exact Lq.
    + intros i Hi. destruct (Nat.eq_dec i s) as [->|Ne]; [exact HI|]. intros del theta chi phi mu gam H6 k Hk.
      rewrite HS.
      * apply (HD i ltac:(lia) del theta chi phi mu gam H6 k Hk).
      * left. rewrite flat3_len, map_length, pixels_len in Hk. fold size in Hk |- *. nia.
    + exists st. split; [exact Es|]. split; [rewrite Ls; exact Lq'|exact Hst].
Qed.
(** ** The matrices *)
Lemma mulv_phi chi phi q : mulv (phi_matrix chi phi) q = rot_x phi (rot_y chi q).
Proof. destruct q as [[a b] c]. unfold mulv, phi_matrix, dot, rot_x, rot_y, vx, vy, vz, v3. cbn [fst snd]. f_equal; [f_equal|]; ring. Qed.
Lemma ubi_apply u U q : ubi u = Some U -> mulv U q = apply9 u (to_ub q).
Proof.
  destruct u as [|a [|b [|c [|d [|e [|f [|g [|h [|i [|j u]]]]]]]]]]; try discriminate. intros E. cbn in E. injection E as <-.
  destruct q as [[x y] z]. unfold mulv, permute, dot, apply9, to_ub, inner, vx, vy, vz, v3. cbn [fst snd]. f_equal; [f_equal|]; ring.
Qed.
Lemma q_theta_spec theta mu lambda del gam : q_theta theta mu lambda (del, gam) =
  times (2 * PI / lambda) (minus (kf_dir del gam theta) (ki_dir mu theta)).
Proof. unfold q_theta, times, minus, kf_dir, ki_dir, v3, vx, vy, vz. cbn [fst snd]. f_equal; [f_equal|]; ring. Qed.
Lemma at_pixel_spec mode u U theta chi phi mu lambda del gam : (1 <= mode <= 4)%nat -> ubi u = Some U ->
  at_pixel mode U theta chi phi mu lambda (del, gam) = q_value mode del theta chi phi mu gam lambda u.
Proof.
  intros Hm HU. unfold at_pixel, q_value. rewrite q_theta_spec.
  destruct mode as [|[|[|[|[|mode]]]]]; try lia; cbn [Nat.ltb Nat.leb Nat.eqb].
  - reflexivity.
  - apply mulv_phi.
  - apply mulv_phi.
  - rewrite mulv_phi. apply ubi_apply. exact HU.
Qed.
Theorem process_ok delgam q d lambda mode n angles ubinv : let size := (xSize d * ySize d)%nat in
  (1 <= mode <= 4)%nat -> length angles = (n * 6)%nat -> length ubinv = 9%nat ->
  length delgam = (n * size * 2)%nat -> length q = (n * size * 3)%nat ->
  exists out, process_images delgam q d lambda mode n angles ubinv = Some out /\ length out = (n * size * 3)%nat /\
  forall i j c del theta chi phi mu gam, (i < n)%nat -> (j < ySize d)%nat -> (c < xSize d)%nat -> six angles i del theta chi phi mu gam ->
    let p := ((i * ySize d + j) * xSize d + c)%nat in
    let v := q_value mode (del - atan ((INR j - yCen d) * (yPixSize d / cdist d))) theta chi phi mu
                     (gam - atan ((INR c - xCen d) * (xPixSize d / cdist d))) lambda ubinv in
    nth_error out (p * 3) = Some (vx v) /\ nth_error out (p * 3 + 1) = Some (vy v) /\ nth_error out (p * 3 + 2) = Some (vz v).
Proof.
  intros size Hm La Lu Ld Lq. unfold process_images. rewrite (read_ok ubinv 0 9 ubinv); [|lia|exact Lu|reflexivity]. cbn [bind].
  assert (HU : exists U, ubi ubinv = Some U).
  { destruct ubinv as [|a [|b [|c [|e [|f [|g [|h [|i [|j [|k u]]]]]]]]]]; try discriminate. eexists. reflexivity. }
  destruct HU as [U HU]. rewrite HU. cbn [bind].
  destruct (images_ok d lambda mode angles U n La n 0 delgam q eq_refl Ld Lq) as [st [E [Ls HD]]]; [intros i Hi; lia|].
  rewrite E. cbn [bind]. exists (snd st). split; [reflexivity|]. split; [rewrite Ls; exact Lq|].
  intros i j c del theta chi phi mu gam Hi Hj Hc H6. cbv zeta. specialize (HD i Hi del theta chi phi mu gam H6).
  set (l := map (at_pixel mode U theta chi phi mu lambda) (delta_gamma d del gam)) in HD.
  assert (En : nth_error l (j * xSize d + c) = Some (q_value mode (del - atan ((INR j - yCen d) * (yPixSize d / cdist d))) theta chi phi mu
                     (gam - atan ((INR c - xCen d) * (xPixSize d / cdist d))) lambda ubinv)).
  { unfold l. rewrite nth_error_map, pixel_nth by assumption. cbn [option_map]. f_equal. apply at_pixel_spec; assumption. }
  destruct (nth_flat3 _ _ _ En) as [N0 [N1 N2]].
  assert (Bl : (j * xSize d + c < length l)%nat) by (apply nth_error_Some; congruence).
  assert (Bf : length (flat3 l) = (length l * 3)%nat) by apply flat3_len.
  assert (Ea : ((i * ySize d + j) * xSize d + c = i * (xSize d * ySize d) + (j * xSize d + c))%nat) by nia.
  rewrite Ea. set (o := (i * (xSize d * ySize d))%nat) in *. set (k := (j * xSize d + c)%nat) in *.
  replace ((o + k) * 3)%nat with (o * 3 + k * 3)%nat by lia. replace (o * 3 + k * 3 + 1)%nat with (o * 3 + (k * 3 + 1))%nat by lia.
  replace (o * 3 + k * 3 + 2)%nat with (o * 3 + (k * 3 + 2))%nat by lia.
  rewrite !HD by lia. rewrite N0, N1, N2. auto.
Qed.
(** A UB matrix that is not 3 x 3. *)
Theorem process_short_ub delgam q d lambda mode n angles ubinv : (length ubinv < 9)%nat -> process_images delgam q d lambda mode n angles ubinv = None.
Proof. intros H. unfold process_images, read_block. replace (0 + 9 <=? length ubinv)%nat with false by (symmetry; apply Nat.leb_gt; lia). reflexivity. Qed.
Theorem process_long_ub delgam q d lambda mode n angles ubinv rest : length ubinv = 9%nat ->
  process_images delgam q d lambda mode n angles (ubinv ++ rest) = process_images delgam q d lambda mode n angles ubinv.
Proof.
  intros H. unfold process_images. rewrite (read_ok ubinv 0 9 ubinv); [|lia|exact H|reflexivity].
  rewrite (read_ok (ubinv ++ rest) 0 9 ubinv); [reflexivity|rewrite app_length; lia|exact H|].
  intros k Hk. apply nth_error_app1. lia.
Qed.

(** ** Geometry *)
Lemma sc2 t : sin t * sin t + cos t * cos t = 1. Proof. pose proof (sin2_cos2 t) as H. unfold Rsqr in H. exact H. Qed.
Lemma kf_unit del gam theta : inner (kf_dir del gam theta) (kf_dir del gam theta) = 1.
Proof.
  unfold inner, kf_dir, vx, vy, vz. cbn [fst snd]. pose proof (sc2 gam) as H1. pose proof (sc2 (del - theta)) as H2.
  set (a := sin gam) in *. set (b := cos gam) in *. set (c := sin (del - theta)) in *. set (e := cos (del - theta)) in *.
  replace (- a * - a + e * b * (e * b) + c * b * (c * b)) with (a * a + (c * c + e * e) * (b * b)) by ring. rewrite H2. lra.
Qed.
Lemma ki_unit mu theta : inner (ki_dir mu theta) (ki_dir mu theta) = 1.
Proof.
  unfold inner, ki_dir, vx, vy, vz. cbn [fst snd]. pose proof (sc2 mu) as H1. pose proof (sc2 theta) as H2.
  set (a := sin mu) in *. set (b := cos mu) in *. set (c := sin theta) in *. set (e := cos theta) in *.
  replace (a * a + e * b * (e * b) + - c * b * (- c * b)) with (a * a + (c * c + e * e) * (b * b)) by ring. rewrite H2. lra.
Qed.
Lemma rot_x_inner t v : inner (rot_x t v) (rot_x t v) = inner v v.
Proof.
  destruct v as [[a b] c]. unfold inner, rot_x, vx, vy, vz. cbn [fst snd]. pose proof (sc2 t) as H.
  replace (a * a + (cos t * b + sin t * c) * (cos t * b + sin t * c) + (- sin t * b + cos t * c) * (- sin t * b + cos t * c))
    with (a * a + (sin t * sin t + cos t * cos t) * (b * b + c * c)) by ring. rewrite H. ring.
Qed.
Lemma rot_y_inner t v : inner (rot_y t v) (rot_y t v) = inner v v.
Proof.
  destruct v as [[a b] c]. unfold inner, rot_y, vx, vy, vz. cbn [fst snd]. pose proof (sc2 t) as H.
  replace ((cos t * a - sin t * c) * (cos t * a - sin t * c) + b * b + (sin t * a + cos t * c) * (sin t * a + cos t * c))
    with ((sin t * sin t + cos t * cos t) * (a * a + c * c) + b * b) by ring. rewrite H. ring.
Qed.
Lemma rot_x_back t v : rot_x (- t) (rot_x t v) = v.
Proof.
  destruct v as [[a b] c]. unfold rot_x, vx, vy, vz. cbn [fst snd]. rewrite cos_neg, sin_neg. pose proof (sc2 t) as H.
  f_equal; [f_equal|].
  - replace (cos t * (cos t * b + sin t * c) + - sin t * (- sin t * b + cos t * c)) with ((sin t * sin t + cos t * cos t) * b) by ring. rewrite H. ring.
  - replace (- - sin t * (cos t * b + sin t * c) + cos t * (- sin t * b + cos t * c)) with ((sin t * sin t + cos t * cos t) * c) by ring. rewrite H. ring.
Qed.
Lemma rot_y_back t v : rot_y (- t) (rot_y t v) = v.
Proof.
  destruct v as [[a b] c]. unfold rot_y, vx, vy, vz. cbn [fst snd]. rewrite cos_neg, sin_neg. pose proof (sc2 t) as H.
  f_equal; [f_equal|].
  - replace (cos t * (cos t * a - sin t * c) - - sin t * (sin t * a + cos t * c)) with ((sin t * sin t + cos t * cos t) * a) by ring. rewrite H. ring.
  - replace (- sin t * (cos t * a - sin t * c) + cos t * (sin t * a + cos t * c)) with ((sin t * sin t + cos t * cos t) * c) by ring. rewrite H. ring.
Qed.
Lemma to_ub_inner v : inner (to_ub v) (to_ub v) = inner v v.
Proof. destruct v as [[a b] c]. unfold inner, to_ub, vx, vy, vz. cbn [fst snd]. ring. Qed.
Lemma inner_minus a b : inner a a = 1 -> inner b b = 1 -> inner (minus a b) (minus a b) = 2 - 2 * inner a b.
Proof. destruct a as [[a1 a2] a3], b as [[b1 b2] b3]. unfold inner, minus, vx, vy, vz. cbn [fst snd]. intros. nra. Qed.
Lemma inner_times k a : inner (times k a) (times k a) = k * k * inner a a.
Proof. destruct a as [[a1 a2] a3]. unfold inner, times, vx, vy, vz. cbn [fst snd]. ring. Qed.
(** |q|^2 in every frame *)
Theorem q_norm mode del theta chi phi mu gam lambda u : (1 <= mode <= 3)%nat ->
  let q := q_value mode del theta chi phi mu gam lambda u in let k := 2 * PI / lambda in
  inner q q = k * k * (2 - 2 * inner (kf_dir del gam theta) (ki_dir mu theta)).
Proof.
  intros Hm. cbv zeta. unfold q_value. pose proof (inner_minus _ _ (kf_unit del gam theta) (ki_unit mu theta)) as E.
  destruct mode as [|[|[|[|mode]]]]; try lia; rewrite ?rot_x_inner, ?rot_y_inner, inner_times, E; reflexivity.
Qed.
Theorem hkl_norm del theta chi phi mu gam lambda ub ubinv : (forall v, apply9 ub (apply9 ubinv v) = v) ->
  let hkl := q_value 4 del theta chi phi mu gam lambda ubinv in
  len (apply9 ub hkl) = len (q_value 1 del theta chi phi mu gam lambda ubinv) /\
  apply9 ub hkl = to_ub (q_value 2 del theta chi phi mu gam lambda ubinv).
Proof.
  intros H. cbv zeta. unfold q_value. rewrite H. split; [|reflexivity]. unfold len. rewrite to_ub_inner, rot_x_inner, rot_y_inner. reflexivity.
Qed.
(** In the plane: |q| = 2 k |sin(delta/2)|. *)
Theorem q_in_plane mode del theta chi phi lambda u : (1 <= mode <= 3)%nat -> lambda > 0 ->
  len (q_value mode del theta chi phi 0 0 lambda u) = 4 * PI / lambda * Rabs (sin (del / 2)).
Proof.
  intros Hm Hl. unfold len. rewrite (q_norm mode _ _ _ _ _ _ _ _ Hm). cbv zeta.
  replace (inner (kf_dir del 0 theta) (ki_dir 0 theta)) with (cos del).
  - replace (cos del) with (cos (2 * (del / 2))) by (f_equal; field). rewrite cos_2a_sin.
    replace (2 * PI / lambda * (2 * PI / lambda) * (2 - 2 * (1 - 2 * sin (del / 2) * sin (del / 2)))) with (Rsqr (4 * PI / lambda * sin (del / 2))) by (unfold Rsqr; field; lra).
    rewrite sqrt_Rsqr_abs, Rabs_mult, (Rabs_pos_eq (4 * PI / lambda)); [reflexivity|].
    pose proof PI_RGT_0. apply Rlt_le. apply Rdiv_lt_0_compat; lra.
  - replace del with ((del - theta) + theta) at 1 by ring. rewrite cos_plus. unfold inner, kf_dir, ki_dir, vx, vy, vz. cbn [fst snd]. rewrite sin_0, cos_0. ring.
Qed.
Lemma hkl_to_q_len v : hkl_to_q v = len v.
Proof. reflexivity. Qed.
(** hkl_to_q of an hkl array is not |q|: a lattice with UB = 2. *)
Definition double9 : list R := [2; 0; 0; 0; 2; 0; 0; 0; 2].
Definition half9 : list R := [/2; 0; 0; 0; /2; 0; 0; 0; /2].
Theorem hkl_to_q_wrong : (forall v, apply9 double9 (apply9 half9 v) = v) /\
  exists del, hkl_to_q (q_value 4 del 0 0 0 0 0 1 half9) <> len (q_value 1 del 0 0 0 0 0 1 half9).
Proof.
  assert (H : forall v, apply9 double9 (apply9 half9 v) = v).
  { intros [[a b] c]. unfold apply9, double9, half9, inner, vx, vy, vz. cbn [fst snd]. f_equal; [f_equal|]; field. }
  split; [exact H|]. exists PI.
  pose proof (q_in_plane 1 PI 0 0 0 1 half9 ltac:(lia) ltac:(lra)) as E.
  pose proof (proj1 (hkl_norm PI 0 0 0 0 0 1 double9 half9 H)) as N.
  rewrite hkl_to_q_len. set (h := q_value 4 PI 0 0 0 0 0 1 half9) in *. intros C. rewrite <- C in N, E.
  assert (D : len (apply9 double9 h) = 2 * len h).
  { destruct h as [[a b] c]. unfold len, apply9, double9, inner, vx, vy, vz. cbn [fst snd].
    replace ((2 * a + 0 * b + 0 * c) * (2 * a + 0 * b + 0 * c) + (0 * a + 2 * b + 0 * c) * (0 * a + 2 * b + 0 * c) + (0 * a + 0 * b + 2 * c) * (0 * a + 0 * b + 2 * c))
      with ((2 * 2) * (a * a + b * b + c * c)) by ring. rewrite sqrt_mult by nra. rewrite sqrt_square by lra. reflexivity. }
  rewrite sin_PI2, Rabs_R1 in E. pose proof PI_RGT_0. lra.
Qed.

(** ** gisaxs *)
Lemma cos_atan2 x y : x <> 0 \/ y <> 0 -> cos (atan2 y x) * sqrt (x * x + y * y) = x /\ sin (atan2 y x) * sqrt (x * x + y * y) = y.
Proof.
  intros H. assert (P : 0 < x * x + y * y) by nra.
  assert (K : forall x, x <> 0 -> forall y, 0 < x * x + y * y -> sqrt (1 + (y / x) * (y / x)) = sqrt (x * x + y * y) / Rabs x).
  { clear. intros x Hx y P. replace (1 + y / x * (y / x)) with ((x * x + y * y) / (Rsqr x)) by (unfold Rsqr; field; exact Hx).
    rewrite sqrt_div_alt by (unfold Rsqr; nra). rewrite sqrt_Rsqr_abs. reflexivity. }
  assert (C : forall t, cos (atan t) = 1 / sqrt (1 + t * t)) by (intros t; rewrite cos_atan; unfold Rsqr; reflexivity).
  assert (S : forall t, sin (atan t) = t / sqrt (1 + t * t)) by (intros t; rewrite sin_atan; unfold Rsqr; reflexivity).
  assert (Q : 0 < sqrt (x * x + y * y)) by (apply sqrt_lt_R0; exact P).
  unfold atan2. destruct (Rlt_dec 0 x) as [Hx|Hx].
  - rewrite C, S, (K x ltac:(lra) y P), Rabs_pos_eq by lra. split; field; lra.
  - destruct (Rlt_dec x 0) as [Hx'|Hx'].
    + assert (E1 : cos (atan (y / x)) * sqrt (x * x + y * y) = - x) by (rewrite C, (K x ltac:(lra) y P), Rabs_left by lra; field; lra).
      assert (E2 : sin (atan (y / x)) * sqrt (x * x + y * y) = - y) by (rewrite S, (K x ltac:(lra) y P), Rabs_left by lra; field; lra).
      destruct (Rle_dec 0 y).
      * rewrite neg_cos, neg_sin. split; lra.
      * replace (atan (y / x) - PI) with (- (PI - atan (y / x))) by ring. rewrite cos_neg, sin_neg.
        replace (PI - atan (y / x)) with (- atan (y / x) + PI) by ring. rewrite neg_cos, neg_sin, cos_neg, sin_neg. split; lra.
    + assert (x = 0) by lra. subst x. destruct (Rlt_dec 0 y) as [Hy|Hy]; [|destruct (Rlt_dec y 0) as [Hy'|Hy']; [|lra]].
      * rewrite cos_PI2, sin_PI2. replace (0 * 0 + y * y) with (Rsqr y) by (unfold Rsqr; ring). rewrite sqrt_Rsqr by lra. split; ring.
      * rewrite cos_neg, sin_neg, cos_PI2, sin_PI2. replace (0 * 0 + y * y) with (Rsqr (- y)) by (unfold Rsqr; ring). rewrite sqrt_Rsqr by lra. split; ring.
Qed.
Definition out_dir (a t : R) : vec := (cos a * cos (2 * t), cos a * sin (2 * t), sin a).
Lemma out_unit a t : inner (out_dir a t) (out_dir a t) = 1.
Proof.
  unfold inner, out_dir, vx, vy, vz. cbn [fst snd]. pose proof (sc2 a) as H1. pose proof (sc2 (2 * t)) as H2.
  set (p := sin a) in *. set (q := cos a) in *. set (r := sin (2 * t)) in *. set (s := cos (2 * t)) in *.
  replace (q * s * (q * s) + q * r * (q * r) + p * p) with (p * p + q * q * (r * r + s * s)) by ring. rewrite H2. lra.
Qed.
Lemma inner_le a b : inner a a = 1 -> inner b b = 1 -> -1 <= inner a b.
Proof.
  destruct a as [[a1 a2] a3], b as [[b1 b2] b3]. unfold inner, vx, vy, vz. cbn [fst snd]. intros.
  pose proof (Rle_0_sqr (a1 + b1)). pose proof (Rle_0_sqr (a2 + b2)). pose proof (Rle_0_sqr (a3 + b3)). unfold Rsqr in *. lra.
Qed.
Theorem gisaxs_norm inc refl pixel dist wavelength theta_i y x : wavelength > 0 ->
  let g := gisaxs_at inc refl pixel dist wavelength theta_i y x in let k := 2 * PI / wavelength in
  0 <= qr g /\ qr g * qr g = qx g * qx g + qy g * qy g /\
  qx g * qx g + qy g * qy g + qz g * qz g = k * k * inner (minus (out_dir (alpha_f g) (theta_f g)) (out_dir (- alpha_i g) theta_i))
                                                        (minus (out_dir (alpha_f g) (theta_f g)) (out_dir (- alpha_i g) theta_i)) /\
  sqrt (qx g * qx g + qy g * qy g + qz g * qz g) <= 2 * k.
Proof.
  intros Hw. cbv zeta. set (g := gisaxs_at inc refl pixel dist wavelength theta_i y x). set (k := 2 * PI / wavelength).
  assert (Hk : 0 < k) by (unfold k; pose proof PI_RGT_0; apply Rdiv_lt_0_compat; lra).
  split; [apply sqrt_pos|].
  assert (N : qx g * qx g + qy g * qy g + qz g * qz g = k * k * inner (minus (out_dir (alpha_f g) (theta_f g)) (out_dir (- alpha_i g) theta_i))
                                                        (minus (out_dir (alpha_f g) (theta_f g)) (out_dir (- alpha_i g) theta_i))).
  { unfold g, gisaxs_at. cbv zeta. cbn [qx qy qz alpha_f theta_f alpha_i]. fold k.
    set (ai := atan2 ((snd refl - snd inc) * snd pixel) dist / 2). set (af := atan2 ((y - snd inc) * snd pixel) dist - ai).
    set (tf := atan2 ((x - fst inc) * fst pixel) dist / 2 - theta_i). set (t := atan2 ((fst refl - fst inc) * fst pixel) ((snd refl - snd inc) * snd pixel)).
    unfold inner, minus, out_dir, vx, vy, vz. cbn [fst snd]. rewrite cos_neg, sin_neg. pose proof (sc2 t) as H.
    set (A := cos af * cos (2 * tf) - cos ai * cos (2 * theta_i)). set (B := cos af * sin (2 * tf) - cos ai * sin (2 * theta_i)). set (D := sin af + sin ai).
    replace (sin af - - sin ai) with D by (unfold D; ring).
    replace (A * k * (A * k) + (D * sin t + B * cos t) * k * ((D * sin t + B * cos t) * k) + (D * cos t - B * sin t) * k * ((D * cos t - B * sin t) * k))
      with (k * k * (A * A + (sin t * sin t + cos t * cos t) * (B * B + D * D))) by ring. rewrite H. ring. }
  split; [|split; [exact N|]].
  - change (qr g) with (sqrt (qx g ^ 2 + qy g ^ 2)). rewrite sqrt_sqrt by nra. ring.
  - rewrite N. rewrite (inner_minus _ _ (out_unit _ _) (out_unit _ _)). pose proof (inner_le _ _ (out_unit (alpha_f g) (theta_f g)) (out_unit (- alpha_i g) theta_i)) as L.
    set (i := inner _ _) in *. rewrite <- (sqrt_Rsqr (2 * k)) by lra. apply sqrt_le_1_alt. unfold Rsqr. nra.
Qed.
(** The reflected beam of an untilted detector: q = (0, 0, 2 k sin alpha_i). *)
Theorem gisaxs_specular inc refl pixel dist wavelength : fst refl = fst inc -> 0 < snd pixel -> 0 < fst pixel -> 0 < dist -> snd inc < snd refl ->
  let g := gisaxs_at inc refl pixel dist wavelength 0 (snd refl) (fst refl) in
  qx g = 0 /\ qy g = 0 /\ qz g = 2 * (2 * PI / wavelength) * sin (alpha_i g) /\ alpha_f g = alpha_i g /\ 2 * alpha_i g = atan ((snd refl - snd inc) * snd pixel / dist).
Proof.
  intros E Hp Hp' Hd Hr. cbv zeta. unfold gisaxs_at. cbv zeta. cbn [qx qy qz alpha_f alpha_i]. rewrite E. replace (fst inc - fst inc) with 0 by ring.
  assert (Z : forall d, 0 < d -> atan2 (0 * fst pixel) d = 0).
  { intros d Hd'. unfold atan2. destruct (Rlt_dec 0 d); [|lra]. rewrite Rmult_0_l. unfold Rdiv. rewrite Rmult_0_l. apply atan_0. }
  rewrite !Z by (try assumption; apply Rmult_lt_0_compat; lra).
  replace (0 / 2 - 0) with 0 by field. rewrite !Rmult_0_r. rewrite !sin_0, !cos_0.
  set (a := atan2 ((snd refl - snd inc) * snd pixel) dist). replace (a - a / 2) with (a / 2) by field.
  split; [ring|]. split; [ring|]. split; [ring|]. split; [reflexivity|]. replace (2 * (a / 2)) with a by field. unfold a, atan2. destruct (Rlt_dec 0 dist); [reflexivity|lra].
Qed.
(** Entry [a][b] has a as the vertical pixel: the first number of detector_size, which the
    documentation calls the x direction, is the number of rows. *)
Theorem gisaxs_axes inc refl pixel n0 n1 dist wavelength theta_i a b :
  (gisaxs inc refl pixel n0 n1 dist wavelength theta_i a b <> None <-> (a < n0)%nat /\ (b < n1)%nat) /\
  forall g, gisaxs inc refl pixel n0 n1 dist wavelength theta_i a b = Some g -> 0 < dist ->
    alpha_f g + alpha_i g = atan ((INR a - snd inc) * snd pixel / dist) /\
    2 * (theta_f g + theta_i) = atan ((INR b - fst inc) * fst pixel / dist).
Proof.
  unfold gisaxs. split.
  - destruct ((a <? n0)%nat && (b <? n1)%nat) eqn:E.
    + apply andb_true_iff in E. rewrite !Nat.ltb_lt in E. split; [intros _; exact E|discriminate].
    + apply andb_false_iff in E. rewrite !Nat.ltb_ge in E. split; [contradiction|lia].
  - intros g. destruct ((a <? n0)%nat && (b <? n1)%nat); [|discriminate]. intros H Hd. injection H as <-.
    unfold gisaxs_at. cbv zeta. cbn [alpha_f alpha_i theta_f].
    assert (A : forall v, atan2 v dist = atan (v / dist)) by (intros v; unfold atan2; destruct (Rlt_dec 0 dist); [reflexivity|lra]).
    rewrite !A. split; field.
Qed.
(** The result does not depend on what the buffers held. *)
Theorem process_fresh delgam q delgam' q' d lambda mode n angles ubinv : let size := (xSize d * ySize d)%nat in
  (1 <= mode <= 4)%nat -> length angles = (n * 6)%nat -> length ubinv = 9%nat ->
  length delgam = (n * size * 2)%nat -> length q = (n * size * 3)%nat -> length delgam' = (n * size * 2)%nat -> length q' = (n * size * 3)%nat ->
  exists out, process_images delgam q d lambda mode n angles ubinv = Some out /\ process_images delgam' q' d lambda mode n angles ubinv = Some out.
Proof.
  intros size Hm La Lu L1 L2 L3 L4.
  destruct (process_ok delgam q d lambda mode n angles ubinv Hm La Lu L1 L2) as [o1 [E1 [N1 H1]]].
  destruct (process_ok delgam' q' d lambda mode n angles ubinv Hm La Lu L3 L4) as [o2 [E2 [N2 H2]]].
  exists o1. split; [exact E1|]. rewrite E2. f_equal. apply nth_error_ext_len; [congruence|]. intros k Hk. rewrite N2 in Hk.
  set (p := (k / 3)%nat). assert (Hp : (k = p * 3 + k mod 3)%nat) by (unfold p; pose proof (Nat.div_mod k 3 ltac:(lia)); lia).
  assert (Bp : (p < n * (xSize d * ySize d))%nat) by (unfold p; apply Nat.div_lt_upper_bound; fold size; lia).
  assert (Hx : xSize d <> 0%nat) by nia. assert (Hy : ySize d <> 0%nat) by nia.
  set (c := (p mod xSize d)%nat). set (r := (p / xSize d)%nat). set (j := (r mod ySize d)%nat). set (i := (r / ySize d)%nat).
  assert (Er : p = (r * xSize d + c)%nat) by (unfold r, c; pose proof (Nat.div_mod p _ Hx); lia).
  assert (Ei : r = (i * ySize d + j)%nat) by (unfold i, j; pose proof (Nat.div_mod r _ Hy); lia).
  assert (Bc : (c < xSize d)%nat) by (apply Nat.mod_upper_bound; exact Hx).
  assert (Bj : (j < ySize d)%nat) by (apply Nat.mod_upper_bound; exact Hy).
  assert (Br : (r < n * ySize d)%nat) by (unfold r; apply Nat.div_lt_upper_bound; [exact Hx|nia]).
  assert (Bi : (i < n)%nat) by (unfold i; apply Nat.div_lt_upper_bound; [exact Hy|lia]).
  clearbody c i j. clearbody r. subst r. clearbody p. subst p.
  destruct (six_exists angles i n La Bi) as [del [theta [chi [phi [mu [gam H6]]]]]].
  destruct (H1 i j c _ _ _ _ _ _ Bi Bj Bc H6) as [A0 [A1 A2]]. destruct (H2 i j c _ _ _ _ _ _ Bi Bj Bc H6) as [B0 [B1 B2]].
  pose proof (Nat.mod_upper_bound k 3 ltac:(lia)) as M. rewrite Hp. destruct (k mod 3)%nat as [|[|[|m]]]; [| | |lia].
  - rewrite Nat.add_0_r. congruence.
  - congruence.
  - congruence.
Qed.
