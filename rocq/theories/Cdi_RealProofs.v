From Coq Require Import Reals List Lia.
From Verif Require Import Common Cdi_Spec Cdi_RealModel.
From Coq Require Import Lra.
Local Open Scope R_scope.

(** ** Disk *)
Lemma dist_sq_nonneg dims idx : (0 <= dist_sq dims idx)%Z.
Proof. revert idx. induction dims as [|d ds IH]; intros [|i is]; cbn [dist_sq]; try lia. specialize (IH is). cbv zeta.
  generalize (Z.of_nat i - Z.of_nat d / 2)%Z. intros v. nia. Qed.
Theorem disk_ok r dims idx : disk_at r dims idx = true <-> 0 < r /\ IZR (dist_sq dims idx) < r * r.
Proof.
  unfold disk_at, dist. pose proof (dist_sq_nonneg dims idx) as H. apply IZR_le in H. set (q := IZR (dist_sq dims idx)) in *.
  pose proof (sqrt_pos q) as Hs. pose proof (sqrt_sqrt q H) as E. destruct (Rlt_dec (sqrt q) r) as [L|L].
  - split; [intros _|reflexivity]. split; [lra|]. rewrite <- E. apply Rmult_le_0_lt_compat; assumption.
  - split; [discriminate|]. intros [H1 H2]. exfalso. apply L. destruct (Rlt_le_dec (sqrt q) r) as [?|G]; [assumption|].
    assert (r * r <= sqrt q * sqrt q) by (apply Rmult_le_compat; lra). lra.
Qed.

(** ** Gaussian *)
Lemma rsum_scale c l : rsum (map (fun v => v / c) l) = rsum l / c.
Proof. induction l as [|a l IH]; cbn; [unfold Rdiv; ring|]. rewrite IH. unfold Rdiv. ring. Qed.
Lemma rsum_pos l : l <> [] -> (forall v, In v l -> 0 < v) -> 0 < rsum l.
Proof.
  destruct l as [|a l]; [contradiction|]. intros _ H. cbn. assert (0 <= rsum l); [|specialize (H a (or_introl eq_refl)); lra].
  assert (H' : forall v, In v l -> 0 < v) by (intros v Hv; apply H; right; exact Hv). clear -H'.
  induction l as [|b l IH]; cbn; [lra|]. specialize (H' b (or_introl eq_refl)) as Hb. assert (0 <= rsum l) by (apply IH; intros v Hv; apply H'; right; exact Hv). lra.
Qed.
Lemma indices_in dims idx : In idx (indices dims) <-> Forall2 lt idx dims.
Proof.
  revert idx. induction dims as [|d ds IH]; intros idx; cbn [indices].
  - split; [intros [<-|[]]; constructor|intros H; inversion H; left; reflexivity].
  - rewrite in_flat_map. split.
    + intros [i [Hi H]]. apply in_map_iff in H. destruct H as [is [<- H]]. apply in_seq in Hi. constructor; [lia|apply IH; exact H].
    + intros H. inversion H as [|i ? is ? Hi Hr]; subst. exists i. split; [apply in_seq; lia|]. apply in_map. apply IH. exact Hr.
Qed.
Lemma indices_ne dims : Forall (fun d => 0 < d)%nat dims -> indices dims <> [].
Proof.
  intros H E. assert (Hin : In (map (fun _ => 0%nat) dims) (indices dims)).
  { apply indices_in. clear E. induction H as [|d ds Hd H IH]; cbn; constructor; auto. }
  rewrite E in Hin. exact Hin.
Qed.
Lemma gauss_raw_le dims sigma i j : sigma <> 0 -> (dist_sq dims i <= dist_sq dims j)%Z ->
  gauss_raw dims sigma j <= gauss_raw dims sigma i.
Proof.
  intros Hs H. unfold gauss_raw, dist. apply IZR_le in H.
  pose proof (IZR_le _ _ (dist_sq_nonneg dims i)) as P1. pose proof (IZR_le _ _ (dist_sq_nonneg dims j)) as P2.
  set (a := IZR (dist_sq dims i)) in *. set (b := IZR (dist_sq dims j)) in *.
  assert (E : forall q, 0 <= q -> - (sqrt q / sigma) ^ 2 / 2 = - (q / (2 * (sigma * sigma)))).
  { intros q Hq. rewrite <- (sqrt_sqrt q Hq) at 2. field. exact Hs. }
  rewrite (E a), (E b) by assumption. destruct (Rle_lt_or_eq_dec a b H) as [L|E0]; [|rewrite E0; apply Rle_refl].
  left. apply exp_increasing. assert (0 < 2 * (sigma * sigma)) by nra.
  apply Ropp_lt_contravar. unfold Rdiv. apply Rmult_lt_compat_r; [apply Rinv_0_lt_compat; assumption|exact L].
Qed.
Theorem gauss_ok dims sigma : sigma <> 0 -> Forall (fun d => 0 < d)%nat dims ->
  length (gauss dims sigma) = length (indices dims) /\ rsum (gauss dims sigma) = 1 /\
  (forall v, In v (gauss dims sigma) -> 0 < v) /\
  forall p q i j, nth_error (indices dims) p = Some i -> nth_error (indices dims) q = Some j ->
    (dist_sq dims i <= dist_sq dims j)%Z ->
    exists u v, nth_error (gauss dims sigma) p = Some u /\ nth_error (gauss dims sigma) q = Some v /\ v <= u.
Proof.
  intros Hs Hd. unfold gauss. set (y := map (gauss_raw dims sigma) (indices dims)).
  assert (Hp : forall v, In v y -> 0 < v). { intros v Hv. apply in_map_iff in Hv. destruct Hv as [i [<- _]]. apply exp_pos. }
  assert (HS : 0 < rsum y). { apply rsum_pos; [|exact Hp]. unfold y. pose proof (indices_ne dims Hd). destruct (indices dims); [contradiction|discriminate]. }
  split; [rewrite map_length; unfold y; rewrite map_length; reflexivity|]. split; [rewrite rsum_scale; field; lra|]. split.
  - intros v Hv. apply in_map_iff in Hv. destruct Hv as [w [<- Hw]]. apply Rdiv_lt_0_compat; auto.
  - intros p q i j Ep Eq H. exists (gauss_raw dims sigma i / rsum y), (gauss_raw dims sigma j / rsum y).
    assert (Yp : nth_error y p = Some (gauss_raw dims sigma i)) by (unfold y; rewrite nth_error_map, Ep; reflexivity).
    assert (Yq : nth_error y q = Some (gauss_raw dims sigma j)) by (unfold y; rewrite nth_error_map, Eq; reflexivity).
    rewrite !nth_error_map, Yp, Yq. split; [reflexivity|]. split; [reflexivity|].
    unfold Rdiv. apply Rmult_le_compat_r; [left; apply Rinv_0_lt_compat; exact HS|]. apply gauss_raw_le; assumption.
Qed.

(** ** pi_modulus *)
Lemma cabs_nonneg z : 0 <= cabs z. Proof. apply sqrt_pos. Qed.
Lemma cabs_cmul c z : 0 <= c -> cabs (cmul c z) = c * cabs z.
Proof.
  intros Hc. unfold cabs, cmul. cbn [fst snd]. replace (c * fst z * (c * fst z) + c * snd z * (c * snd z)) with ((c * c) * (fst z * fst z + snd z * snd z)) by ring.
  rewrite sqrt_mult; [rewrite sqrt_square by exact Hc; reflexivity|nra|nra].
Qed.
Lemma cmul_cmul a b z : cmul a (cmul b z) = cmul (a * b) z.
Proof. unfold cmul. cbn. f_equal; ring. Qed.
Section Pi.
Variables (F Fi : list C -> list C) (offset : R) (x : list C) (d : list R).
Hypotheses (HF : forall l, length (F l) = length l) (HFi : forall l, length (Fi l) = length l).
Hypothesis (Hinv : forall l, F (Fi l) = l) (Hhom : forall c l, F (map (cmul c) l) = map (cmul c) (F l)).
Hypothesis (HL : length d = length x) (Hx : x <> []) (Hoff : 0 < offset).
Lemma sq_pos : 0 < sqrt (INR (length x)).
Proof. apply sqrt_lt_R0. apply lt_0_INR. destruct x; [contradiction|cbn; lia]. Qed.
Definition spectrum (l : list C) : list C := map (cmul (/ sqrt (INR (length x)))) (F l).
Lemma pi_spectrum : spectrum (pi_modulus F Fi offset x d) = map (modulus1 offset) (combine d (spectrum x)).
Proof.
  unfold pi_modulus, spectrum. rewrite Hhom, Hinv, map_map, HL.
  rewrite <- (map_id (map (modulus1 offset) _)) at 2. apply map_ext. intros z. rewrite cmul_cmul.
  pose proof sq_pos. rewrite Rinv_l by lra. unfold cmul. rewrite !Rmult_1_l. symmetry. apply surjective_pairing.
Qed.
Theorem pi_modulus_ok : length (pi_modulus F Fi offset x d) = length x /\
  forall i di y, nth_error d i = Some di -> nth_error (spectrum x) i = Some y ->
    exists y', nth_error (spectrum (pi_modulus F Fi offset x d)) i = Some y' /\
      (di <= 0 -> y' = y) /\
      (0 < di -> cabs y' = di * cabs y / (cabs y + offset) /\ cabs y' < di /\ exists c, 0 < c /\ y' = cmul c y).
Proof.
  assert (HS : length (spectrum x) = length x) by (unfold spectrum; rewrite map_length; apply HF). split.
  { unfold pi_modulus. rewrite map_length, HFi, map_length, combine_length. fold (spectrum x). lia. }
  intros i di y Ed Ey. rewrite pi_spectrum, nth_error_map.
  assert (E : nth_error (combine d (spectrum x)) i = Some (di, y)).
  { clear -Ed Ey. revert i Ed Ey. generalize (spectrum x). induction d as [|a l IH]; intros [|b l'] [|i] Ed Ey; cbn in *; try discriminate; [congruence|]. apply IH; assumption. }
  rewrite E. cbn [option_map]. eexists. split; [reflexivity|]. unfold modulus1. cbn [fst snd]. pose proof (cabs_nonneg y) as Hy.
  destruct (Rlt_dec 0 di) as [Hd|Hd]; [|split; [reflexivity|intros H; contradiction]].
  split; [intros H; lra|]. intros _. assert (Hc : 0 < di / (cabs y + offset)) by (apply Rdiv_lt_0_compat; lra).
  rewrite cabs_cmul by lra. split; [field; lra|]. split.
  - replace (di / (cabs y + offset) * cabs y) with (di * (cabs y / (cabs y + offset))) by (field; lra).
    assert (cabs y / (cabs y + offset) < 1). { apply (Rmult_lt_reg_r (cabs y + offset)); [lra|]. unfold Rdiv. rewrite Rmult_assoc, Rinv_l by lra. lra. }
    nra.
  - exists (di / (cabs y + offset)). split; [exact Hc|reflexivity].
Qed.
End Pi.

(** ** Error in q space *)
Lemma rsum_sq_zero l : rsum (map (fun v => v * v) l) = 0 <-> Forall (fun v => v = 0) l.
Proof.
  assert (P : forall l, 0 <= rsum (map (fun v => v * v) l)) by (induction l0 as [|a l0 IH]; cbn; [lra|nra]).
  induction l as [|a l IH]; cbn; [split; [constructor|reflexivity]|]. specialize (P l). split.
  - intros H. assert (a * a = 0) by nra. assert (rsum (map (fun v => v * v) l) = 0) by nra. constructor; [nra|tauto].
  - intros H. inversion H; subst. rewrite (proj2 IH) by assumption. ring.
Qed.
Lemma rsum_sq_nonneg l : 0 <= rsum (map (fun v => v * v) l).
Proof. induction l as [|a l IH]; cbn; [lra|nra]. Qed.
Theorem diff_error_zero F x d : length (F x) = length d -> ~ Forall (fun v => v = 0) d ->
  (0 <= diff_error F x d) /\ (diff_error F x d = 0 <-> map (fun z => cabs z / sqrt (INR (length x))) (F x) = d).
Proof.
  intros HL Hd. unfold diff_error, norm2. set (y := map _ (F x)).
  assert (HD : 0 < sqrt (rsum (map (fun v => v * v) d))).
  { apply sqrt_lt_R0. pose proof (rsum_sq_nonneg d). destruct (Req_dec (rsum (map (fun v => v * v) d)) 0) as [E|]; [|lra].
    exfalso. apply Hd, rsum_sq_zero. exact E. }
  set (D := sqrt (rsum (map (fun v => v * v) d))) in *. set (z := map _ (combine y d)). pose proof (rsum_sq_nonneg z) as Hz.
  pose proof (sqrt_pos (rsum (map (fun v => v * v) z))) as Hq.
  split; [unfold Rdiv; apply Rmult_le_pos; [exact Hq|left; apply Rinv_0_lt_compat; exact HD]|].
  assert (E1 : sqrt (rsum (map (fun v => v * v) z)) / D = 0 <-> rsum (map (fun v => v * v) z) = 0).
  { split; intros H; [|rewrite H, sqrt_0; unfold Rdiv; ring]. apply sqrt_eq_0; [exact Hz|].
    apply (Rmult_eq_reg_r (/ D)); [unfold Rdiv in H; rewrite H; ring|]. apply Rinv_neq_0_compat. lra. }
  rewrite E1, rsum_sq_zero. assert (HLy : length y = length d) by (unfold y; rewrite map_length; exact HL).
  unfold z. clear -HLy. revert d HLy. induction y as [|a y IH]; intros [|b d] HL; cbn in HL; try discriminate; cbn.
  - split; [reflexivity|constructor].
  - assert (HL' : length y = length d) by lia. specialize (IH d HL'). split.
    + intros H. inversion H; subst. f_equal; [lra|tauto].
    + intros H. injection H as -> ->. constructor; [ring|tauto].
Qed.

(** ** Shrinkwrap support *)
Lemma fold_max_ge l : forall a, a <= fold_left Rmax l a /\ (forall v, In v l -> v <= fold_left Rmax l a) /\ (fold_left Rmax l a = a \/ In (fold_left Rmax l a) l).
Proof.
  induction l as [|b l IH]; intros a; cbn; [split; [lra|split; [contradiction|auto]]|].
  destruct (IH (Rmax a b)) as [H1 [H2 H3]]. pose proof (Rmax_l a b). pose proof (Rmax_r a b).
  split; [lra|]. split; [intros v [<-|Hv]; [lra|auto]|]. destruct H3 as [E|H3]; [|auto].
  rewrite E. unfold Rmax. destruct (Rle_dec a b); auto.
Qed.
Lemma rmaxl_ok l : l <> [] -> In (rmaxl l) l /\ forall v, In v l -> v <= rmaxl l.
Proof.
  destruct l as [|a l]; [contradiction|]. intros _. cbn [rmaxl]. destruct (fold_max_ge l a) as [H1 [H2 H3]].
  split; [destruct H3 as [->|H3]; [left; reflexivity|right; exact H3]|]. intros v [<-|Hv]; auto.
Qed.
Theorem find_support_ok blur t x : length (blur (map cabs x)) = length x ->
  length (find_support blur t x) = length x /\
  (forall i v, nth_error (blur (map cabs x)) i = Some v ->
     exists b, nth_error (find_support blur t x) i = Some b /\
       (b = true <-> forall m, In m (blur (map cabs x)) -> (forall w, In w (blur (map cabs x)) -> w <= m) -> t * m <= v)) /\
  (x <> [] -> (forall v, In v (blur (map cabs x)) -> 0 <= v) -> t <= 1 -> In true (find_support blur t x)) /\
  (forall t', (forall v, In v (blur (map cabs x)) -> 0 <= v) -> t <= t' ->
     forall i, nth_error (find_support blur t' x) i = Some true -> nth_error (find_support blur t x) i = Some true).
Proof.
  intros HL. unfold find_support. set (c := blur (map cabs x)) in *. split; [rewrite map_length; exact HL|]. split; [|split].
  - intros i v E. assert (Hne : c <> []) by (intros N; rewrite N in E; destruct i; discriminate).
    destruct (rmaxl_ok c Hne) as [M1 M2]. rewrite nth_error_map, E. eexists. split; [reflexivity|].
    destruct (Rle_dec (t * rmaxl c) v) as [H|H].
    + split; [|reflexivity]. intros _ m Hm Hm'. replace m with (rmaxl c); [exact H|]. apply Rle_antisym; auto.
    + split; [discriminate|]. intros H'. exfalso. apply H. apply H'; assumption.
  - intros Hx Hp Ht. assert (Hne : c <> []) by (intros N; rewrite N in HL; destruct x; [contradiction|discriminate]).
    destruct (rmaxl_ok c Hne) as [M1 M2]. apply in_map_iff. exists (rmaxl c). split; [|exact M1].
    destruct (Rle_dec (t * rmaxl c) (rmaxl c)) as [|N]; [reflexivity|]. exfalso. apply N. specialize (Hp _ M1). nra.
  - intros t' Hp Ht i. rewrite !nth_error_map. destruct (nth_error c i) as [v|] eqn:E; [|discriminate]. cbn [option_map].
    assert (Hne : c <> []) by (intros N; rewrite N in E; destruct i; discriminate). destruct (rmaxl_ok c Hne) as [M1 M2]. specialize (Hp _ M1).
    destruct (Rle_dec (t' * rmaxl c) v); [|discriminate]. destruct (Rle_dec (t * rmaxl c) v) as [|N]; [reflexivity|]. exfalso. apply N. nra.
Qed.

(** The two-point discrete Fourier transform meets the hypotheses of [pi_modulus_ok]. *)
Definition dft2 (l : list C) : list C :=
  match l with [a; b] => [(fst a + fst b, snd a + snd b); (fst a - fst b, snd a - snd b)] | _ => l end.
Definition idft2 (l : list C) : list C :=
  match l with [a; b] => [((fst a + fst b) / 2, (snd a + snd b) / 2); ((fst a - fst b) / 2, (snd a - snd b) / 2)] | _ => l end.
Lemma dft2_ok : (forall l, length (dft2 l) = length l) /\ (forall l, length (idft2 l) = length l) /\
  (forall l, dft2 (idft2 l) = l) /\ (forall c l, dft2 (map (cmul c) l) = map (cmul c) (dft2 l)).
Proof.
  repeat split; intros.
  - destruct l as [|a [|b [|c l]]]; reflexivity.
  - destruct l as [|a [|b [|c l]]]; reflexivity.
  - destruct l as [|[a1 a2] [|[b1 b2] [|c l]]]; try reflexivity. cbn. f_equal; [f_equal; field|f_equal; f_equal; field].
  - destruct l as [|[a1 a2] [|[b1 b2] [|z l]]]; try reflexivity. unfold cmul. cbn. f_equal; [f_equal; ring|f_equal; f_equal; ring].
Qed.

(** Distances without their definition. *)
Lemma dist_from_centre dims : forall idx D, from_centre dims idx D -> dist_sq dims idx = D.
Proof.
  induction dims as [|d dims IH]; intros idx D (cs & F & L & E).
  - inversion F; subst. destruct idx; [|discriminate L]. reflexivity.
  - inversion F as [|? c ? cs' Hc F']; subst. destruct idx as [|i idx]; [discriminate L|]. cbn [dist_sq combine map fold_right fst snd].
    rewrite (IH idx _ (ex_intro _ cs' (conj F' (conj (f_equal pred L) eq_refl)))). cbn [Nat.pred].
    replace (Z.of_nat d / 2)%Z with (Z.of_nat c); [ring|]. destruct Hc as [-> | ->]; (apply (Z.div_unique _ _ _ 0); lia) || (apply (Z.div_unique _ _ _ 1); lia).
Qed.
Lemma gauss_profile dims sigma p q i j : sigma <> 0 -> nth_error (indices dims) p = Some i -> nth_error (indices dims) q = Some j ->
  exists u v, nth_error (gauss dims sigma) p = Some u /\ nth_error (gauss dims sigma) q = Some v /\
    v = u * exp ((IZR (dist_sq dims i) - IZR (dist_sq dims j)) / (2 * sigma ^ 2)).
Proof.
  intros Hs Ep Eq. unfold gauss. set (y := map (gauss_raw dims sigma) (indices dims)).
  exists (gauss_raw dims sigma i / rsum y), (gauss_raw dims sigma j / rsum y).
  assert (Yp : nth_error y p = Some (gauss_raw dims sigma i)) by (unfold y; rewrite nth_error_map, Ep; reflexivity).
  assert (Yq : nth_error y q = Some (gauss_raw dims sigma j)) by (unfold y; rewrite nth_error_map, Eq; reflexivity).
  rewrite !nth_error_map, Yp, Yq. split; [reflexivity|]. split; [reflexivity|]. unfold Rdiv at 1 2.
  assert (G : forall k, gauss_raw dims sigma k = exp (- IZR (dist_sq dims k) / (2 * sigma ^ 2))).
  { intros k. unfold gauss_raw. f_equal. unfold dist. assert (N : 0 <= IZR (dist_sq dims k)) by (apply IZR_le, dist_sq_nonneg).
    replace ((sqrt (IZR (dist_sq dims k)) / sigma) ^ 2) with (sqrt (IZR (dist_sq dims k)) * sqrt (IZR (dist_sq dims k)) / sigma ^ 2) by (field; exact Hs).
    rewrite sqrt_sqrt by exact N. field. exact Hs. }
  rewrite !G. rewrite Rmult_assoc, (Rmult_comm (/ _)), <- Rmult_assoc, <- exp_plus. f_equal. f_equal. field. exact Hs.
Qed.
