From Verif Require Import Common QcArith Sums Sgolay_Model Sgolay_Spec Sgolay_Proofs.
From Coq Require Import ZifyBool ZifyNat Lia.

Definition delta (a b : nat) : Qc := if a =? b then 1%Qc else 0%Qc.
Lemma sumn_delta n a (F : nat -> Qc) : a < n -> sumn n (fun k => (delta a k * F k)%Qc) = F a.
Proof.
  intros H. rewrite (sumn_window n a 1); [|lia|intros i Hi C; unfold delta; destruct (Nat.eqb_spec a i); [lia|ring]].
  unfold sumn. cbn [seq map qsum]. rewrite Nat.add_0_r. unfold delta. rewrite Nat.eqb_refl. ring.
Qed.
Lemma ex_inj n k m : k < length (exps n) -> m < length (exps n) -> ex n k = ex n m -> k = m.
Proof. intros K M H. eapply (proj1 (NoDup_nth (exps n) (0, 0)) (exps_nodup n)); eauto. Qed.
Lemma ex_err n k e : nth_error (exps n) k = Some e -> k < length (exps n) /\ ex n k = e.
Proof. intros H. split; [apply nth_error_Some; congruence|]. unfold ex. apply nth_error_nth. exact H. Qed.
Lemma mono_00 e : mono e 0 0 = if eqe e (0, 0) then 1%Qc else 0%Qc.
Proof. destruct e as [a b]. unfold mono, eqe. cbn [fst snd]. rewrite qz_0. destruct a, b; cbn [Nat.eqb andb]; rewrite ?pow0; cbn; ring. Qed.
Section Core.
Variables n h : nat.
Let w := 2 * h + 1.
Let W := w * w.
Let E := length (exps n).
Let A := design n h w.
Variable P : list (list Qc).
Definition PA (k m : nat) : Qc := sumn W (fun l => (ent P k l * ent A l m)%Qc).
(** the convolution with a row of P, at a point where the window sees a polynomial *)
Lemma conv_row k c : sumn w (fun a => sumn w (fun b => (ent P k (a * w + b) * sumn E (fun m => (c m * mono (ex n m) (Z.of_nat a - Z.of_nat h) (Z.of_nat b - Z.of_nat h))%Qc))%Qc)) = sumn E (fun m => (c m * PA k m)%Qc).
Proof.
  transitivity (sumn W (fun l => (ent P k l * sumn E (fun m => (c m * ent A l m)%Qc))%Qc)).
  - unfold W. rewrite sumn_mul. apply sumn_ext. intros a Ha. apply sumn_ext. intros b Hb. f_equal. apply sumn_ext. intros m Hm. unfold A. rewrite design_ent by assumption. reflexivity.
  - transitivity (sumn W (fun l => sumn E (fun m => (c m * (ent P k l * ent A l m))%Qc))).
    + apply sumn_ext. intros l _. rewrite <- sumn_scale. apply sumn_ext. intros m _. ring.
    + rewrite sumn_swap. apply sumn_ext. intros m _. unfold PA. rewrite <- sumn_scale. reflexivity.
Qed.
Lemma centre_row m : m < E -> ent A (h * w + h) m = delta 0 m.
Proof.
  intros Hm. unfold A. rewrite design_ent by (unfold w; try lia; exact Hm). rewrite Z.sub_diag, mono_00. unfold delta.
  destruct (eqe_spec (ex n m) (0, 0)) as [H|H], (Nat.eqb_spec 0 m) as [H'|H']; try reflexivity.
  - exfalso. apply H'. apply (ex_inj n); [apply (ex_err n 0 (0, 0)); reflexivity|exact Hm|]. rewrite H. reflexivity.
  - subst m. exfalso. apply H. reflexivity.
Qed.
Lemma PA_0 : ginv W E A P -> forall m, m < E -> PA 0 m = delta 0 m.
Proof.
  intros [_ G] m Hm. rewrite <- (centre_row m Hm). rewrite <- (G (h * w + h) m) by (try exact Hm; unfold W, w; nia).
  transitivity (sumn E (fun k => (delta 0 k * PA k m)%Qc)).
  - exact (eq_sym (sumn_delta E 0 (fun k => PA k m) ltac:(lia))).
  - apply sumn_ext. intros k Hk. rewrite centre_row by exact Hk. reflexivity.
Qed.
Definition conv_at (k : nat) (s : Z -> Z -> Qc) (i j : Z) : Qc := sumn w (fun a => sumn w (fun b => (ent P k (a * w + b) * get s (i + Z.of_nat (w - 1 - a)) (j + Z.of_nat (w - 1 - b)))%Qc)).
(** the window around (i, j) of the padded image s shows the polynomial T *)
Definition window_is (s : Z -> Z -> Qc) (i j : Z) (T : list term) : Prop :=
  forall dx dy, (- Z.of_nat h <= dx <= Z.of_nat h)%Z -> (- Z.of_nat h <= dy <= Z.of_nat h)%Z -> s (i + Z.of_nat h + dx)%Z (j + Z.of_nat h + dy)%Z = ev T (i + dx) (j + dy).
Lemma conv_poly k s i j T : total_degree n T -> window_is s i j T ->
  exists U, total_degree n U /\ conv_at k s i j = sumn E (fun m => (coef U (ex n m) * PA k m)%Qc) /\
    coef U (0, 0) = ev T i j /\ coef U (1, 0) = (- ev_x T i j)%Qc /\ coef U (0, 1) = (- ev_y T i j)%Qc.
Proof.
  intros D Ws. destruct (isp_flip n T i j D) as (U & DU & HU). exists U. split; [exact DU|]. split; [|split; [|split]].
  - rewrite <- conv_row. unfold conv_at. apply sumn_ext. intros a Ha. apply sumn_ext. intros b Hb. f_equal.
    rewrite <- (collect_n n U) by exact DU. destruct (HU (Z.of_nat a - Z.of_nat h)%Z (Z.of_nat b - Z.of_nat h)%Z) as (<- & _).
    replace (i - (Z.of_nat a - Z.of_nat h))%Z with (i + (Z.of_nat h - Z.of_nat a))%Z by lia. replace (j - (Z.of_nat b - Z.of_nat h))%Z with (j + (Z.of_nat h - Z.of_nat b))%Z by lia.
    rewrite <- Ws by (unfold w in *; lia). unfold get. f_equal; unfold w in *; lia.
  - rewrite <- ev_0. destruct (HU 0 0)%Z as (<- & _ & _). f_equal; lia.
  - rewrite <- ev_x_0. destruct (HU 0 0)%Z as (_ & <- & _). f_equal. f_equal; lia.
  - rewrite <- ev_y_0. destruct (HU 0 0)%Z as (_ & _ & <-). f_equal. f_equal; lia.
Qed.
Theorem smooth_core s i j T : ginv W E A P -> total_degree n T -> window_is s i j T -> conv_at 0 s i j = ev T i j.
Proof.
  intros G D Ws. destruct (conv_poly 0 s i j T D Ws) as (U & _ & -> & <- & _).
  transitivity (sumn E (fun m => (delta 0 m * coef U (ex n m))%Qc)).
  - apply sumn_ext. intros m Hm. rewrite PA_0 by assumption. ring.
  - apply sumn_delta. apply (ex_err n 0 (0, 0)). reflexivity.
Qed.
(** ** a polynomial of degree below the window size that vanishes on the window is zero *)
End Core.

Fixpoint ueval (p : list Qc) (x : Qc) : Qc := match p with [] => 0%Qc | a :: p => (a + x * ueval p x)%Qc end.
(** division by x - r *)
Fixpoint syn (r : Qc) (p : list Qc) : list Qc * Qc :=
  match p with [] => ([], 0%Qc) | a :: p' => match p' with [] => ([], a) | _ => let '(q, b) := syn r p' in (b :: q, (a + r * b)%Qc) end end.
Lemma syn_ok r p x : ueval p x = ((x - r) * ueval (fst (syn r p)) x + snd (syn r p))%Qc.
Proof.
  induction p as [|a p IH]; [cbn; ring|]. destruct p as [|b p]; [cbn; ring|]. change (syn r (a :: b :: p)) with (let '(q, c) := syn r (b :: p) in (c :: q, (a + r * c)%Qc)).
  destruct (syn r (b :: p)) as [q c]. change (ueval (a :: b :: p) x) with (a + x * ueval (b :: p) x)%Qc. rewrite IH. cbn [fst snd ueval]. ring.
Qed.
Lemma syn_len r p : length (fst (syn r p)) = length p - 1.
Proof.
  induction p as [|a p IH]; [reflexivity|]. destruct p as [|b p]; [reflexivity|]. change (syn r (a :: b :: p)) with (let '(q, c) := syn r (b :: p) in (c :: q, (a + r * c)%Qc)).
  destruct (syn r (b :: p)) as [q c]. cbn [fst length] in *. lia.
Qed.
Lemma syn_zero r p : Forall (fun c => c = 0%Qc) (fst (syn r p)) -> snd (syn r p) = 0%Qc -> Forall (fun c => c = 0%Qc) p.
Proof.
  induction p as [|a p IH]; intros H1 H2; [constructor|]. destruct p as [|b p]; [cbn in H2; constructor; [exact H2|constructor]|].
  change (syn r (a :: b :: p)) with (let '(q, c) := syn r (b :: p) in (c :: q, (a + r * c)%Qc)) in *. destruct (syn r (b :: p)) as [q c]. cbn [fst snd] in *.
  inversion H1 as [|? ? Hc Hq]; subst. constructor; [|apply IH; auto]. replace (a + r * 0)%Qc with a in H2 by ring. exact H2.
Qed.
Lemma roots_zero : forall rs p, NoDup rs -> length p <= length rs -> (forall r, In r rs -> ueval p r = 0%Qc) -> Forall (fun c => c = 0%Qc) p.
Proof.
  induction rs as [|r rs IH]; intros p D L H; [destruct p; [constructor|cbn in L; lia]|]. inversion D as [|? ? Hr D']; subst.
  assert (R : snd (syn r p) = 0%Qc). { pose proof (H r (or_introl eq_refl)) as E. rewrite (syn_ok r p r) in E. replace ((r - r) * ueval (fst (syn r p)) r + snd (syn r p))%Qc with (snd (syn r p)) in E by ring. exact E. }
  apply (syn_zero r); [|exact R]. apply IH; [exact D'|rewrite syn_len; cbn in L; lia|]. intros x X. pose proof (H x (or_intror X)) as E. rewrite (syn_ok r p x), R in E.
  assert (Nx : (x - r <> 0)%Qc). { intros Q. apply Hr. replace r with x; [exact X|]. transitivity ((x - r) + r)%Qc; [ring|]. rewrite Q. ring. }
  apply Qcmult_integral in E || idtac. replace ((x - r) * ueval (fst (syn r p)) x + 0)%Qc with ((x - r) * ueval (fst (syn r p)) x)%Qc in E by ring. apply Qcmult_integral in E as [E|E]; [contradiction|exact E].
Qed.
Lemma ueval_sumn f d x : ueval (map f (seq d 0)) x = 0%Qc. Proof. reflexivity. Qed.
Lemma ueval_seq m : forall f d x, (ueval (map f (seq d m)) x = sumn m (fun i => f (d + i)%nat * x ^ i))%Qc.
Proof.
  induction m as [|m IH]; intros f d x; [reflexivity|]. cbn [seq map ueval]. rewrite IH. replace (S m) with (1 + m) by lia. rewrite sumn_split. unfold sumn at 2. cbn [seq map qsum]. rewrite Nat.add_0_r. cbn [Qcpower].
  rewrite <- sumn_scale. replace (sumn m (fun i => (x * (f (S d + i)%nat * x ^ i))%Qc)) with (sumn m (fun i => (f (d + (1 + i))%nat * x ^ (1 + i))%Qc)); [ring|].
  apply sumn_ext. intros i _. replace (S d + i) with (d + (1 + i)) by lia. cbn [plus Qcpower]. ring.
Qed.
Lemma sum_roots_zero rs m (f : nat -> Qc) : NoDup rs -> m <= length rs -> (forall r, In r rs -> sumn m (fun i => (f i * r ^ i)%Qc) = 0%Qc) -> forall i, i < m -> f i = 0%Qc.
Proof.
  intros D L H i Hi. assert (F : Forall (fun c => c = 0%Qc) (map f (seq 0 m))).
  { apply (roots_zero rs); [exact D|now rewrite map_length, seq_length|]. intros r R. rewrite ueval_seq. apply H. exact R. }
  rewrite Forall_forall in F. apply F. apply in_map_iff. exists i. split; [reflexivity|apply in_seq; lia].
Qed.
(** a sum over one index of a list of pairwise different pairs, regrouped *)
Lemma regroup E (e : nat -> nat * nat) (d : nat -> Qc) m x y : (forall k, k < E -> fst (e k) < m /\ snd (e k) < m) ->
  sumn E (fun k => (d k * (x ^ fst (e k) * y ^ snd (e k)))%Qc) =
  sumn m (fun a => (sumn m (fun b => (sumn E (fun k => if eqe (e k) (a, b) then d k else 0%Qc) * y ^ b)%Qc) * x ^ a)%Qc).
Proof.
  intros H. induction E as [|E IH].
  - symmetry. apply sumn_zero. intros a _. rewrite sumn_zero; [ring|]. intros b _. unfold sumn. cbn. ring.
  - rewrite sumn_S, IH by (intros; apply H; lia). destruct (H E ltac:(lia)) as [H1 H2].
    transitivity (sumn m (fun a => (sumn m (fun b => (sumn E (fun k => if eqe (e k) (a, b) then d k else 0%Qc) * y ^ b)%Qc) * x ^ a)%Qc) + sumn m (fun a => (sumn m (fun b => ((if eqe (e E) (a, b) then d E else 0) * y ^ b)%Qc) * x ^ a)%Qc))%Qc.
    + f_equal. rewrite (sumn_ext m _ (fun a => (delta (fst (e E)) a * (d E * y ^ snd (e E) * x ^ a))%Qc)).
      * rewrite sumn_delta by exact H1. ring.
      * intros a Ha. rewrite (sumn_ext m _ (fun b => (delta (snd (e E)) b * ((delta (fst (e E)) a * d E) * y ^ b))%Qc)).
        -- rewrite sumn_delta by exact H2. ring.
        -- intros b Hb. unfold eqe, delta. cbn [fst snd]. destruct (fst (e E) =? a), (snd (e E) =? b); cbn [andb]; ring.
    + rewrite <- sumn_plus. apply sumn_ext. intros a Ha. rewrite (sumn_ext m (fun b => (sumn (S E) (fun k => if eqe (e k) (a, b) then d k else 0%Qc) * y ^ b)%Qc) (fun b => (sumn E (fun k => if eqe (e k) (a, b) then d k else 0%Qc) * y ^ b + (if eqe (e E) (a, b) then d E else 0) * y ^ b)%Qc)); [rewrite sumn_plus; ring|]. intros b Hb. rewrite sumn_S. ring.
Qed.
Section Rank.
Variables n h : nat.
Let w := 2 * h + 1.
Let W := w * w.
Let E := length (exps n).
Let A := design n h w.
Hypothesis small : n < w.
Lemma points_nodup : NoDup (map (fun a => qz (Z.of_nat a - Z.of_nat h)) (seq 0 w)).
Proof. apply NoDup_map'; [|apply seq_NoDup]. intros x y _ _ H. apply qz_inj in H. lia. Qed.
Lemma columns_independent d : (forall u, u < W -> sumn E (fun k => (d k * ent A u k)%Qc) = 0%Qc) -> forall k, k < E -> d k = 0%Qc.
Proof.
  intros H.
  assert (B : forall k, k < E -> fst (ex n k) < w /\ snd (ex n k) < w).
  { intros k Hk. assert (I : In (ex n k) (exps n)) by (apply nth_In; exact Hk). apply exps_in in I. lia. }
  set (cab := fun a b => sumn E (fun k => if eqe (ex n k) (a, b) then d k else 0%Qc)).
  assert (V : forall a b, a < w -> b < w -> sumn w (fun i => (sumn w (fun j => (cab i j * qz (Z.of_nat b - Z.of_nat h) ^ j)%Qc) * qz (Z.of_nat a - Z.of_nat h) ^ i)%Qc) = 0%Qc).
  { intros a b Ha Hb. rewrite <- (H (a * w + b)) by (unfold W; nia). unfold cab. rewrite <- (regroup E (ex n) d w _ _ B). apply sumn_ext. intros k Hk. unfold A. rewrite design_ent by assumption. reflexivity. }
  assert (Z1 : forall b i, b < w -> i < w -> sumn w (fun j => (cab i j * qz (Z.of_nat b - Z.of_nat h) ^ j)%Qc) = 0%Qc).
  { intros b i Hb. apply (sum_roots_zero _ w (fun i => sumn w (fun j => (cab i j * qz (Z.of_nat b - Z.of_nat h) ^ j)%Qc)) points_nodup); [now rewrite map_length, seq_length|].
    intros r R. apply in_map_iff in R as (a & <- & Ia). apply in_seq in Ia. apply V; lia. }
  assert (Z2 : forall i j, i < w -> j < w -> cab i j = 0%Qc).
  { intros i j Hi. apply (sum_roots_zero _ w (cab i) points_nodup); [now rewrite map_length, seq_length|]. intros r R. apply in_map_iff in R as (b & <- & Ib). apply in_seq in Ib. apply Z1; lia. }
  intros k Hk. destruct (B k Hk) as [B1 B2]. rewrite <- (Z2 _ _ B1 B2). unfold cab. rewrite (sumn_ext E _ (fun m => (delta k m * d m)%Qc)); [symmetry; apply sumn_delta; exact Hk|].
  intros m Hm. unfold delta. destruct (eqe_spec (ex n m) (fst (ex n k), snd (ex n k))) as [Q|Q], (Nat.eqb_spec k m) as [Q'|Q']; try ring.
  - exfalso. apply Q'. apply (ex_inj n); try assumption. rewrite Q. apply surjective_pairing.
  - subst m. exfalso. apply Q. apply surjective_pairing.
Qed.
Lemma PA_id P : ginv W E A P -> forall k m, k < E -> m < E -> PA n h P k m = delta k m.
Proof.
  intros [_ G] k m Hk Hm. assert (D : forall k, k < E -> (PA n h P k m - delta k m)%Qc = 0%Qc).
  { apply columns_independent. intros u Hu. specialize (G u m Hu Hm).
    transitivity (sumn E (fun k => (ent A u k * PA n h P k m)%Qc) + - (1) * sumn E (fun k => (delta m k * ent A u k)%Qc))%Qc.
    - rewrite <- sumn_scale, <- sumn_plus. apply sumn_ext. intros j _. unfold delta. rewrite (Nat.eqb_sym m j). destruct (j =? m); ring.
    - rewrite sumn_delta by exact Hm. unfold PA. fold w W A. rewrite G. ring. }
  specialize (D k Hk). transitivity (PA n h P k m - delta k m + delta k m)%Qc; [ring|]. rewrite D. ring.
Qed.
Theorem deriv_core P s i j T : ginv W E A P -> 1 <= n -> total_degree n T -> window_is h s i j T ->
  (conv_at h P 1 s i j = - ev_x T i j)%Qc /\ (conv_at h P 2 s i j = - ev_y T i j)%Qc.
Proof.
  intros G Hn D Ws. destruct (exps_12 n Hn) as [X1 X2]. apply ex_err in X1 as [L1 X1], X2 as [L2 X2].
  assert (R : forall k U, k < E -> sumn E (fun m => (coef U (ex n m) * PA n h P k m)%Qc) = coef U (ex n k)).
  { intros k U Hk. rewrite (sumn_ext E _ (fun m => (delta k m * coef U (ex n m))%Qc)); [now apply sumn_delta|]. intros m Hm. rewrite PA_id by assumption. ring. }
  split.
  - destruct (conv_poly n h P 1 s i j T D Ws) as (U & _ & C & _ & <- & _). rewrite C. fold E. rewrite R by exact L1. now rewrite X1.
  - destruct (conv_poly n h P 2 s i j T D Ws) as (U & _ & C & _ & _ & <-). rewrite C. fold E. rewrite R by exact L2. now rewrite X2.
Qed.
End Rank.
