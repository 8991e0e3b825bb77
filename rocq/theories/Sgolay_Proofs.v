From Verif Require Import Common QcArith Sums Sgolay_Model Sgolay_Spec.
From Coq Require Import ZifyBool ZifyNat Lia.

(** ** the exponents *)
Lemma exps_in n e : In e (exps n) <-> fst e + snd e <= n.
Proof.
  unfold exps. rewrite in_flat_map. destruct e as [a b]. cbn [fst snd]. split.
  - intros (k & K & H). apply in_seq in K. apply in_map_iff in H as (m & [= <- <-] & H). apply in_seq in H. lia.
  - intros H. exists (a + b). split; [apply in_seq; lia|]. apply in_map_iff. exists b. split; [f_equal; lia|apply in_seq; lia].
Qed.
Lemma NoDup_app' {A} (l l' : list A) : NoDup l -> NoDup l' -> (forall x, In x l -> ~ In x l') -> NoDup (l ++ l').
Proof.
  induction 1 as [|a l N D IH]; intros D' H; [exact D'|]. cbn. constructor.
  - rewrite in_app_iff. intros [I|I]; [contradiction|]. exact (H a (or_introl eq_refl) I).
  - apply IH; [exact D'|]. intros x I. apply H. now right.
Qed.
Lemma exps_S n : exps (S n) = exps n ++ map (fun m => (S n - m, m)) (seq 0 (S (S n))).
Proof. unfold exps. rewrite (seq_S (S n) 0) at 1. rewrite flat_map_app. cbn [flat_map plus]. now rewrite app_nil_r. Qed.
Lemma NoDup_map' {A B} (f : A -> B) l : (forall x y, In x l -> In y l -> f x = f y -> x = y) -> NoDup l -> NoDup (map f l).
Proof.
  intros H D. induction D as [|a l N D IH]; cbn; constructor.
  - intros I. apply in_map_iff in I as (b & E & I). apply N. rewrite (H a b); auto; [now left|now right].
  - apply IH. intros x y X Y. apply H; now right.
Qed.
Lemma exps_nodup n : NoDup (exps n).
Proof.
  induction n as [|n IH]; [repeat constructor; auto|]. rewrite exps_S. apply NoDup_app'; [exact IH| |].
  - apply NoDup_map'; [intros x y _ _ [= _ E]; exact E|apply seq_NoDup].
  - intros e I1 I2. apply exps_in in I1. apply in_map_iff in I2 as (m & <- & I2). apply in_seq in I2. cbn [fst snd] in I1. lia.
Qed.
Lemma exps_len n : 2 * length (exps n) = (n + 1) * (n + 2).
Proof. induction n as [|n IH]; [reflexivity|]. rewrite exps_S, app_length, map_length, seq_length. nia. Qed.
Lemma exps_0 n : nth_error (exps n) 0 = Some (0, 0).
Proof. reflexivity. Qed.
Lemma exps_12 n : 1 <= n -> nth_error (exps n) 1 = Some (1, 0) /\ nth_error (exps n) 2 = Some (0, 1).
Proof. intros H. destruct n as [|n]; [lia|]. split; reflexivity. Qed.

(** ** the grid *)
Lemma sumn_mul n w F : sumn (n * w) F = sumn n (fun a => sumn w (fun b => F (a * w + b))).
Proof.
  induction n as [|n IH]; [reflexivity|]. rewrite sumn_S, <- IH. replace (S n * w) with (n * w + w) by lia. apply sumn_split.
Qed.
Lemma ind_nth h w i : i < w -> nth_error (ind h w) i = Some (Z.of_nat i - Z.of_nat h)%Z.
Proof. intros H. unfold ind. rewrite nth_error_map. rewrite (nth_error_nth' (seq 0 w) 0) by (rewrite seq_length; lia). cbn. f_equal. rewrite seq_nth by lia. lia. Qed.
Lemma ind_len h w : length (ind h w) = w.
Proof. unfold ind. now rewrite map_length, seq_length. Qed.
Lemma block_nth {A} (w : nat) (ls : list (list A)) : Forall (fun l => length l = w) ls -> forall a b, b < w -> nth_error (concat ls) (a * w + b) = match nth_error ls a with Some l => nth_error l b | None => None end.
Proof.
  induction 1 as [|l ls L _ IH]; intros a b Hb.
  - cbn. destruct a; cbn [nth_error]; destruct (_ + _); reflexivity.
  - cbn [concat]. destruct a as [|a]; cbn [nth_error].
    + rewrite nth_error_app1 by lia. reflexivity.
    + rewrite nth_error_app2 by lia. rewrite <- (IH a b Hb). f_equal. lia.
Qed.
Lemma dxs_nth h w a b : a < w -> b < w -> nth_error (dxs h w) (a * w + b) = Some (Z.of_nat a - Z.of_nat h)%Z.
Proof.
  intros Ha Hb. unfold dxs. rewrite flat_map_concat_map, block_nth with (w := w); [|apply Forall_forall; intros l I; apply in_map_iff in I as (x & <- & _); apply repeat_length|exact Hb].
  rewrite nth_error_map, ind_nth by exact Ha. cbn. rewrite (nth_error_nth' _ 0%Z) by (rewrite repeat_length; lia). f_equal. apply (repeat_spec w). apply nth_In. rewrite repeat_length. lia.
Qed.
Lemma dys_nth h w a b : a < w -> b < w -> nth_error (dys h w) (a * w + b) = Some (Z.of_nat b - Z.of_nat h)%Z.
Proof.
  intros Ha Hb. unfold dys. rewrite block_nth with (w := w); [|apply Forall_forall; intros l I; apply repeat_spec in I; subst; apply ind_len|exact Hb].
  rewrite (nth_error_nth' _ []) by (rewrite repeat_length; lia). replace (nth a (repeat (ind h w) w) []) with (ind h w); [now apply ind_nth|].
  symmetry. apply (repeat_spec w). apply nth_In. rewrite repeat_length. lia.
Qed.
Lemma combine_nth_err {A B} (a : list A) : forall (b : list B) i x y, nth_error a i = Some x -> nth_error b i = Some y -> nth_error (combine a b) i = Some (x, y).
Proof. induction a as [|u a IH]; intros [|v b] [|i] x y H1 H2; try discriminate; cbn in *; [congruence|auto]. Qed.
Definition mono (e : nat * nat) (x y : Z) : Qc := (qz x ^ fst e * qz y ^ snd e)%Qc.
Definition ex n k : nat * nat := nth k (exps n) (0, 0).
Lemma design_ent n h w a b k : a < w -> b < w -> k < length (exps n) -> ent (design n h w) (a * w + b) k = mono (ex n k) (Z.of_nat a - Z.of_nat h) (Z.of_nat b - Z.of_nat h).
Proof.
  intros Ha Hb Hk. unfold ent, design.
  assert (E := combine_nth_err _ _ _ _ _ (dxs_nth h w a b Ha Hb) (dys_nth h w a b Ha Hb)).
  rewrite (nth_error_nth _ (a * w + b) [] (map_nth_error _ _ _ E)). cbn [fst snd].
  rewrite (nth_error_nth _ k 0%Qc (map_nth_error _ _ _ (nth_error_nth' (exps n) (0, 0) Hk))). reflexivity.
Qed.
(** ** polynomials *)
Definition isp (n : nat) (f fx fy : Z -> Z -> Qc) : Prop :=
  exists T, total_degree n T /\ forall x y, f x y = ev T x y /\ fx x y = ev_x T x y /\ fy x y = ev_y T x y.
Lemma isp_ext n f fx fy g gx gy : isp n f fx fy -> (forall x y, g x y = f x y /\ gx x y = fx x y /\ gy x y = fy x y) -> isp n g gx gy.
Proof. intros (T & D & H) E. exists T. split; [exact D|]. intros x y. destruct (E x y) as (-> & -> & ->). apply H. Qed.
Lemma isp_const n c : isp n (fun _ _ => c) (fun _ _ => 0%Qc) (fun _ _ => 0%Qc).
Proof. exists [(c, (0, 0))]. split; [constructor; [cbn; lia|constructor]|]. intros x y. unfold ev, ev_x, ev_y. cbn. change (qn 0) with 0%Qc. repeat split; ring. Qed.
Lemma isp_plus n f fx fy g gx gy : isp n f fx fy -> isp n g gx gy -> isp n (fun x y => f x y + g x y)%Qc (fun x y => fx x y + gx x y)%Qc (fun x y => fy x y + gy x y)%Qc.
Proof.
  intros (T & D & H) (U & D' & H'). exists (T ++ U). split; [apply Forall_app; auto|]. intros x y. destruct (H x y) as (-> & -> & ->), (H' x y) as (-> & -> & ->).
  unfold ev, ev_x, ev_y. rewrite !map_app, !qsum_app. auto.
Qed.
Lemma isp_scale n c f fx fy : isp n f fx fy -> isp n (fun x y => c * f x y)%Qc (fun x y => c * fx x y)%Qc (fun x y => c * fy x y)%Qc.
Proof.
  intros (T & D & H). exists (map (fun t => ((c * fst t)%Qc, snd t)) T). split; [apply Forall_map; exact D|]. intros x y. destruct (H x y) as (-> & -> & ->).
  unfold ev, ev_x, ev_y. rewrite !map_map. cbn [fst snd]. rewrite <- !qsum_map_scale. repeat split; f_equal; apply map_ext; intros t; ring.
Qed.
Lemma isp_x n f fx fy : isp n f fx fy -> isp (S n) (fun x y => qz x * f x y)%Qc (fun x y => f x y + qz x * fx x y)%Qc (fun x y => qz x * fy x y)%Qc.
Proof.
  intros (T & D & H). exists (map (fun t => (fst t, (S (fst (snd t)), snd (snd t)))) T). split; [apply Forall_map; eapply Forall_impl; [|exact D]; cbn; lia|].
  intros x y. destruct (H x y) as (-> & -> & ->). unfold ev, ev_x, ev_y. rewrite !map_map. cbn [fst snd]. rewrite <- !qsum_map_scale, <- qsum_map_plus.
  repeat split; f_equal; apply map_ext; intros [c [a b]]; cbn [fst snd].
  - cbn [Qcpower]. ring.
  - replace (S a - 1) with a by lia. rewrite qn_S. destruct a as [|a]; [change (qn 0) with 0%Qc; cbn; ring|]. replace (S a - 1) with a by lia. cbn [Qcpower]. ring.
  - cbn [Qcpower]. ring.
Qed.
Lemma isp_y n f fx fy : isp n f fx fy -> isp (S n) (fun x y => qz y * f x y)%Qc (fun x y => qz y * fx x y)%Qc (fun x y => f x y + qz y * fy x y)%Qc.
Proof.
  intros (T & D & H). exists (map (fun t => (fst t, (fst (snd t), S (snd (snd t))))) T). split; [apply Forall_map; eapply Forall_impl; [|exact D]; cbn; lia|].
  intros x y. destruct (H x y) as (-> & -> & ->). unfold ev, ev_x, ev_y. rewrite !map_map. cbn [fst snd]. rewrite <- !qsum_map_scale, <- qsum_map_plus.
  repeat split; f_equal; apply map_ext; intros [c [a b]]; cbn [fst snd].
  - cbn [Qcpower]. ring.
  - cbn [Qcpower]. ring.
  - replace (S b - 1) with b by lia. rewrite qn_S. destruct b as [|b]; [change (qn 0) with 0%Qc; cbn; ring|]. replace (S b - 1) with b by lia. cbn [Qcpower]. ring.
Qed.
Lemma isp_mono n m f fx fy : n <= m -> isp n f fx fy -> isp m f fx fy.
Proof. intros L (T & D & H). exists T. split; [eapply Forall_impl; [|exact D]; cbn; lia|exact H]. Qed.
Lemma qz_m1 : qz (-1) = (- (1))%Qc.
Proof. apply Qc_is_canon. reflexivity. Qed.
(** monomials of p - x and q - y *)
Definition dpow (v : Qc) (a : nat) : Qc := (qn a * v ^ (a - 1))%Qc.
Lemma dpow_S v a : dpow v (S a) = (v ^ a + v * dpow v a)%Qc.
Proof. unfold dpow. replace (S a - 1) with a by lia. rewrite qn_S. destruct a as [|a]; [change (qn 0) with 0%Qc; cbn; ring|]. replace (S a - 1) with a by lia. cbn [Qcpower]. ring. Qed.
Lemma isp_shifty q b : isp b (fun x y => qz (q - y) ^ b)%Qc (fun x y => 0%Qc) (fun x y => - dpow (qz (q - y)) b)%Qc.
Proof.
  induction b as [|b IH].
  - eapply isp_ext; [apply (isp_const 0 1%Qc)|]. intros x y. unfold dpow. change (qn 0) with 0%Qc. cbn. repeat split; ring.
  - eapply isp_ext; [apply isp_plus; [apply (isp_scale (S b) (qz q)); apply (isp_mono b); [lia|exact IH]|apply (isp_scale (S b) (qz (-1))); apply isp_y; exact IH]|].
    intros x y. cbn [Qcpower]. rewrite dpow_S, qz_sub, qz_m1. repeat split; ring.
Qed.
Lemma isp_shift p q a b : isp (a + b) (fun x y => qz (p - x) ^ a * qz (q - y) ^ b)%Qc (fun x y => - (dpow (qz (p - x)) a * qz (q - y) ^ b))%Qc (fun x y => - (qz (p - x) ^ a * dpow (qz (q - y)) b))%Qc.
Proof.
  induction a as [|a IH].
  - eapply isp_ext; [apply (isp_shifty q b)|]. intros x y. unfold dpow at 1. change (qn 0) with 0%Qc. cbn [Qcpower]. repeat split; ring.
  - cbn [plus]. eapply isp_ext; [apply isp_plus; [apply (isp_scale (S (a + b)) (qz p)); apply (isp_mono (a + b)); [lia|exact IH]|apply (isp_scale (S (a + b)) (qz (-1))); apply isp_x; exact IH]|].
    intros x y. cbn [Qcpower]. rewrite dpow_S, qz_sub, qz_m1. repeat split; ring.
Qed.
Theorem isp_flip n T p q : total_degree n T -> isp n (fun x y => ev T (p - x) (q - y)) (fun x y => - ev_x T (p - x) (q - y))%Qc (fun x y => - ev_y T (p - x) (q - y))%Qc.
Proof.
  induction T as [|[c [a b]] T IH]; intros D.
  - eapply isp_ext; [apply (isp_const n 0%Qc)|]. intros x y. unfold ev, ev_x, ev_y. cbn. repeat split; ring.
  - inversion D as [|? ? D1 D2]; subst. cbn [fst snd] in D1. eapply isp_ext; [apply isp_plus; [apply (isp_scale n c); apply (isp_mono (a + b)); [exact D1|apply (isp_shift p q)]|apply IH; exact D2]|].
    intros x y. unfold ev, ev_x, ev_y, dpow. cbn [map qsum fst snd]. repeat split; ring.
Qed.
(** ** coefficients in the order of the design matrix *)
Definition eqe (e e' : nat * nat) : bool := (fst e =? fst e') && (snd e =? snd e').
Lemma eqe_spec e e' : reflect (e = e') (eqe e e').
Proof. destruct e as [a b], e' as [c d]. unfold eqe. cbn. destruct (Nat.eqb_spec a c), (Nat.eqb_spec b d); constructor; congruence. Qed.
Definition coef (T : list term) (e : nat * nat) : Qc := qsum (map (fun t => if eqe (snd t) e then fst t else 0%Qc) T).
Lemma pick_one (L : list (nat * nat)) e0 c (F : nat * nat -> Qc) : NoDup L -> In e0 L -> qsum (map (fun e => ((if eqe e0 e then c else 0) * F e)%Qc) L) = (c * F e0)%Qc.
Proof.
  induction 1 as [|a L N D IH]; [contradiction|]. intros I. cbn [map qsum]. destruct (eqe_spec e0 a) as [<-|E].
  - replace (qsum _) with 0%Qc; [ring|]. symmetry. clear IH D I. induction L as [|b L IH]; [reflexivity|]. cbn [map qsum].
    destruct (eqe_spec e0 b) as [<-|_]; [exfalso; apply N; now left|]. rewrite IH by (intros I; apply N; now right). ring.
  - destruct I as [->|I]; [contradiction|]. rewrite IH by exact I. ring.
Qed.
Lemma collect n T x y : total_degree n T -> ev T x y = qsum (map (fun e => (coef T e * mono e x y)%Qc) (exps n)).
Proof.
  induction T as [|[c e] T IH]; intros D.
  - unfold ev, coef. cbn [map qsum]. symmetry. generalize (exps n). intros L. induction L as [|a L IH]; [reflexivity|]. cbn [map qsum]. rewrite IH. ring.
  - inversion D as [|? ? D1 D2]; subst. cbn [fst snd] in D1. change (ev ((c, e) :: T) x y) with (c * mono e x y + ev T x y)%Qc. rewrite IH by exact D2.
    rewrite <- (pick_one (exps n) e c (fun e => mono e x y) (exps_nodup n)) by (now apply exps_in). rewrite <- qsum_map_plus. f_equal. apply map_ext. intros e'. unfold coef. cbn [map qsum fst snd]. ring.
Qed.
Lemma qsum_nth {A} (l : list A) d (F : A -> Qc) : qsum (map F l) = sumn (length l) (fun k => F (nth k l d)).
Proof.
  induction l as [|a l IH]; [reflexivity|]. cbn [length]. replace (S (length l)) with (1 + length l) by lia. rewrite sumn_split. cbn [map qsum]. rewrite IH. unfold sumn at 2. cbn [seq map qsum plus nth]. ring.
Qed.
Lemma collect_n n T x y : total_degree n T -> ev T x y = sumn (length (exps n)) (fun k => (coef T (ex n k) * mono (ex n k) x y)%Qc).
Proof. intros D. rewrite (collect n) by exact D. exact (qsum_nth (exps n) (0, 0) (fun e => (coef T e * mono e x y)%Qc)). Qed.
Lemma pow0 a : (0 ^ S a)%Qc = 0%Qc.
Proof. cbn. ring. Qed.
Lemma ev_x_0 T : ev_x T 0 0 = coef T (1, 0).
Proof.
  unfold ev_x, coef. f_equal. apply map_ext. intros [c [a b]]. cbn [fst snd]. unfold eqe. cbn [fst snd]. rewrite qz_0.
  destruct a as [|[|a]]; cbn [Nat.eqb andb].
  - change (qn 0) with 0%Qc. ring.
  - destruct b as [|b]; cbn [Nat.eqb]; change (qn 1) with 1%Qc; cbn [Nat.sub]; [cbn; ring|]. rewrite pow0. ring.
  - replace (S (S a) - 1) with (S a) by lia. rewrite pow0. ring.
Qed.
Lemma ev_y_0 T : ev_y T 0 0 = coef T (0, 1).
Proof.
  unfold ev_y, coef. f_equal. apply map_ext. intros [c [a b]]. cbn [fst snd]. unfold eqe. cbn [fst snd]. rewrite qz_0.
  destruct b as [|[|b]]; cbn [Nat.eqb]; rewrite ?andb_true_r, ?andb_false_r.
  - change (qn 0) with 0%Qc. ring.
  - destruct a as [|a]; cbn [Nat.eqb]; change (qn 1) with 1%Qc; cbn [Nat.sub]; [cbn; ring|]. rewrite pow0. ring.
  - replace (S (S b) - 1) with (S b) by lia. rewrite pow0. ring.
Qed.
Lemma ev_0 T : ev T 0 0 = coef T (0, 0).
Proof.
  unfold ev, coef. f_equal. apply map_ext. intros [c [a b]]. cbn [fst snd]. unfold eqe. cbn [fst snd]. rewrite qz_0.
  destruct a as [|a], b as [|b]; cbn [Nat.eqb andb]; rewrite ?pow0; cbn; ring.
Qed.
