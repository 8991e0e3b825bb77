(* numpy.fft.fftn and ifftn on arrays of any shape (flat, row-major), over the reals, and that they are inverse to each other. *)
From Coq Require Import Reals List Lia.
From Coquelicot Require Import Coquelicot.
From Verif Require Import Common Cdi_RealModel.
From Coq Require Import Lra.
Import ListNotations.
Local Open Scope R_scope.

Fixpoint csum (l : list Complex.C) : Complex.C := match l with [] => RtoC 0 | a :: r => Cplus a (csum r) end.
(** k1 n1 / d1 + k2 n2 / d2 + ... *)
Fixpoint phase (dims k n : list nat) : R :=
  match dims, k, n with
  | d :: ds, a :: k', b :: n' => INR a * INR b / INR d + phase ds k' n'
  | _, _, _ => 0
  end.
(** exp (2 pi i t) *)
Definition turn (t : R) : Complex.C := (cos (2 * PI * t), sin (2 * PI * t)).
Definition dft (s : R) (dims : list nat) (x : list Complex.C) : list Complex.C :=
  map (fun k => csum (map (fun p => Cmult (snd p) (turn (s * phase dims k (fst p)))) (combine (indices dims) x))) (indices dims).
Definition fftn (dims : list nat) (x : list Complex.C) : list Complex.C := dft (-1) dims x.
Definition ifftn (dims : list nat) (x : list Complex.C) : list Complex.C := map (cmul (/ INR (length (indices dims)))) (dft 1 dims x).

(** ** Sums *)
Lemma csum_app a b : csum (a ++ b) = Cplus (csum a) (csum b).
Proof. induction a as [|x a IH]; cbn [csum app]; [ring|]. rewrite IH. ring. Qed.
Lemma csum_mul {A} (c : Complex.C) (f : A -> Complex.C) l : csum (map (fun a => Cmult c (f a)) l) = Cmult c (csum (map f l)).
Proof. induction l as [|a l IH]; cbn [map csum]; [ring|]. rewrite IH. ring. Qed.
Lemma csum_add {A} (f g : A -> Complex.C) l : csum (map (fun a => Cplus (f a) (g a)) l) = Cplus (csum (map f l)) (csum (map g l)).
Proof. induction l as [|a l IH]; cbn [map csum]; [ring|]. rewrite IH. ring. Qed.
Lemma csum_ext {A} (f g : A -> Complex.C) l : (forall a, In a l -> f a = g a) -> csum (map f l) = csum (map g l).
Proof. intros H. f_equal. apply map_ext_in. exact H. Qed.
Lemma csum_zero {A} (f : A -> Complex.C) l : (forall a, In a l -> f a = RtoC 0) -> csum (map f l) = RtoC 0.
Proof. induction l as [|a l IH]; intros H; cbn [map csum]; [reflexivity|]. rewrite (H a (or_introl eq_refl)), IH by (intros b Hb; apply H; right; exact Hb). ring. Qed.
Lemma csum_swap {A B} (f : A -> B -> Complex.C) la lb :
  csum (map (fun a => csum (map (f a) lb)) la) = csum (map (fun b => csum (map (fun a => f a b) la)) lb).
Proof.
  induction la as [|a la IH]; cbn [map csum]; [symmetry; apply csum_zero; reflexivity|]. rewrite IH, <- csum_add. reflexivity.
Qed.
Lemma csum_flat {A B} (f : B -> Complex.C) (g : A -> list B) l : csum (map f (flat_map g l)) = csum (map (fun a => csum (map f (g a))) l).
Proof. induction l as [|a l IH]; cbn [flat_map map csum]; [reflexivity|]. rewrite map_app, csum_app, IH. reflexivity. Qed.

(** ** Roots of unity *)
Lemma turn_add a b : turn (a + b) = Cmult (turn a) (turn b).
Proof. unfold turn, Cmult. cbn [fst snd]. rewrite Rmult_plus_distr_l, cos_plus, sin_plus. f_equal; ring. Qed.
Lemma turn_0 : turn 0 = RtoC 1.
Proof. unfold turn. rewrite Rmult_0_r, cos_0, sin_0. reflexivity. Qed.
Lemma turn_nat n : turn (INR n) = RtoC 1.
Proof.
  unfold turn. replace (2 * PI * INR n) with (0 + 2 * INR n * PI) by ring. rewrite cos_period, sin_period, cos_0, sin_0. reflexivity.
Qed.
Lemma turn_opp a : Cmult (turn a) (turn (- a)) = RtoC 1.
Proof. rewrite <- turn_add. replace (a + - a) with 0 by ring. apply turn_0. Qed.
Lemma turn_one s : -1 < s < 1 -> turn s = RtoC 1 -> s = 0.
Proof.
  intros Hs H. assert (C1 : cos (2 * PI * s) = 1) by (injection H; trivial). pose proof PI_RGT_0 as P.
  replace (2 * PI * s) with (2 * (PI * s)) in C1 by ring. rewrite cos_2a_sin in C1. assert (Z : sin (PI * s) = 0) by nra.
  destruct (Rtotal_order s 0) as [L|[E|G]]; [exfalso|exact E|exfalso].
  - assert (0 < sin (- (PI * s))) by (apply sin_gt_0; nra). rewrite sin_neg in H0. lra.
  - assert (0 < sin (PI * s)) by (apply sin_gt_0; nra). lra.
Qed.
Fixpoint cpow (w : Complex.C) (n : nat) : Complex.C := match n with O => RtoC 1 | S k => Cmult w (cpow w k) end.
Lemma geo (w : Complex.C) n : Cmult (Cminus w (RtoC 1)) (csum (map (cpow w) (seq 0 n))) = Cminus (cpow w n) (RtoC 1).
Proof.
  induction n as [|n IH]; [cbn [seq map csum cpow]; ring|]. rewrite seq_S, map_app, csum_app. cbn [map csum Nat.add]. 
  replace (Cmult (Cminus w 1) (Cplus (csum (map (cpow w) (seq 0 n))) (Cplus (cpow w n) 0))) with (Cplus (Cmult (Cminus w 1) (csum (map (cpow w) (seq 0 n)))) (Cmult (Cminus w 1) (cpow w n))) by ring.
  rewrite IH. cbn [cpow]. ring.
Qed.
Lemma cpow_turn t n : cpow (turn t) n = turn (INR n * t).
Proof. induction n as [|n IH]; [cbn [cpow INR]; rewrite Rmult_0_l, turn_0; reflexivity|]. cbn [cpow]. rewrite IH, <- turn_add. f_equal. rewrite S_INR. ring. Qed.
Lemma turn_pm s n : s = 1 \/ s = -1 -> turn (s * INR n) = RtoC 1.
Proof.
  intros [-> | ->]; [rewrite Rmult_1_l; apply turn_nat|]. pose proof (turn_opp (INR n)) as H. rewrite turn_nat in H. replace (-1 * INR n) with (- INR n) by ring. rewrite <- H. ring.
Qed.
(** one axis *)
Lemma ortho1 s d a b : s = 1 \/ s = -1 -> (a < d)%nat -> (b < d)%nat ->
  csum (map (fun k => Cmult (turn (s * (INR k * INR a / INR d))) (turn (- s * (INR k * INR b / INR d)))) (seq 0 d)) = RtoC (if Nat.eqb a b then INR d else 0).
Proof.
  intros Hs Ha Hb. assert (Hd : 0 < INR d) by (apply lt_0_INR; lia). set (t := s * ((INR a - INR b) / INR d)).
  transitivity (csum (map (cpow (turn t)) (seq 0 d))).
  { apply csum_ext. intros k _. rewrite cpow_turn, <- turn_add. f_equal. unfold t. field. lra. }
  destruct (Nat.eqb_spec a b) as [->|N].
  - unfold t. replace ((INR b - INR b) / INR d) with 0 by (field; lra). rewrite Rmult_0_r. rewrite turn_0.
    assert (P : forall k, cpow (RtoC 1) k = RtoC 1) by (induction k as [|k IH]; [reflexivity|]; cbn [cpow]; rewrite IH; ring).
    clear - P. generalize 0%nat. induction d as [|d IH]; intros j; [reflexivity|]. cbn [seq map csum]. rewrite IH, P, S_INR. rewrite <- RtoC_plus. f_equal. ring.
  - pose proof (geo (turn t) d) as G. rewrite cpow_turn in G.
    assert (W : turn (INR d * t) = RtoC 1).
    { unfold t. replace (INR d * (s * ((INR a - INR b) / INR d))) with (s * INR a + - s * INR b) by (field; lra). rewrite turn_add, (turn_pm s a Hs), (turn_pm (- s) b) by (destruct Hs as [-> | ->]; [right|left]; ring). ring. }
    rewrite W in G. assert (NZ : Cminus (turn t) (RtoC 1) <> RtoC 0).
    { intros E. assert (T1 : turn t = RtoC 1) by (replace (turn t) with (Cplus (Cminus (turn t) 1) 1) by ring; rewrite E; ring).
      assert (R1 : -1 < (INR a - INR b) / INR d < 1).
      { apply lt_INR in Ha. apply lt_INR in Hb. pose proof (pos_INR a). pose proof (pos_INR b). split; [apply Rmult_lt_reg_r with (INR d)|apply Rmult_lt_reg_r with (INR d)]; try exact Hd; unfold Rdiv; rewrite Rmult_assoc, Rinv_l by lra; lra. }
      apply turn_one in T1; [|unfold t; destruct Hs as [-> | ->]; lra]. unfold t in T1. assert (Z : (INR a - INR b) / INR d = 0) by (destruct Hs as [-> | ->]; lra).
      apply N, INR_eq. apply Rmult_integral in Z. destruct Z as [Z|Z]; [lra|]. pose proof (Rinv_0_lt_compat _ Hd). lra. }
    set (Sm := csum _) in *. replace Sm with (Cmult (Cinv (Cminus (turn t) 1)) (Cmult (Cminus (turn t) 1) Sm)); [rewrite G; ring|]. field. exact NZ.
Qed.

(** ** All axes *)
Lemma in_indices dims : forall n, In n (indices dims) -> Forall2 lt n dims.
Proof.
  induction dims as [|d ds IH]; intros n H; cbn [indices] in H; [destruct H as [<-|[]]; constructor|].
  apply in_flat_map in H. destruct H as [i [Hi H]]. apply in_map_iff in H. destruct H as [n' [<- H]]. constructor; [apply in_seq in Hi; lia|apply IH; exact H].
Qed.
Fixpoint idx_eqb (a b : list nat) : bool := match a, b with [], [] => true | x :: a', y :: b' => Nat.eqb x y && idx_eqb a' b' | _, _ => false end.
Lemma idx_eqb_spec a : forall b, idx_eqb a b = true <-> a = b.
Proof.
  induction a as [|x a IH]; intros [|y b]; cbn [idx_eqb]; split; intros H; try discriminate; try reflexivity.
  - apply andb_true_iff in H. destruct H as [E H]. apply Nat.eqb_eq in E. apply IH in H. subst. reflexivity.
  - injection H as -> ->. rewrite Nat.eqb_refl. apply IH. reflexivity.
Qed.
Lemma len_flat ds d : length (flat_map (fun i => map (cons i) (indices ds)) (seq 0 d)) = (d * length (indices ds))%nat.
Proof. generalize 0%nat. induction d as [|d IH]; intros j; [reflexivity|]. cbn [seq flat_map]. rewrite app_length, map_length, IH. lia. Qed.
Lemma orthogonal s dims : s = 1 \/ s = -1 -> forall m n, Forall2 lt m dims -> Forall2 lt n dims ->
  csum (map (fun k => Cmult (turn (s * phase dims k m)) (turn (- s * phase dims k n))) (indices dims)) = RtoC (if idx_eqb m n then INR (length (indices dims)) else 0).
Proof.
  intros Hs. induction dims as [|d ds IH]; intros m n Hm Hn; inversion Hm as [|a ? m' ? Ha Hm']; inversion Hn as [|b ? n' ? Hb Hn']; subst; clear Hm Hn.
  - cbn [indices map phase csum idx_eqb length INR]. rewrite !Rmult_0_r, turn_0. ring.
  - cbn [indices]. rewrite csum_flat, len_flat. cbn [idx_eqb].
    transitivity (csum (map (fun i => Cmult (RtoC (if idx_eqb m' n' then INR (length (indices ds)) else 0)) (Cmult (turn (s * (INR i * INR a / INR d))) (turn (- s * (INR i * INR b / INR d))))) (seq 0 d))).
    + apply csum_ext. intros i _. rewrite map_map, <- (IH m' n' Hm' Hn'). set (u := Cmult (turn (s * (INR i * INR a / INR d))) (turn (- s * (INR i * INR b / INR d)))).
      transitivity (Cmult u (csum (map (fun k => Cmult (turn (s * phase ds k m')) (turn (- s * phase ds k n'))) (indices ds)))); [|ring]. rewrite <- csum_mul. apply csum_ext. intros k _. cbn [phase]. unfold u.
      rewrite !Rmult_plus_distr_l, !turn_add. ring.
    + rewrite csum_mul, (ortho1 s d a b Hs Ha Hb). rewrite <- RtoC_mult. f_equal. rewrite mult_INR. destruct (Nat.eqb a b), (idx_eqb m' n'); cbn [andb]; ring.
Qed.
Lemma NoDup_indices dims : NoDup (indices dims).
Proof.
  induction dims as [|d ds IH]; cbn [indices]; [repeat constructor; intros []|]. generalize 0%nat. induction d as [|d IHd]; intros j; cbn [seq flat_map]; [constructor|].
  assert (A : forall (i : nat) l, NoDup l -> NoDup (map (cons i) l)).
  { intros i l. induction l as [|x l IHl]; intros ND; cbn [map]; [constructor|]. inversion ND as [|? ? N1 N2]; subst. constructor; [|apply IHl; exact N2]. intros H. apply in_map_iff in H. destruct H as [y [E Hy]]. injection E as ->. contradiction. }
  assert (B : forall (l1 l2 : list (list nat)), NoDup l1 -> NoDup l2 -> (forall x, In x l1 -> ~ In x l2) -> NoDup (l1 ++ l2)).
  { induction l1 as [|x l1 IH1]; intros l2 N1 N2 D; cbn [app]; [exact N2|]. inversion N1 as [|? ? X1 X2]; subst. constructor.
    - intros H. apply in_app_or in H. destruct H as [H|H]; [contradiction|exact (D x (or_introl eq_refl) H)].
    - apply IH1; [exact X2|exact N2|]. intros y Hy. apply D. right. exact Hy. }
  apply B; [apply A, IH|apply IHd|]. intros x Hx Hy. apply in_map_iff in Hx. destruct Hx as [n [<- Hn]]. apply in_flat_map in Hy. destruct Hy as [i [Hi Hy]]. apply in_map_iff in Hy. destruct Hy as [n2 [E _]]. injection E as E _. apply in_seq in Hi. lia.
Qed.
(** picking one entry *)
Lemma pick (N : R) : forall idx (x : list Complex.C) m v, NoDup idx -> In (m, v) (combine idx x) ->
  csum (map (fun p => Cmult (snd p) (RtoC (if idx_eqb (fst p) m then N else 0))) (combine idx x)) = Cmult v (RtoC N).
Proof.
  induction idx as [|i idx IH]; intros [|y x] m v ND H; cbn [combine In] in H; try contradiction. cbn [combine map csum fst snd]. inversion ND as [|? ? N1 N2]; subst.
  destruct H as [H|H].
  - injection H as -> ->. rewrite (proj2 (idx_eqb_spec m m) eq_refl), csum_zero; [ring|]. intros [j w] Hj. cbn [fst snd]. destruct (idx_eqb j m) eqn:E; [|ring].
    apply idx_eqb_spec in E. subst j. exfalso. apply N1. apply (in_combine_l _ _ _ _ Hj).
  - rewrite (IH x m v N2 H). destruct (idx_eqb i m) eqn:E; [|ring]. apply idx_eqb_spec in E. subst i. exfalso. apply N1. apply (in_combine_l _ _ _ _ H).
Qed.
Lemma dft_length s dims x : length (dft s dims x) = length (indices dims). Proof. apply map_length. Qed.
Lemma combine_map {A B} (f : A -> B) l : combine l (map f l) = map (fun a => (a, f a)) l.
Proof. induction l as [|a l IH]; cbn; [reflexivity|]. rewrite IH. reflexivity. Qed.
Lemma dft_dft s dims x : s = 1 \/ s = -1 -> length x = length (indices dims) -> dft s dims (dft (- s) dims x) = map (cmul (INR (length (indices dims)))) x.
Proof.
  intros Hs HL. unfold dft at 1. unfold dft. rewrite combine_map.
  transitivity (map (fun m => csum (map (fun p => Cmult (snd p) (RtoC (if idx_eqb (fst p) m then INR (length (indices dims)) else 0))) (combine (indices dims) x))) (indices dims)).
  - apply map_ext_in. intros m Hm. rewrite map_map. cbn [fst snd].
    transitivity (csum (map (fun k => csum (map (fun p => Cmult (snd p) (Cmult (turn (s * phase dims m k)) (turn (- s * phase dims k (fst p))))) (combine (indices dims) x))) (indices dims))).
    { apply csum_ext. intros k _. rewrite Cmult_comm, <- csum_mul. apply csum_ext. intros p _. ring. }
    rewrite csum_swap. apply csum_ext. intros [n v] Hp. cbn [fst snd]. rewrite csum_mul. f_equal.
    assert (Hn : In n (indices dims)) by apply (in_combine_l _ _ _ _ Hp).
    assert (SY : forall dims a b, phase dims a b = phase dims b a). { clear. induction dims as [|d ds IH]; intros [|a k] [|b n]; cbn [phase]; try reflexivity. rewrite (IH k n). unfold Rdiv. ring. }
    transitivity (csum (map (fun k => Cmult (turn (s * phase dims k m)) (turn (- s * phase dims k n))) (indices dims))); [apply csum_ext; intros k _; rewrite (SY dims m k); reflexivity|].
    rewrite (orthogonal s dims Hs m n (in_indices dims m Hm) (in_indices dims n Hn)).
    replace (idx_eqb m n) with (idx_eqb n m); [reflexivity|]. apply Bool.eq_iff_eq_true. rewrite !idx_eqb_spec. split; congruence.
  - generalize (NoDup_indices dims). revert HL. set (N := INR (length (indices dims))). clearbody N. intros HL ND.
    assert (G : forall l y, length y = length l -> (forall m v, In (m, v) (combine l y) -> In (m, v) (combine (indices dims) x)) ->
      map (fun m => csum (map (fun p => Cmult (snd p) (RtoC (if idx_eqb (fst p) m then N else 0))) (combine (indices dims) x))) l = map (cmul N) y).
    { induction l as [|m l IH]; intros [|v y] HLy HI; cbn [length map] in *; try discriminate; [reflexivity|]. injection HLy as HLy. f_equal.
      - rewrite (pick N (indices dims) x m v ND) by (apply HI; left; reflexivity). unfold cmul, Cmult, RtoC. cbn [fst snd]. f_equal; ring.
      - apply IH; [exact HLy|]. intros m' v' H. apply HI. right. exact H. }
    apply G; [exact HL|trivial].
Qed.
Lemma cmul_C c z : cmul c z = Cmult (RtoC c) z.
Proof. destruct z as [u v]. unfold cmul, Cmult, RtoC. cbn [fst snd]. f_equal; ring. Qed.
Lemma dft_scal s dims c x : dft s dims (map (cmul c) x) = map (cmul c) (dft s dims x).
Proof.
  unfold dft. rewrite map_map. apply map_ext. intros k.
  transitivity (Cmult (RtoC c) (csum (map (fun p => Cmult (snd p) (turn (s * phase dims k (fst p)))) (combine (indices dims) x)))); [|rewrite cmul_C; reflexivity].
  rewrite <- csum_mul. generalize (indices dims) as l. intros l. revert x. induction l as [|i l IH]; intros [|v x]; cbn [map combine csum]; try reflexivity. rewrite IH. f_equal.
  cbn [fst snd]. rewrite cmul_C. ring.
Qed.
Lemma cmul_cmul a b (l : list Complex.C) : a * b = 1 -> map (cmul a) (map (cmul b) l) = l.
Proof. intros E. rewrite map_map. rewrite <- (map_id l) at 2. apply map_ext. intros [u v]. unfold cmul. cbn [fst snd]. rewrite <- !Rmult_assoc, E. f_equal; ring. Qed.
Theorem fft_ifft dims x : length x = length (indices dims) -> fftn dims (ifftn dims x) = x.
Proof.
  intros HL. unfold fftn, ifftn. rewrite dft_scal. replace (dft (-1) dims (dft 1 dims x)) with (dft (-1) dims (dft (- (-1)) dims x)) by (do 2 f_equal; ring).
  rewrite dft_dft by (try (right; reflexivity); exact HL). destruct (Nat.eq_dec (length (indices dims)) 0) as [Z|NZ].
  - rewrite Z in HL. destruct x; [reflexivity|discriminate].
  - apply cmul_cmul. apply Rinv_l, not_0_INR, NZ.
Qed.
Theorem ifft_fft dims x : length x = length (indices dims) -> ifftn dims (fftn dims x) = x.
Proof.
  intros HL. unfold fftn, ifftn. replace (-1) with (- (1)) by ring. rewrite dft_dft by (try (left; reflexivity); exact HL). destruct (Nat.eq_dec (length (indices dims)) 0) as [Z|NZ].
  - rewrite Z in HL. destruct x; [reflexivity|discriminate].
  - apply cmul_cmul. apply Rinv_l, not_0_INR, NZ.
Qed.

(** ** Energy *)
Definition inner (a b : list Complex.C) : Complex.C := csum (map (fun p => Cmult (fst p) (Cconj (snd p))) (combine a b)).
Definition energy (a : list Complex.C) : R := rsum (map (fun z => cabs z ^ 2) a).
Lemma turn_conj t : Cconj (turn t) = turn (- t).
Proof. unfold turn, Cconj. cbn [fst snd]. replace (2 * PI * - t) with (- (2 * PI * t)) by ring. rewrite cos_neg, sin_neg. reflexivity. Qed.
Lemma conj_sum l : Cconj (csum l) = csum (map Cconj l).
Proof. induction l as [|a l IH]; cbn [csum map]; [unfold Cconj, RtoC; cbn [fst snd]; f_equal; ring|]. rewrite <- IH. unfold Cconj, Cplus. cbn [fst snd]. f_equal. ring. Qed.
Lemma combine_map_l {A B D} (f : A -> D) (l : list A) (m : list B) : combine (map f l) m = map (fun p => (f (fst p), snd p)) (combine l m).
Proof. revert m. induction l as [|a l IH]; intros [|b m]; cbn; try reflexivity. rewrite IH. reflexivity. Qed.
Lemma combine_map_r {A B D} (f : B -> D) (l : list A) (m : list B) : combine l (map f m) = map (fun p => (fst p, f (snd p))) (combine l m).
Proof. revert m. induction l as [|a l IH]; intros [|b m]; cbn; try reflexivity. rewrite IH. reflexivity. Qed.
Lemma combine_swap {A B D} (g : A -> B -> D) (l : list A) (m : list B) : map (fun p => g (fst p) (snd p)) (combine l m) = map (fun p => g (snd p) (fst p)) (combine m l).
Proof. revert m. induction l as [|a l IH]; intros [|b m]; cbn; try reflexivity. rewrite IH. reflexivity. Qed.
Lemma adjoint s dims x y : inner (dft s dims x) y = inner x (dft (- s) dims y).
Proof.
  assert (SY : forall dims a b, phase dims a b = phase dims b a). { clear. induction dims as [|d ds IH]; intros [|a k] [|b n]; cbn [phase]; try reflexivity. rewrite (IH k n). unfold Rdiv. ring. }
  assert (CM : forall a b, Cconj (Cmult a b) = Cmult (Cconj a) (Cconj b)) by (intros [a1 a2] [b1 b2]; unfold Cconj, Cmult; cbn [fst snd]; f_equal; ring).
  unfold inner, dft. rewrite combine_map_l, combine_map_r, !map_map. cbn [fst snd].
  transitivity (csum (map (fun q => csum (map (fun p => Cmult (Cmult (snd p) (turn (s * phase dims (fst q) (fst p)))) (Cconj (snd q))) (combine (indices dims) x))) (combine (indices dims) y))).
  { apply csum_ext. intros q _. rewrite Cmult_comm, <- csum_mul. apply csum_ext. intros p _. ring. }
  rewrite csum_swap.
  rewrite (combine_swap (fun v n => Cmult v (Cconj (csum (map (fun p => Cmult (snd p) (turn (- s * phase dims n (fst p)))) (combine (indices dims) y))))) x (indices dims)).
  apply csum_ext. intros [n v] _. cbn [fst snd]. rewrite conj_sum, map_map, <- csum_mul. apply csum_ext. intros [k w] _. cbn [fst snd].
  rewrite CM, turn_conj. replace (- (- s * phase dims n k)) with (s * phase dims k n) by (rewrite (SY dims n k); ring). ring.
Qed.
Lemma inner_self a : inner a a = RtoC (energy a).
Proof.
  unfold inner, energy. induction a as [|[u v] a IH]; [reflexivity|]. cbn [combine map csum rsum fst snd]. rewrite IH. unfold cabs. cbn [fst snd pow]. rewrite Rmult_1_r, sqrt_sqrt by nra.
  unfold Cmult, Cconj, RtoC, Cplus. cbn [fst snd]. f_equal; ring.
Qed.
Theorem parseval dims x : length x = length (indices dims) -> energy (fftn dims x) = INR (length (indices dims)) * energy x.
Proof.
  intros HL. apply RtoC_inj. rewrite <- inner_self. unfold fftn. rewrite adjoint. replace (- (-1)) with 1 by ring. replace (-1) with (- (1)) by ring.
  rewrite dft_dft by (try (left; reflexivity); exact HL). set (N := INR (length (indices dims))). unfold inner. rewrite RtoC_mult, <- inner_self. unfold inner. rewrite combine_map_r, map_map. cbn [fst snd].
  rewrite <- csum_mul. apply csum_ext. intros [[a1 a2] [b1 b2]] _. unfold cmul, Cmult, Cconj, RtoC. cbn [fst snd]. f_equal; ring.
Qed.
Definition csub (a b : list Complex.C) : list Complex.C := map (fun p => Cminus (fst p) (snd p)) (combine a b).
Lemma dft_sub s dims a b : length a = length (indices dims) -> length b = length (indices dims) -> dft s dims (csub a b) = csub (dft s dims a) (dft s dims b).
Proof.
  intros Ha Hb. unfold csub at 2. unfold dft. generalize (indices dims) at 2 4 6. intros l.
  transitivity (map (fun k => Cminus (csum (map (fun p => Cmult (snd p) (turn (s * phase dims k (fst p)))) (combine (indices dims) a))) (csum (map (fun p => Cmult (snd p) (turn (s * phase dims k (fst p)))) (combine (indices dims) b)))) l).
  - apply map_ext. intros k. revert Ha Hb. generalize (indices dims) as idx. intros idx. revert a b. induction idx as [|i idx IH]; intros [|u a] [|v b] Ha Hb; try discriminate; [cbn; unfold Cminus; ring|].
    unfold csub in *. cbn [combine map csum fst snd length] in *. rewrite IH by lia. unfold Cminus. ring.
  - induction l as [|k l IH]; cbn [map combine fst snd]; [reflexivity|]. rewrite IH. reflexivity.
Qed.
