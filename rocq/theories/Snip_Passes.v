(* C44: the whole of snip_method as a sequence of clipping passes, said without the model's helpers. *)
From Coq Require Import Reals.
From Verif Require Import Common Dpc_Proofs Snip_Model Snip_Proofs.
From Coq Require Import Lra.
Local Open Scope R_scope.

(** The box average at channel i: the c channels that end (c - 1) / 2 after i, nothing outside the spectrum. *)
Definition boxed (c : nat) (l : list R) (i : nat) (v : R) : Prop :=
  v * INR c = sumr (length l) (fun p => if (p <=? i + (c - 1) / 2)%nat && (i + (c - 1) / 2 <? p + c)%nat then nthR l p else 0).
(** The detector's full width at half maximum at energy e. *)
Definition fwhm_at (e_off e_lin epsilon e f : R) : Prop := 0 <= f /\ f * f = Rmax 0 (e_off * e_off + 8 * ln 2 * (e * epsilon * e_lin)).
(** The half width, in channels, of the window of channel i. *)
Definition width_at (e_off e_lin e_quad epsilon width : R) (binning : option R) (i : nat) (w : R) : Prop :=
  exists x f, match binning with None => x = INR i | Some b => x = INR i * b end /\ fwhm_at e_off e_lin epsilon (e_off + e_lin * x + e_quad * (x * x)) f /\
  match binning with Some b => (0 < b -> w = width * f / e_lin / 2) /\ (b <= 0 -> w = width * f / e_lin) | None => w = width * f / e_lin end.
(** The channel w away from i, kept inside the range and rounded down. *)
Definition partner (xmin xmax : R) (n i : nat) (w : R) (k : nat) : Prop :=
  (k < n)%nat /\ INR k <= Rmin (Rmax (INR i + w) (Rmax xmin 0)) (Rmin xmax (INR n - 1)) < INR k + 1.
(** One pass: every channel is lowered to the mean of its two partners. *)
Definition pass (xmin xmax : R) (w : nat -> R) (a b : list R) : Prop :=
  length b = length a /\ forall i, (i < length a)%nat -> exists lo hi, partner xmin xmax (length a) i (- w i) lo /\ partner xmin xmax (length a) i (w i) hi /\
    nthR b i = Rmin (nthR a i) ((nthR a lo + nthR a hi) / 2).
Definition default_size (binning : option R) (given : option nat) (c : nat) : Prop :=
  match given, binning with Some k, _ => c = k | None, None => c = 3%nat | None, Some _ => c = 5%nat end.

Lemma sumr_plus n f g : sumr n (fun k => f k + g k) = sumr n f + sumr n g.
Proof. induction n as [|n IH]; cbn; [ring|]. rewrite IH. ring. Qed.
Lemma sumr_zero n f : (forall k, (k < n)%nat -> f k = 0) -> sumr n f = 0.
Proof. intros H. rewrite (sumr_ext n f (fun _ => 0) H), sumr_const. ring. Qed.
Lemma sumr_one n f p : (p < n)%nat -> (forall k, (k < n)%nat -> k <> p -> f k = 0) -> sumr n f = f p.
Proof.
  induction n as [|n IH]; intros Hp H; [lia|]. cbn. destruct (Nat.eq_dec p n) as [->|N].
  - rewrite sumr_zero; [ring|]. intros k Hk. apply H; lia.
  - rewrite IH by (intros; try apply H; lia). rewrite (H n) by lia. ring.
Qed.
Lemma sumr_swap n m f : sumr n (fun i => sumr m (f i)) = sumr m (fun j => sumr n (fun i => f i j)).
Proof.
  induction n as [|n IH]; cbn; [symmetry; apply sumr_zero; reflexivity|]. rewrite IH. now rewrite sumr_plus.
Qed.
Lemma at_z_sum l z : at_z l z = sumr (length l) (fun p => if (Z.of_nat p =? z)%Z then nthR l p else 0).
Proof.
  unfold at_z. destruct (Z.ltb_spec z 0) as [H|H].
  - rewrite sumr_zero; [reflexivity|]. intros k _. replace (Z.of_nat k =? z)%Z with false by lia. reflexivity.
  - destruct (Nat.ltb_spec (Z.to_nat z) (length l)) as [L|L].
    + rewrite (sumr_one _ _ (Z.to_nat z) L); [replace (Z.of_nat (Z.to_nat z) =? z)%Z with true by lia; reflexivity|].
      intros k Hk N. replace (Z.of_nat k =? z)%Z with false by lia. reflexivity.
    + rewrite nth_overflow by lia. rewrite sumr_zero; [reflexivity|]. intros k Hk. replace (Z.of_nat k =? z)%Z with false by lia. reflexivity.
Qed.
Lemma smooth_boxed sb cv c l i : default_size sb cv c -> (0 < c)%nat -> (i < length l)%nat -> boxed c l i (nthR (smooth sb cv l) i).
Proof.
  intros D Hc Hi. assert (E : con_val' sb cv = c) by (unfold con_val', default_size in *; destruct cv, sb; congruence).
  unfold boxed, smooth. rewrite E, nthR_map_seq by exact Hi. unfold Rdiv. rewrite Rmult_assoc, Rinv_l, Rmult_1_r by (apply not_0_INR; lia).
  rewrite (sumr_ext c _ (fun k => sumr (length l) (fun p => if (Z.of_nat p =? Z.of_nat i + Z.of_nat ((c - 1) / 2) - Z.of_nat k)%Z then nthR l p else 0))) by (intros; apply at_z_sum).
  rewrite sumr_swap. apply sumr_ext. intros p Hp. set (h := ((c - 1) / 2)%nat).
  destruct (Nat.leb_spec p (i + h)) as [L|L]; cbn [andb].
  - destruct (Nat.ltb_spec (i + h) (p + c)) as [L'|L'].
    + rewrite (sumr_one _ _ (i + h - p)%nat) by (try lia; intros k Hk N; replace (Z.of_nat p =? Z.of_nat i + Z.of_nat h - Z.of_nat k)%Z with false by lia; reflexivity).
      replace (Z.of_nat p =? _)%Z with true by lia. reflexivity.
    + apply sumr_zero. intros k Hk. replace (Z.of_nat p =? _)%Z with false by lia. reflexivity.
  - apply sumr_zero. intros k Hk. replace (Z.of_nat p =? _)%Z with false by lia. reflexivity.
Qed.
Lemma std_sq : std_fwhm * std_fwhm = 8 * ln 2.
Proof.
  unfold std_fwhm. assert (0 < ln 2) by (rewrite <- ln_1; apply ln_increasing; lra). replace (2 * sqrt (2 * ln 2) * (2 * sqrt (2 * ln 2))) with (4 * (sqrt (2 * ln 2) * sqrt (2 * ln 2))) by ring.
  rewrite sqrt_sqrt by lra. ring.
Qed.
Lemma std_pos : 0 < std_fwhm.
Proof. unfold std_fwhm. assert (0 < ln 2) by (rewrite <- ln_1; apply ln_increasing; lra). pose proof (sqrt_lt_R0 (2 * ln 2) ltac:(lra)). lra. Qed.
Lemma fwhm_ok e_off e_lin e_quad epsilon sb i : fwhm_at e_off e_lin epsilon (energy e_off e_lin e_quad sb i) (fwhm e_off e_lin e_quad epsilon sb i).
Proof.
  unfold fwhm_at, fwhm. pose proof std_pos as P. pose proof std_sq as Q. set (s := std_fwhm) in *. set (e := energy _ _ _ _ _). split.
  - apply Rmult_le_pos; [lra|apply sqrt_pos].
  - assert (E : e_off / s * (e_off / s) + e * epsilon * e_lin = (e_off * e_off + 8 * ln 2 * (e * epsilon * e_lin)) / (s * s)) by (rewrite <- Q; field; lra).
    set (q := e_off * e_off + _) in *. rewrite E. assert (Pss : 0 < s * s) by nra. assert (Pi : 0 < / (s * s)) by (apply Rinv_0_lt_compat; exact Pss).
    destruct (Rlt_dec (q / (s * s)) 0) as [L|L].
    + rewrite sqrt_0, Rmax_left; [ring|]. unfold Rdiv in L. nra.
    + rewrite Rmax_right by (unfold Rdiv in L; nra). replace (s * sqrt (q / (s * s)) * (s * sqrt (q / (s * s)))) with (s * s * (sqrt (q / (s * s)) * sqrt (q / (s * s)))) by ring.
      rewrite sqrt_sqrt by lra. field. lra.
Qed.
Lemma width_ok e_off e_lin e_quad epsilon width sb i : width_at e_off e_lin e_quad epsilon width sb i (window_p e_off e_lin e_quad epsilon width sb i).
Proof.
  exists (match sb with Some b => INR i * b | None => INR i end), (fwhm e_off e_lin e_quad epsilon sb i). split; [now destruct sb|]. split.
  - pose proof (fwhm_ok e_off e_lin e_quad epsilon sb i) as F. unfold energy in F. destruct sb; cbn zeta in F;
    match type of F with fwhm_at _ _ _ ?a _ => match goal with |- fwhm_at _ _ _ ?b _ => replace b with a by ring end end; exact F.
  - unfold window_p. destruct sb as [b|]; [|reflexivity]. split; intros H; destruct (Rlt_dec 0 b); try reflexivity; lra.
Qed.
Lemma trunc_floor x : 0 <= x -> IZR (trunc x) <= x < IZR (trunc x) + 1.
Proof. intros H. unfold trunc. destruct (Rlt_dec x 0); [lra|]. apply Int_part_le. Qed.
Lemma index_partner xmin xmax n i w k : 0 <= xmax -> (0 < n)%nat -> index_of xmin xmax n i w = Some k -> partner xmin xmax n i w k.
Proof.
  intros Hx Hn E. unfold index_of in E. pose proof (Rmax_r xmin 0) as Hl. fold (lo_lim xmin) in Hl.
  assert (Hh : 0 <= hi_lim xmax n). { unfold hi_lim. apply Rmin_glb; [exact Hx|]. apply le_INR in Hn. cbn in Hn. lra. }
  pose proof (clip_range (INR i + w) _ _ Hl Hh) as C. pose proof (Rmin_r xmax (INR n - 1)) as Hm. fold (hi_lim xmax n) in Hm.
  set (v := clip (INR i + w) (lo_lim xmin) (hi_lim xmax n)) in *. pose proof (trunc_bounds v n ltac:(lra)) as B. pose proof (trunc_floor v ltac:(lra)) as F.
  unfold pyindex in E. replace ((0 <=? trunc v)%Z && (trunc v <? Z.of_nat n)%Z) with true in E by lia. injection E as <-.
  split; [lia|]. fold (lo_lim xmin). fold (hi_lim xmax n). fold (clip (INR i + w) (lo_lim xmin) (hi_lim xmax n)). fold v. rewrite INR_IZR_INZ, Z2Nat.id by lia. exact F.
Qed.
Lemma snip1_pass xmin xmax bg ws b w : 0 <= xmax -> snip1 xmin xmax bg ws = Some b -> (forall i, (i < length bg)%nat -> nthR ws i = w i) -> pass xmin xmax w bg b.
Proof.
  intros Hx E W. rewrite snip1_ok in E by exact Hx. injection E as <-. split; [now rewrite map_length, seq_length|]. intros i Hi. rewrite nthR_map_seq by exact Hi.
  destruct (point_ok xmin xmax bg ws i Hx Hi) as (lo & hi & L1 & L2 & E1 & E2 & P). exists lo, hi. rewrite <- (W i Hi).
  split; [apply index_partner; [exact Hx|lia|exact E1]|]. split; [apply index_partner; [exact Hx|lia|exact E2]|]. unfold pval. now rewrite P.
Qed.
Lemma first_passes xmin xmax w k : forall bg ws b, 0 <= xmax -> (forall i, (i < length bg)%nat -> nthR ws i = w i) -> first xmin xmax k bg ws = Some b ->
  exists B, B 0%nat = bg /\ B k = b /\ forall j, (j < k)%nat -> pass xmin xmax w (B j) (B (S j)).
Proof.
  induction k as [|k IH]; intros bg ws b Hx W E; cbn in E.
  - injection E as <-. exists (fun _ => bg). repeat split; lia.
  - destruct (snip1 xmin xmax bg ws) as [c|] eqn:Ec; [|discriminate]. cbn [bind] in E. pose proof (snip1_pass _ _ _ _ _ w Hx Ec W) as P.
    destruct (IH c ws b Hx ltac:(intros i Hi; apply W; destruct P; lia) E) as (B & B0 & Bk & Bj).
    exists (fun j => match j with O => bg | S j => B j end). split; [reflexivity|]. split; [exact Bk|]. intros [|j] Hj; [now rewrite B0|]. apply Bj. lia.
Qed.
Lemma amax_ge l v : In v l -> v <= amax l.
Proof.
  destruct l as [|a r]; [easy|]. cbn. induction r as [|b r IH]; cbn; [intros [->|[]]; lra|]. intros [->|[->|H]].
  - eapply Rle_trans; [apply IH; now left|apply Rmax_r].
  - apply Rmax_l.
  - eapply Rle_trans; [apply IH; now right|apply Rmax_r].
Qed.
Lemma amax_in l : l <> [] -> In (amax l) l.
Proof.
  destruct l as [|a r]; [easy|]. intros _. cbn. induction r as [|b r IH]; cbn; [now left|]. set (m := fold_right Rmax a r) in *. destruct (Rle_dec b m) as [L|L]; [rewrite (Rmax_right _ _ L)|rewrite (Rmax_left b m) by lra; right; now left].
  destruct IH as [H|H]; [now left|right; right; exact H].
Qed.
Lemma shrink_passes xmin xmax factor threshold w fuel : 0 <= xmax -> factor <> 0 -> forall bg ws b t, bg <> [] -> length ws = length bg -> (forall i, (i < length bg)%nat -> nthR ws i = w i / factor ^ t) ->
  shrink xmin xmax factor threshold fuel bg ws = Val b ->
  exists m B, B 0%nat = bg /\ B m = b /\ (forall j, (j < m)%nat -> pass xmin xmax (fun i => w i / factor ^ (t + j)) (B j) (B (S j))) /\
  (forall j, (j < m)%nat -> exists i, (i < length bg)%nat /\ threshold <= w i / factor ^ (t + j)) /\ (forall i, (i < length bg)%nat -> w i / factor ^ (t + m) < threshold).
Proof.
  intros Hx Hf. induction fuel as [|fuel IH]; intros bg ws b t N L W E; cbn in E; [discriminate|].
  destruct (Rle_dec threshold (amax ws)) as [T|T].
  - destruct (snip1 xmin xmax bg ws) as [c|] eqn:Ec; [|discriminate]. pose proof (snip1_pass _ _ _ _ _ _ Hx Ec W) as P. destruct P as [Lc P].
    destruct (IH c (map (fun x => x / factor) ws) b (S t) ltac:(intros ->; destruct bg; [easy|discriminate]) ltac:(rewrite map_length; congruence)
      ltac:(intros i Hi; rewrite nthR_map by lia; rewrite W by lia; cbn [pow]; field; split; [now apply pow_nonzero|exact Hf]) E) as (m & B & B0 & Bm & Bj & Bt & Bl).
    exists (S m), (fun j => match j with O => bg | S j => B j end). split; [reflexivity|]. split; [exact Bm|]. split; [|split].
    + intros [|j] Hj; [rewrite B0, Nat.add_0_r; now split|]. replace (t + S j)%nat with (S t + j)%nat by lia. apply Bj. lia.
    + intros [|j] Hj.
      * pose proof (amax_in ws ltac:(intros ->; destruct bg; [easy|discriminate])) as I. apply (In_nth _ _ 0) in I as (i & Hi & Ei). exists i. split; [lia|]. rewrite Nat.add_0_r, <- W by lia. unfold nthR. now rewrite Ei.
      * replace (t + S j)%nat with (S t + j)%nat by lia. rewrite <- Lc. apply Bt. lia.
    + intros i Hi. replace (t + S m)%nat with (S t + m)%nat by lia. apply Bl. lia.
  - injection E as <-. exists 0%nat, (fun _ => bg). split; [reflexivity|]. split; [reflexivity|]. split; [lia|]. split; [lia|]. intros i Hi. rewrite Nat.add_0_r, <- W by exact Hi.
    pose proof (amax_ge ws (nthR ws i) ltac:(apply nth_In; lia)). lra.
Qed.

(** C44: snip_method is the box average, taken through ln(ln(x + 1) + 1), lowered by the first passes with
    the full windows and then by passes with windows divided by decrease_factor each time, as long as a
    window reaches the threshold, taken back.  Box size and number of first passes are the arguments,
    or 3 without and 5 with spectral binning. *)
Theorem snip_passes e_off e_lin e_quad xmin xmax epsilon width factor sb cv it threshold fuel l b c n0 :
  default_size sb cv c -> default_size sb it n0 -> (0 < c)%nat -> 0 <= xmax -> factor <> 0 ->
  snip_method e_off e_lin e_quad xmin xmax epsilon width factor sb cv it threshold fuel l = Val b ->
  exists w m B,
    (forall i, (i < length l)%nat -> width_at e_off e_lin e_quad epsilon width sb i (w i)) /\
    length (B 0%nat) = length l /\ (forall i, (i < length l)%nat -> exists v, boxed c l i v /\ nthR (B 0%nat) i = ln (ln (v + 1) + 1)) /\
    (forall j, (j < n0 + m)%nat -> pass xmin xmax (fun i => w i / factor ^ (j - n0)) (B j) (B (S j))) /\
    (forall j, (j < m)%nat -> exists i, (i < length l)%nat /\ threshold <= w i / factor ^ j) /\ (forall i, (i < length l)%nat -> w i / factor ^ m < threshold) /\
    length b = length l /\ forall i, (i < length l)%nat -> nthR b i = exp (exp (nthR (B (n0 + m)%nat) i) - 1) - 1.
Proof.
  intros Dc Di Hc Hx Hf E. unfold snip_method in E. destruct l as [|l0 l']; [discriminate|]. set (l := l0 :: l') in *.
  assert (En : iter_num' sb it = n0) by (unfold iter_num', default_size in *; destruct it, sb; congruence). rewrite En in E.
  set (w := window_p e_off e_lin e_quad epsilon width sb) in *. set (ws := map w (seq 0 (length l))) in *.
  assert (W : forall i, (i < length l)%nat -> nthR ws i = w i) by (intros; unfold ws; now apply nthR_map_seq).
  destruct (first xmin xmax n0 (map squash (smooth sb cv l)) ws) as [bg|] eqn:E1; [|discriminate].
  destruct (shrink xmin xmax factor threshold fuel bg ws) as [| |s] eqn:E2; try discriminate. injection E as <-.
  assert (Ls : length (map squash (smooth sb cv l)) = length l) by (rewrite map_length; unfold smooth; now rewrite map_length, seq_length).
  destruct (first_passes xmin xmax w n0 _ ws bg Hx ltac:(rewrite Ls; exact W) E1) as (B1 & B10 & B1n & B1j).
  destruct (first_props xmin xmax n0 (map squash (smooth sb cv l)) ws Hx) as (bg' & E1' & [Lbg _] & _). assert (bg' = bg) by congruence. subst bg'. rewrite Ls in Lbg.
  destruct (shrink_props xmin xmax factor threshold fuel bg ws s Hx E2) as [[Lb _] _].
  destruct (shrink_passes xmin xmax factor threshold w fuel Hx Hf bg ws s 0 ltac:(intros ->; discriminate) ltac:(unfold ws; rewrite map_length, seq_length; congruence)
    ltac:(intros i Hi; cbn [pow]; rewrite W by lia; field) E2) as (m & B2 & B20 & B2m & B2j & B2t & B2l).
  exists w, m, (fun j => if (j <=? n0)%nat then B1 j else B2 (j - n0)%nat). split; [intros i _; apply width_ok|].
  cbn beta. replace (0 <=? n0)%nat with true by (symmetry; apply Nat.leb_le; lia). rewrite B10. split; [exact Ls|]. split.
  - intros i Hi. exists (nthR (smooth sb cv l) i). split; [now apply smooth_boxed|]. rewrite nthR_map; [reflexivity|]. rewrite map_length in Ls. lia.
  - split; [|split; [|split; [|split]]].
    + intros j Hj. destruct (Nat.leb_spec (S j) n0) as [L|L].
      * replace (j <=? n0)%nat with true by (symmetry; apply Nat.leb_le; lia). replace (j - n0)%nat with 0%nat by lia. specialize (B1j j L). destruct B1j as [Q1 Q2]. split; [exact Q1|].
        intros i Hi. destruct (Q2 i Hi) as (lo & hi & P). exists lo, hi. cbn [pow]. unfold Rdiv. rewrite Rinv_1, Rmult_1_r. exact P.
      * replace (S j - n0)%nat with (S (j - n0)) by lia. specialize (B2j (j - n0)%nat ltac:(lia)). cbn [Nat.add] in B2j. destruct (Nat.leb_spec j n0) as [L'|L']; [|exact B2j].
        assert (Q : j = n0) by lia. subst j. rewrite B1n, <- B20. rewrite Nat.sub_diag in *. exact B2j.
    + intros j Hj. destruct (B2t j Hj) as (i & Hi & T). exists i. split; [lia|exact T].
    + intros i Hi. apply B2l. lia.
    + rewrite map_length. lia.
    + intros i Hi. rewrite nthR_map by lia. unfold stretch. do 3 f_equal. destruct (Nat.leb_spec (n0 + m) n0) as [L|L].
      * replace (n0 + m)%nat with n0 by lia. rewrite B1n, <- B20, <- B2m. repeat f_equal. lia.
      * replace (n0 + m - n0)%nat with m by lia. rewrite <- B2m. reflexivity.
Qed.

Lemma boxed_unique c l i v v' : (0 < c)%nat -> boxed c l i v -> boxed c l i v' -> v = v'.
Proof. unfold boxed. intros H A B. apply (Rmult_eq_reg_r (INR c)); [congruence|]. apply not_0_INR. lia. Qed.
Lemma width_unique e_off e_lin e_quad epsilon width sb i w w' : width_at e_off e_lin e_quad epsilon width sb i w -> width_at e_off e_lin e_quad epsilon width sb i w' -> w = w'.
Proof.
  intros (x & f & X & [F G] & W) (x' & f' & X' & [F' G'] & W'). assert (x = x') by (destruct sb; congruence). subst x'.
  assert (f = f') by (apply Rsqr_inj; [exact F|exact F'|unfold Rsqr; congruence]). subst f'. destruct sb as [b|]; [|congruence].
  destruct (Rlt_dec 0 b) as [L|L]; [rewrite (proj1 W L), (proj1 W' L)|rewrite (proj2 W ltac:(lra)), (proj2 W' ltac:(lra))]; reflexivity.
Qed.
Lemma default_con sb cv c : default_size sb cv c -> con_val' sb cv = c.
Proof. unfold con_val', default_size. destruct cv, sb; congruence. Qed.
Lemma default_it sb cv c : default_size sb cv c -> iter_num' sb cv = c.
Proof. unfold iter_num', default_size. destruct cv, sb; congruence. Qed.
