From Coq Require Import Reals Lia.
From Coquelicot Require Import Coquelicot.
From Verif Require Import Gauss Line_Model Line_Proofs Line_Tail.
From Coq Require Import Lra.
Local Open Scope R_scope.

Lemma denom_pos e a : 0 < e -> 1 <= 1 + e / 511 * (1 - cos (deg2rad a)).
Proof. intros He. pose proof (COS_bound (deg2rad a)). assert (0 <= e / 511 * (1 - cos (deg2rad a))) by (apply Rmult_le_pos; lra). lra. Qed.
Theorem compton_below e a : 0 < e -> 0 < compton_energy e a <= e /\ (compton_energy e a = e <-> cos (deg2rad a) = 1).
Proof.
  intros He. pose proof (denom_pos e a He) as D. unfold compton_energy. set (d := 1 + e / 511 * (1 - cos (deg2rad a))) in *. split; [split|].
  - apply Rdiv_lt_0_compat; lra.
  - apply (Rmult_le_reg_r d); [lra|]. unfold Rdiv. rewrite Rmult_assoc, Rinv_l, Rmult_1_r by lra. rewrite <- (Rmult_1_r e) at 1. apply Rmult_le_compat_l; lra.
  - split; intros E.
    + assert (E1 : e = e * d). { rewrite <- E at 2. field. lra. } assert (d = 1) by (apply (Rmult_eq_reg_l e); lra).
      assert (E2 : e / 511 * (1 - cos (deg2rad a)) = 0) by (unfold d in *; lra). apply Rmult_integral in E2. destruct E2; lra.
    + unfold d. rewrite E. field.
Qed.
Theorem compton_decreasing e a b : 0 < e -> 0 <= a -> a < b -> b <= 180 -> compton_energy e b < compton_energy e a.
Proof.
  intros He Ha Hab Hb. pose proof PI_RGT_0 as HP. pose proof (denom_pos e a He) as Da. pose proof (denom_pos e b He) as Db. unfold compton_energy.
  apply Rmult_lt_compat_l; [exact He|]. apply Rinv_lt_contravar; [apply Rmult_lt_0_compat; lra|].
  assert (C : cos (deg2rad b) < cos (deg2rad a)).
  { unfold deg2rad. assert (a * PI < b * PI) by (apply Rmult_lt_compat_r; lra). assert (0 <= a * PI) by (apply Rmult_le_pos; lra). assert (b * PI <= 180 * PI) by (apply Rmult_le_compat_r; lra). apply cos_decreasing_1; lra. }
  apply Rplus_lt_compat_l. apply Rmult_lt_compat_l; lra.
Qed.
Theorem compton_energy_monotone a e e' : 0 < e -> e < e' -> compton_energy e a < compton_energy e' a.
Proof.
  intros He L. pose proof (denom_pos e a He) as D. pose proof (denom_pos e' a ltac:(lra)) as D'. unfold compton_energy. set (q := 1 - cos (deg2rad a)) in *.
  apply (Rmult_lt_reg_r ((1 + e / 511 * q) * (1 + e' / 511 * q))); [apply Rmult_lt_0_compat; lra|].
  replace (e / (1 + e / 511 * q) * ((1 + e / 511 * q) * (1 + e' / 511 * q))) with (e * (1 + e' / 511 * q)) by (field; lra).
  replace (e' / (1 + e' / 511 * q) * ((1 + e / 511 * q) * (1 + e' / 511 * q))) with (e' * (1 + e / 511 * q)) by (field; lra).
  replace (e * (1 + e' / 511 * q)) with (e + e * e' / 511 * q) by field. replace (e' * (1 + e / 511 * q)) with (e' + e * e' / 511 * q) by field. lra.
Qed.
(** inverse energies: 1/E' - 1/E = (1 - cos a) / 511 *)
Theorem compton_formula e a : 0 < e -> / compton_energy e a - / e = (1 - cos (deg2rad a)) / 511.
Proof. intros He. pose proof (denom_pos e a He) as D. unfold compton_energy. field. split; [lra|]. intros E. apply (Rmult_eq_compat_r (/ 511)) in E. lra. Qed.

(** ** Areas *)
Lemma whole_ext f g I : (forall x, f x = g x) -> whole_integral f I -> whole_integral g I.
Proof. intros E. unfold whole_integral. apply is_RInt_gen_ext. apply (Filter_prod _ _ _ (fun _ => True) (fun _ => True)); [exists 0; trivial|exists 0; trivial|]. intros a b _ _ x _. apply E. Qed.
Lemma whole_scal k f I : whole_integral f I -> whole_integral (fun x => k * f x) (k * I).
Proof. intros W. exact (is_RInt_gen_scal (V := R_NormedModule) f k I W). Qed.
Lemma whole_plus f g I J : whole_integral f I -> whole_integral g J -> whole_integral (fun x => f x + g x) (I + J).
Proof. intros W1 W2. exact (is_RInt_gen_plus (V := R_NormedModule) f g I J W1 W2). Qed.
Lemma whole_reflect f I : whole_integral f I -> whole_integral (fun x => f (-1 * x)) I.
Proof.
  intros W P HP. specialize (W P HP). destruct W as [A B [MA HA] [MB HB] HW]. exists (fun y => y < - MB) (fun y => - MA < y); [exists (- MB); trivial|exists (- MA); trivial|].
  intros a b Ha Hb. destruct (HW (- b) (- a)) as [y [Hy Py]]; [apply HA; lra|apply HB; lra|]. cbn in Hy. exists y. split; [|exact Py]. cbn.
  apply (is_RInt_ext (fun x => opp (opp (f (-1 * x))))); [intros x _; unfold opp; cbn; ring|].
  replace y with (opp (opp y)) by (unfold opp; cbn; ring). apply (is_RInt_opp (V := R_NormedModule)).
  apply (is_RInt_ext (fun x => scal (-1) (f (-1 * x + 0)))); [intros x _; unfold scal, opp; cbn; unfold mult; cbn; replace (-1 * x + 0) with (-1 * x) by ring; ring|].
  apply (is_RInt_comp_lin (V := R_NormedModule) f (-1) 0 a b). replace (-1 * a + 0) with (- a) by ring. replace (-1 * b + 0) with (- b) by ring. apply (is_RInt_swap (V := R_NormedModule)). exact Hy.
Qed.
Theorem elastic_area amplitude e fo ff eps : 0 < peak_sigma fo ff eps e ->
  whole_integral (fun x => elastic x amplitude e fo ff 0 1 0 eps) amplitude.
Proof.
  intros Hs. apply (whole_ext (fun x => gaussian x amplitude e (peak_sigma fo ff eps e))); [intros x; unfold elastic, calibrated; f_equal; ring|]. apply gaussian_area. exact Hs.
Qed.
Theorem compton_area amplitude e fo ff angle corr f_tail gamma hi_f_tail hi_gamma eps :
  0 < peak_sigma fo ff eps (compton_energy e angle) -> 0 < corr -> 0 < gamma -> 0 < hi_gamma -> 0 <= f_tail -> 0 <= hi_f_tail ->
  whole_integral (fun x => compton x amplitude e fo ff 0 1 0 angle corr 0 f_tail gamma hi_f_tail hi_gamma eps)
    (amplitude * (1 + f_tail * tail_fraction gamma + hi_f_tail * tail_fraction hi_gamma) / (1 + f_tail + hi_f_tail)).
Proof.
  intros Hs Hc Hg Hh Ht Hi. set (s := peak_sigma fo ff eps (compton_energy e angle)) in *. set (ec := compton_energy e angle) in *. set (fa := 1 / (1 + 0 + f_tail + hi_f_tail)).
  apply (whole_ext (fun x => fa * gaussian x amplitude ec (s * corr) + fa * f_tail * gaussian_tail x amplitude ec s gamma + fa * hi_f_tail * gaussian_tail (-1 * x) amplitude (-1 * ec) s hi_gamma)).
  - intros x. unfold compton. fold ec. fold s. fold fa. destruct (Rlt_dec 0 0); [lra|]. replace (calibrated 0 1 0 x) with x by (unfold calibrated; ring). ring.
  - replace (amplitude * (1 + f_tail * tail_fraction gamma + hi_f_tail * tail_fraction hi_gamma) / (1 + f_tail + hi_f_tail)) with
      (fa * amplitude + fa * f_tail * (amplitude * tail_fraction gamma) + fa * hi_f_tail * (amplitude * tail_fraction hi_gamma)) by (unfold fa; field; lra).
    apply whole_plus; [apply whole_plus|].
    + apply whole_scal. apply gaussian_area. apply Rmult_lt_0_compat; assumption.
    + apply whole_scal. apply tail_area; assumption.
    + apply whole_scal. apply (whole_reflect (fun x => gaussian_tail x amplitude (-1 * ec) s hi_gamma)). apply tail_area; assumption.
Qed.
Theorem compton_short amplitude e fo ff angle corr f_tail gamma hi_f_tail hi_gamma eps :
  0 < amplitude -> 0 < peak_sigma fo ff eps (compton_energy e angle) -> 0 < corr -> 0 < gamma -> 0 < hi_gamma -> 0 <= f_tail -> 0 <= hi_f_tail -> 0 < f_tail + hi_f_tail ->
  exists I, whole_integral (fun x => compton x amplitude e fo ff 0 1 0 angle corr 0 f_tail gamma hi_f_tail hi_gamma eps) I /\ amplitude / 2 < I < amplitude.
Proof.
  intros Ha Hs Hc Hg Hh Ht Hi Hp. eexists. split; [apply compton_area; eassumption|]. destruct (tail_fraction_bounds gamma Hg) as [B1 B2]. destruct (tail_fraction_bounds hi_gamma Hh) as [B3 B4].
  set (t1 := tail_fraction gamma) in *. set (t2 := tail_fraction hi_gamma) in *. set (d := 1 + f_tail + hi_f_tail). assert (Hd : 0 < d) by (unfold d; lra).
  assert (M1 : f_tail * (1 / 2) <= f_tail * t1 <= f_tail * 1) by (split; apply Rmult_le_compat_l; lra).
  assert (M2 : hi_f_tail * (1 / 2) <= hi_f_tail * t2 <= hi_f_tail * 1) by (split; apply Rmult_le_compat_l; lra).
  assert (U : 1 + f_tail * t1 + hi_f_tail * t2 < d).
  { unfold d. destruct Ht as [Ht|<-]; [assert (f_tail * t1 < f_tail * 1) by (apply Rmult_lt_compat_l; lra); lra|]. assert (hi_f_tail * t2 < hi_f_tail * 1) by (apply Rmult_lt_compat_l; lra). lra. }
  assert (L : d / 2 < 1 + f_tail * t1 + hi_f_tail * t2) by (unfold d; lra).
  split; apply (Rmult_lt_reg_r d); try exact Hd; replace (amplitude * (1 + f_tail * t1 + hi_f_tail * t2) / d * d) with (amplitude * (1 + f_tail * t1 + hi_f_tail * t2)) by (field; lra).
  - replace (amplitude / 2 * d) with (amplitude * (d / 2)) by field. apply Rmult_lt_compat_l; assumption.
  - apply Rmult_lt_compat_l; assumption.
Qed.
