(* C44: SNIP background. *)
From Coq Require Import Reals.
From Verif Require Import Common Snip_Model Snip_Proofs Snip_Passes.
From Coq Require Import Lra.
Local Open Scope R_scope.

(** C44: with xmax >= 0 no index leaves the spectrum, whatever the windows are. *)
Theorem C44_in_bounds e_off e_lin e_quad xmin xmax epsilon width factor sb cv it threshold fuel l :
  0 <= xmax -> l <> [] -> snip_method e_off e_lin e_quad xmin xmax epsilon width factor sb cv it threshold fuel l <> Raises.
Proof. exact (snip_safe e_off e_lin e_quad xmin xmax epsilon width factor sb cv it threshold fuel l). Qed.
Print Assumptions C44_in_bounds.
(** ... and with xmax below minus the length it does. *)
Theorem C44_negative_xmax_raises e_off e_lin e_quad xmin xmax epsilon width factor sb cv it threshold fuel l :
  xmax <= - INR (length l) - 1 -> it <> Some 0%nat ->
  snip_method e_off e_lin e_quad xmin xmax epsilon width factor sb cv it threshold fuel l = Raises.
Proof. intros H I. apply snip_raises; [exact H|]. unfold iter_num'. destruct it as [[|k]|]; [congruence|lia|destruct sb; lia]. Qed.
Print Assumptions C44_negative_xmax_raises.
(** C44: the background lies between the smallest value of the smoothed spectrum and the
    smoothed spectrum itself, channel by channel. *)
Theorem C44_bounds e_off e_lin e_quad xmin xmax epsilon width factor sb cv it threshold fuel l b c :
  default_size sb cv c -> (0 < c)%nat -> 0 <= xmax -> nonneg l ->
  snip_method e_off e_lin e_quad xmin xmax epsilon width factor sb cv it threshold fuel l = Val b ->
  length b = length l /\ forall i, (i < length l)%nat -> (forall v, boxed c l i v -> nthR b i <= v) /\
    forall m, 0 <= m -> (forall k v, (k < length l)%nat -> boxed c l k v -> m <= v) -> m <= nthR b i.
Proof.
  intros D Hc Hx N E. pose proof (default_con _ _ _ D) as Dc.
  destruct (snip_bounds e_off e_lin e_quad xmin xmax epsilon width factor sb cv it threshold fuel l b ltac:(lia) Hx N E) as [L B]. split; [exact L|].
  intros i Hi. destruct (B i Hi) as [U M]. split.
  - intros v Hv. rewrite (boxed_unique c l i v _ Hc Hv (smooth_boxed sb cv c l i D Hc Hi)). exact U.
  - intros m Hm K. apply M; [exact Hm|]. intros k Hk. apply (K k); [exact Hk|]. now apply smooth_boxed.
Qed.
Print Assumptions C44_bounds.
(** C44: more counts never lower the background. *)
Theorem C44_monotone e_off e_lin e_quad xmin xmax epsilon width factor sb cv it threshold fuel l l' b :
  cv <> Some 0%nat -> 0 <= xmax -> nonneg l -> below l l' ->
  snip_method e_off e_lin e_quad xmin xmax epsilon width factor sb cv it threshold fuel l = Val b ->
  exists b', snip_method e_off e_lin e_quad xmin xmax epsilon width factor sb cv it threshold fuel l' = Val b' /\ below b b'.
Proof. intros C. apply snip_monotone. unfold con_val'. destruct cv as [[|k]|]; [congruence|lia|destruct sb; lia]. Qed.
Print Assumptions C44_monotone.
(** C44: the width loop ends for decrease_factor > 1 and width_threshold > 0, *)
Theorem C44_terminates e_off e_lin e_quad xmin xmax epsilon width factor sb cv it threshold l :
  0 <= xmax -> l <> [] -> 1 < factor -> 0 < threshold ->
  exists fuel b, forall fuel', (fuel <= fuel')%nat -> snip_method e_off e_lin e_quad xmin xmax epsilon width factor sb cv it threshold fuel' l = Val b.
Proof. exact (snip_terminates e_off e_lin e_quad xmin xmax epsilon width factor sb cv it threshold l). Qed.
Print Assumptions C44_terminates.
(** ... and never for 0 < decrease_factor <= 1 once one window reaches the threshold. *)
Theorem C44_diverges e_off e_lin e_quad xmin xmax epsilon width factor sb cv it threshold l k w :
  0 <= xmax -> 0 < factor <= 1 -> (k < length l)%nat -> width_at e_off e_lin e_quad epsilon width sb k w -> 0 <= w -> threshold <= w ->
  forall fuel, snip_method e_off e_lin e_quad xmin xmax epsilon width factor sb cv it threshold fuel l = Running.
Proof.
  intros Hx Hf Hk W. rewrite (width_unique _ _ _ _ _ _ _ _ _ W (width_ok e_off e_lin e_quad epsilon width sb k)).
  exact (snip_forever e_off e_lin e_quad xmin xmax epsilon width factor sb cv it threshold l k Hx Hf Hk).
Qed.
Print Assumptions C44_diverges.
(** C44: snip_method is the box average, taken through ln(ln(x + 1) + 1), lowered by the first passes with
    the full windows and then by passes with windows divided by decrease_factor each time, as long as a
    window reaches the threshold, taken back.  Box size and number of first passes are the arguments,
    or 3 without and 5 with spectral binning. *)
Theorem C44_passes e_off e_lin e_quad xmin xmax epsilon width factor sb cv it threshold fuel l b c n0 :
  default_size sb cv c -> default_size sb it n0 -> (0 < c)%nat -> 0 <= xmax -> factor <> 0 ->
  snip_method e_off e_lin e_quad xmin xmax epsilon width factor sb cv it threshold fuel l = Val b ->
  exists w m B,
    (forall i, (i < length l)%nat -> width_at e_off e_lin e_quad epsilon width sb i (w i)) /\
    length (B 0%nat) = length l /\ (forall i, (i < length l)%nat -> exists v, boxed c l i v /\ nthR (B 0%nat) i = ln (ln (v + 1) + 1)) /\
    (forall j, (j < n0 + m)%nat -> pass xmin xmax (fun i => w i / factor ^ (j - n0)) (B j) (B (S j))) /\
    (forall j, (j < m)%nat -> exists i, (i < length l)%nat /\ threshold <= w i / factor ^ j) /\ (forall i, (i < length l)%nat -> w i / factor ^ m < threshold) /\
    length b = length l /\ forall i, (i < length l)%nat -> nthR b i = exp (exp (nthR (B (n0 + m)%nat) i) - 1) - 1.
Proof. exact (snip_passes e_off e_lin e_quad xmin xmax epsilon width factor sb cv it threshold fuel l b c n0). Qed.
Print Assumptions C44_passes.
(** channel 10 of a detector with the default Fano-type width: fwhm^2 = 8 ln 2 * 2.96 * 10 at 1 keV per channel *)
Example C44_passes_ex : exists w, width_at 0 1 0 (296 / 100) (1 / 2) None 10 w /\ 4 * (w * w) = 8 * ln 2 * (296 / 10).
Proof.
  exists (window_p 0 1 0 (296 / 100) (1 / 2) None 10). pose proof (width_ok 0 1 0 (296 / 100) (1 / 2) None 10) as W. split; [exact W|].
  destruct W as (x & f & Ex & [Pf Ff] & Ew). rewrite Ew. assert (0 < ln 2) by (rewrite <- ln_1; apply ln_increasing; lra).
  assert (Q : INR 10 = 10) by (cbn; ring). rewrite Ex, Q in Ff. rewrite Rmax_right in Ff by lra. replace (4 * (1 / 2 * f / 1 * (1 / 2 * f / 1))) with (f * f) by field. rewrite Ff. field.
Qed.
Example C44_passes_pass : pass 0 4096 (fun _ => 1) [0; 9; 4] [0; 2; 4].
Proof. apply (snip1_pass 0 4096 [0; 9; 4] [1; 1; 1]); [lra|apply peak_removed|]. intros [|[|[|i]]] Hi; cbn in *; try reflexivity; lia. Qed.
(** C44: the average keeps a constant wherever its box fits. *)
Theorem C44_smooth_constant c v n i : (0 < c)%nat -> (c - 1 - (c - 1) / 2 <= i)%nat -> (i + (c - 1) / 2 < n)%nat -> boxed c (repeat v n) i v.
Proof.
  intros H A B. rewrite <- (smooth_const None (Some c) H v n i A B) at 2. apply smooth_boxed; [reflexivity|exact H|]. rewrite repeat_length. lia.
Qed.
Print Assumptions C44_smooth_constant.
(** One pass over 0, 9, 4 with windows of one channel. *)
Example C44_ex : snip1 0 4096 [0; 9; 4] [1; 1; 1] = Some [0; 2; 4].
Proof. exact peak_removed. Qed.
(** The default call on 1, 50, 1 ends within bounds; with decrease_factor = 1 and a zero
    threshold it does not end. *)
Example C44_ex_call : let call := fun f t => snip_method 0 1 0 0 4096 (296 / 100) (1 / 2) f None None None t in
  (exists fuel b, call (sqrt 2) (1 / 2) fuel [1; 50; 1] = Val b) /\ (forall fuel, call 1 0 fuel [1; 50; 1] = Running).
Proof.
  cbv zeta. split.
  - assert (H : 1 < sqrt 2) by (rewrite <- sqrt_1 at 1; apply sqrt_lt_1; lra).
    destruct (C44_terminates 0 1 0 0 4096 (296 / 100) (1 / 2) (sqrt 2) None None None (1 / 2) [1; 50; 1] ltac:(lra) ltac:(discriminate) H ltac:(lra)) as [f [b E]].
    exists f, b. apply E. lia.
  - assert (W : 0 <= window_p 0 1 0 (296 / 100) (1 / 2) None 0).
    { unfold window_p, fwhm, std_fwhm. pose proof (sqrt_pos (2 * ln 2)) as S1. match goal with |- context [sqrt (if ?c then _ else _)] => pose proof (sqrt_pos (if c then 0 else 0 / (2 * sqrt (2 * ln 2)) * (0 / (2 * sqrt (2 * ln 2))) + energy 0 1 0 None 0 * (296 / 100) * 1)) as S2 end.
      unfold Rdiv at 1. rewrite Rinv_1, Rmult_1_r. apply Rmult_le_pos; [lra|]. apply Rmult_le_pos; lra. }
    intros fuel. apply (C44_diverges _ _ _ _ _ _ _ _ _ _ _ _ _ 0%nat (window_p 0 1 0 (296 / 100) (1 / 2) None 0)); [lra|lra|cbn; lia|apply width_ok|exact W|exact W].
Qed.
