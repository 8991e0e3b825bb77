(* Property theorems C37, C38, C71-C73: coherent diffraction imaging. *)
From Coq Require Import Reals.
From Verif Require Import Common Cdi_Model Cdi_Spec Cdi_Proofs Cdi_RealModel Cdi_RealProofs.
From Coq Require Import Lra.

(** C37: the loop.  Iterate n+1 is the difference map of iterate n with the support in
    force; supports change exactly at the refining iterations; the callback runs after
    every iteration if cb_step divides n_iterations and never otherwise; sup_error at a
    refinement is the size of the support found by the refinement before; the average
    is over the iterations n > start_avg * n_iterations; the caller's sample_obj ends as
    the last iterate. *)
Theorem C37_reconstruction_loop : forall (V : Type) (O : ops V), laws O -> forall pim find P x0 sup0,
  (forall x, length (pim x) = length x) -> (forall x, length (find x) = length x) ->
  length sup0 = length x0 -> beta P <> 0%Qc -> sw_step P <> 0 -> (has_cb P = true -> cb_step P <> 0) ->
  exists (xs : nat -> list V) (sup : nat -> list bool) average errs calls,
    cdi_recon O pim find P x0 sup0 = Some (average, errs, calls, xs (n_iter P)) /\
    xs 0 = x0 /\ sup 0 = sup0 /\
    (forall n, n < n_iter P -> difference_map O pim (beta P) (sup n) (xs n) (xs (S n)) /\
       (refines P n -> sup (S n) = find (xs (S n))) /\ (~ refines P n -> sup (S n) = sup n)) /\
    ((has_cb P = true /\ Nat.divide (cb_step P) (n_iter P)) -> calls = map (fun n => xs (S n)) (seq 0 (n_iter P))) /\
    (~ (has_cb P = true /\ Nat.divide (cb_step P) (n_iter P)) -> calls = []) /\
    length errs = n_iter P /\
    (forall n, n < n_iter P ->
       (~ refines P n -> nth n errs 0 = 0) /\
       (refines P n -> (forall k, k < n -> ~ refines P k) -> nth n errs 0 = 0) /\
       (forall m, refines P n -> refines P m -> m < n -> (forall k, m < k < n -> ~ refines P k) ->
          nth n errs 0 = length (filter (fun b => b) (sup (S m))))) /\
    (let late := map (fun n => xs (S n)) (filter (averaged P) (seq 0 (n_iter P))) in
     (late = [] /\ average = None) \/
     (late <> [] /\ exists a, average = Some a /\ length a = length x0 /\
        forall i, i < length x0 -> pixel O a i = vscale O (1 / qn (length late))%Qc (total O late i))).
Proof. exact (fun V O L pim find P x0 sup0 => @recon_ok V O L pim find P x0 sup0). Qed.
Print Assumptions C37_reconstruction_loop.
(** Eight iterations of a two-pixel object, callback every 3: none of the eight calls. *)
Example C37_ex :
  let P k := Params (qn 1) (Q2Qc (4 # 5)) true 0%Qc 1%Qc 2 8 true k in
  let run k := cdi_recon qops (map (fun _ => 1%Qc)) (map (fun v => Qc_leb 1%Qc v)) (P k) [0%Qc; qn 3] [true; false] in
  laws qops /\
  option_map (fun r => (length (snd (fst r)), snd (fst (fst r)))) (run 3) = Some (0, [0; 0; 2; 0; 2; 0; 2; 0]) /\
  option_map (fun r => length (snd (fst r))) (run 4) = Some 8.
Proof. split; [exact qlaws|split; vm_compute; reflexivity]. Qed.
(** C37: with the default start_avg the result is all NaN exactly up to 5 iterations. *)
Theorem C37_default_average_nan : forall (V : Type) (O : ops V), laws O -> forall pim find P x0 sup0 average errs calls final,
  (forall x, length (pim x) = length x) -> (forall x, length (find x) = length x) -> length sup0 = length x0 ->
  start_avg P = Q2Qc (4 # 5) -> cdi_recon O pim find P x0 sup0 = Some (average, errs, calls, final) ->
  (average = None <-> n_iter P <= 5).
Proof. exact (fun V O L pim find P x0 sup0 a e c f => @default_nan V O L pim find P x0 sup0 a e c f). Qed.
Print Assumptions C37_default_average_nan.
Example C37_ex2 : let run n := cdi_recon qops (fun x => x) (map (fun _ => true))
    (Params (qn 1) (Q2Qc (4 # 5)) false 0%Qc 0%Qc 1 n false 1) [qn 2] [true] in
  option_map (fun r => fst (fst (fst r))) (run 5) = Some None /\
  option_map (fun r => option_map (map this) (fst (fst (fst r)))) (run 6) = Some (Some [2%Q]).
Proof. split; vm_compute; reflexivity. Qed.
(** C37: an object that satisfies both constraints is kept by every iteration, and is
    what is returned. *)
Theorem C37_solution_is_kept : forall (V : Type) (O : ops V), laws O -> forall pim find P x0 sup0,
  (forall x, length (pim x) = length x) -> (forall x, length (find x) = length x) ->
  length sup0 = length x0 -> beta P <> 0%Qc -> sw_flag P = false -> (has_cb P = true -> cb_step P <> 0) -> pim x0 = x0 ->
  (forall i, i < length x0 -> nth i sup0 false = false -> pixel O x0 i = vzero O) ->
  exists average errs calls, cdi_recon O pim find P x0 sup0 = Some (average, errs, calls, x0) /\
    (average = None \/ average = Some x0) /\ (forall x, In x calls -> x = x0) /\ Forall (eq 0) errs.
Proof. exact (fun V O L pim find P x0 sup0 => @solution_stays V O L pim find P x0 sup0). Qed.
Print Assumptions C37_solution_is_kept.
(** The object (2, 0) with the constraint that the first pixel is 2, support {0}. *)
Example C37_ex3 : let pim (x : list Qc) := match x with a :: r => qn 2 :: r | [] => [] end in
  pim [qn 2; 0%Qc] = [qn 2; 0%Qc] /\
  option_map (fun r => map this (snd r)) (cdi_recon qops pim (map (fun _ => true))
    (Params (qn 1) (Q2Qc (4 # 5)) false 0%Qc 0%Qc 1 7 true 7) [qn 2; 0%Qc] [true; false]) = Some [2; 0]%Q.
Proof. split; vm_compute; reflexivity. Qed.

(** C38: a box that fits. *)
Theorem C38_box_support : forall r shape idx, (0 <= r)%Z -> Forall (fun s => r <= Z.of_nat s / 2)%Z shape -> Forall2 lt idx shape ->
  (box_at r shape idx = true <-> in_box r shape idx).
Proof. exact box_ok. Qed.
Print Assumptions C38_box_support.
Example C38_ex : map (fun i => map (fun j => box_at 1 [4; 5] [i; j]) (seq 0 5)) (seq 0 4) =
  [[false; false; false; false; false]; [false; true; true; false; false]; [false; true; true; false; false]; [false; false; false; false; false]].
Proof. reflexivity. Qed.
(** C38: for any non-negative radius the pixels marked: on an axis shorter than twice
    the radius only the upper ones. *)
Theorem C38_box_any_radius : forall r shape idx, (0 <= r)%Z -> Forall2 lt idx shape ->
  (box_at r shape idx = true <-> in_wrapped r shape idx).
Proof. exact box_wrapped. Qed.
Print Assumptions C38_box_any_radius.
(** C38: so a larger box than the array does not cover it. *)
Theorem C38_too_large_refuted : forall r s, (Z.of_nat s / 2 < r)%Z -> (r < Z.of_nat s + Z.of_nat s / 2)%Z -> 0 < s ->
  in_box r [s] [0] /\ box_at r [s] [0] = false.
Proof. exact box_too_large. Qed.
Print Assumptions C38_too_large_refuted.
Example C38_ex2 : map (fun i => box_at 4 [6] [i]) (seq 0 6) = [false; false; false; false; false; true].
Proof. reflexivity. Qed.
(** C38: the disk. *)
Theorem C38_disk_support : forall r dims idx D, from_centre dims idx D -> disk_at r dims idx = true <-> (0 < r /\ IZR D < r * r)%R.
Proof. intros r dims idx D H. rewrite <- (dist_from_centre dims idx D H). apply disk_ok. Qed.
Print Assumptions C38_disk_support.
Example C38_ex3 : disk_at 2 [5; 6] [1; 3] = true /\ disk_at 2 [5; 6] [0; 3] = false.
Proof.
  assert (C : forall i j, from_centre [5; 6] [i; j] ((Z.of_nat i - 2) ^ 2 + ((Z.of_nat j - 3) ^ 2 + 0))).
  { intros i j. exists [2; 3]. split; [constructor; [right; reflexivity|constructor; [left; reflexivity|constructor]]|split; reflexivity]. }
  split; [apply (C38_disk_support _ _ _ _ (C 1 3)); cbn; lra|]. apply not_true_iff_false. rewrite (C38_disk_support _ _ _ _ (C 0 3)). cbn. lra.
Qed.

(** C71: gauss is positive, sums to one and follows exp(-D / (2 sigma^2)), D the squared distance from the
    central pixel. *)
Theorem C71_gauss_normalised : forall dims sigma, sigma <> 0%R -> Forall (fun d => 0 < d) dims ->
  length (gauss dims sigma) = length (indices dims) /\ rsum (gauss dims sigma) = 1%R /\
  (forall v, In v (gauss dims sigma) -> (0 < v)%R) /\
  forall p q i j, nth_error (indices dims) p = Some i -> nth_error (indices dims) q = Some j ->
    exists u v, nth_error (gauss dims sigma) p = Some u /\ nth_error (gauss dims sigma) q = Some v /\
      forall D E, from_centre dims i D -> from_centre dims j E -> v = (u * exp ((IZR D - IZR E) / (2 * sigma ^ 2)))%R /\ ((D <= E)%Z -> (v <= u)%R).
Proof.
  intros dims sigma Hs Hd. destruct (gauss_ok dims sigma Hs Hd) as (L & S & P & M). do 3 (split; [assumption|]). intros p q i j Ep Eq.
  destruct (gauss_profile dims sigma p q i j Hs Ep Eq) as (u & v & U & V & E). exists u, v. do 2 (split; [assumption|]).
  intros D D' HD HE. rewrite <- (dist_from_centre _ _ _ HD), <- (dist_from_centre _ _ _ HE). split; [exact E|]. intros LE.
  destruct (M p q i j Ep Eq LE) as (u' & v' & U' & V' & Le). rewrite U in U'. rewrite V in V'. congruence.
Qed.
Print Assumptions C71_gauss_normalised.
Example C71_ex : (1 <> 0)%R /\ Forall (fun d => 0 < d) [2; 3] /\ indices [2; 3] = [[0; 0]; [0; 1]; [0; 2]; [1; 0]; [1; 1]; [1; 2]] /\
  map (dist_sq [2; 3]) (indices [2; 3]) = [2; 1; 2; 1; 0; 1]%Z.
Proof. split; [lra|]. split; [repeat constructor|split; reflexivity]. Qed.

(** C72: pi_modulus: where the pattern is positive the spectrum keeps its phase and gets
    the modulus d |y| / (|y| + offset), always below d; elsewhere it is unchanged. *)
Theorem C72_modulus_constraint : forall F Fi offset x d,
  (forall l, length (F l) = length l) -> (forall l, length (Fi l) = length l) ->
  (forall l, F (Fi l) = l) -> (forall c l, F (map (cmul c) l) = map (cmul c) (F l)) ->
  length d = length x -> x <> [] -> (0 < offset)%R ->
  let spectrum l := map (cmul (/ sqrt (INR (length x)))) (F l) in
  length (pi_modulus F Fi offset x d) = length x /\
  forall i di y, nth_error d i = Some di -> nth_error (spectrum x) i = Some y ->
    exists y', nth_error (spectrum (pi_modulus F Fi offset x d)) i = Some y' /\
      ((di <= 0)%R -> y' = y) /\
      ((0 < di)%R -> cabs y' = (di * cabs y / (cabs y + offset))%R /\ (cabs y' < di)%R /\ exists c, (0 < c)%R /\ y' = cmul c y).
Proof. exact pi_modulus_ok. Qed.
Print Assumptions C72_modulus_constraint.
(** The two-point transform qualifies; the spectrum of (1, 3) has moduli 4/sqrt 2 and
    2/sqrt 2. *)
Example C72_ex : (forall l, length (dft2 l) = length l) /\ (forall l, length (idft2 l) = length l) /\
  (forall l, dft2 (idft2 l) = l) /\ (forall c l, dft2 (map (cmul c) l) = map (cmul c) (dft2 l)) /\
  dft2 [(1, 0); (3, 0)]%R = [(1 + 3, 0 + 0); (1 - 3, 0 - 0)]%R.
Proof. pose proof dft2_ok as H. repeat split; apply H. Qed.
(** C72: the q-space error is zero exactly when the scaled moduli are the pattern. *)
Theorem C72_error_zero : forall F x d, length (F x) = length d -> ~ Forall (fun v => v = 0%R) d ->
  (0 <= diff_error F x d)%R /\
  (diff_error F x d = 0%R <-> map (fun z => (cabs z / sqrt (INR (length x)))%R) (F x) = d).
Proof. exact diff_error_zero. Qed.
Print Assumptions C72_error_zero.
Example C72_ex2 : ~ Forall (fun v => v = 0%R) [0; 5]%R.
Proof. intros H. inversion H as [|? ? _ H']; subst. inversion H'; subst. lra. Qed.

(** C73: find_support marks the pixels at or above the fraction of the largest blurred
    value; for a fraction up to 1 the support is not empty, and it shrinks as the
    fraction grows. *)
Theorem C73_shrinkwrap : forall blur t x, length (blur (map cabs x)) = length x ->
  length (find_support blur t x) = length x /\
  (forall i v, nth_error (blur (map cabs x)) i = Some v ->
     exists b, nth_error (find_support blur t x) i = Some b /\
       (b = true <-> forall m, In m (blur (map cabs x)) -> (forall w, In w (blur (map cabs x)) -> (w <= m)%R) -> (t * m <= v)%R)) /\
  (x <> [] -> (forall v, In v (blur (map cabs x)) -> (0 <= v)%R) -> (t <= 1)%R -> In true (find_support blur t x)) /\
  (forall t', (forall v, In v (blur (map cabs x)) -> (0 <= v)%R) -> (t <= t')%R ->
     forall i, nth_error (find_support blur t' x) i = Some true -> nth_error (find_support blur t x) i = Some true).
Proof. exact find_support_ok. Qed.
Print Assumptions C73_shrinkwrap.
(** Without blurring. *)
Example C73_ex : let x := [(3, 4)%R; (0, 0)%R] in length ((fun l : list R => l) (map cabs x)) = length x /\ x <> [].
Proof. split; [reflexivity|discriminate]. Qed.
