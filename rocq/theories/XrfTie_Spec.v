(* What sharing the global parameters means. *)
From Coq Require Import Reals QArith.Qreals.
From Coq Require Import Strings.String.
From Verif Require Import Common Xrf_Model Line_Model XrfTie_Model.
Local Open Scope R_scope.
Local Open Scope list_scope.

Definition real (q : Qc) : R := Q2R (this q).
(** values a fit can give: tied parameters follow the one they are tied to, fixed ones keep their value *)
Definition respects (v : string -> R) (h : hints) : Prop := forall name hi, In (name, hi) h ->
  match hexpr hi with
  | Some other => v name = v other
  | None => match hvary hi, hvalue hi with Some false, Some q => v name = real q | _, _ => True end
  end.
(** peak of one line with the calibration and width parameters of the whole spectrum *)
Definition shared_peak (v : string -> R) (eps : R) (c : comp) (x : R) : R :=
  element_peak_xrf x (v (pre c ++ "area")%string) (real (center c)) (v (pre c ++ "delta_center")%string) (v (pre c ++ "delta_sigma")%string)
    (real (ratio c)) (v (pre c ++ "ratio_adjust")%string)
    (v "fwhm_offset"%string) (v "fwhm_fanoprime"%string) (v "e_offset"%string) (v "e_linear"%string) (v "e_quadratic"%string) eps.
Fixpoint total (l : list R) : R := match l with [] => 0 | a :: r => a + total r end.
Definition shared_spectrum (v : string -> R) (eps : R) (cs : list comp) (x : R) : R :=
  compton x (v "compton_amplitude"%string) (v "coherent_sct_energy"%string) (v "fwhm_offset"%string) (v "fwhm_fanoprime"%string)
    (v "e_offset"%string) (v "e_linear"%string) (v "e_quadratic"%string) (v "compton_angle"%string) (v "compton_fwhm_corr"%string)
    (v "compton_f_step"%string) (v "compton_f_tail"%string) (v "compton_gamma"%string) (v "compton_hi_f_tail"%string) (v "compton_hi_gamma"%string) eps +
  elastic x (v "elastic_coherent_sct_amplitude"%string) (v "coherent_sct_energy"%string) (v "fwhm_offset"%string) (v "fwhm_fanoprime"%string)
    (v "e_offset"%string) (v "e_linear"%string) (v "e_quadratic"%string) eps +
  total (map (fun c => shared_peak v eps c x) cs).
(** free to vary on its own *)
Definition free_hint (h : hint) : Prop := hexpr h = None /\ hvary h <> Some false.
