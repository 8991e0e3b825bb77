(* Model of /repo/skbeam/core/fitting/xrf_model.py: element_peak_xrf, the hints of the global parameters
   (left out of Xrf_Model.v), extract_strategy and compute_escape_peak.
   lmfit is library code: a composite model carries the hints of its parts under prefix ++ name, its value is the sum of the
   values of its parts, and a parameter with an expr has the value of the parameter named there. *)
From Coq Require Import Reals.
From Coq Require Import Strings.String.
From Verif Require Import Common Xrf_Model Line_Model.
Local Open Scope R_scope.
Local Open Scope list_scope.
Notation length := List.length.

(** ** element_peak_xrf 98-163 *)
Definition element_peak_xrf (x area center delta_center delta_sigma ratio ratio_adjust fwhm_offset fwhm_fanoprime
                             e_offset e_linear e_quadratic epsilon : R) : R :=
  gaussian (calibrated e_offset e_linear e_quadratic x) area (center + delta_center)
           (delta_sigma + peak_sigma fwhm_offset fwhm_fanoprime epsilon (center + delta_center)) * ratio * ratio_adjust.

(** ** compute_escape_peak 1218-1245 *)
Definition compute_escape_peak (spectrum : list R) (ratio e_offset e_linear e_quadratic escape_e : R) : list R * list R :=
  (map (fun i => e_offset + e_linear * INR i + e_quadratic * INR i ^ 2 - escape_e) (seq 0 (length spectrum)), map (fun y => y * ratio) spectrum).

(** ** extract_strategy 1198-1215: every entry is a dictionary; a missing strategy name is a KeyError *)
Fixpoint extract_strategy {V} (param : list (string * list (string * V))) (name : string) : option (list (string * V)) :=
  match param with
  | [] => Some []
  | (k, d) :: r => if String.eqb k "non_fitting_values" then extract_strategy r name
                   else v <- aget d name ;; l <- extract_strategy r name ;; Some ((k, v) :: l)
  end.

(** ** Hints *)
Definition elements_labels : list string := ["e_offset"; "e_linear"; "e_quadratic"; "fwhm_offset"; "fwhm_fanoprime"]%string.
Definition elastic_labels : list string := ["e_offset"; "e_linear"; "e_quadratic"; "fwhm_offset"; "fwhm_fanoprime"; "coherent_sct_energy"]%string.
Definition compton_list : list string :=
  ["coherent_sct_energy"; "compton_amplitude"; "compton_angle"; "fwhm_offset"; "fwhm_fanoprime"; "e_offset"; "e_linear"; "e_quadratic";
   "compton_gamma"; "compton_f_tail"; "compton_f_step"; "compton_fwhm_corr"; "compton_hi_gamma"; "compton_hi_f_tail"]%string.
Definition hints := list (string * hint).
Definition set_hint (t : hints) (name : string) (h : hint) : hints :=
  aset t name (match aget t name with Some old => merge old h | None => h end).
(** _copy_model_param_hints 268-269; [source] gives the values of the Compton parameters, None is a KeyError *)
Definition only_value (v : Qc) : hint := {| hvalue := Some v; hvary := None; hmin := None; hmax := None; hexpr := None |}.
Definition copy_hints (source : list (string * Qc)) (labels : list string) (t : hints) : option hints :=
  foldM (fun t label => v <- aget source label ;; Some (set_hint t label (only_value v))) labels t.
(** "if name in self.params: _set_parameter_hint", 676-678, 702-704 *)
Definition from_params (param : params_t) (names : list string) (t : hints) : option hints :=
  foldM (fun t name => match aget param name with
                       | None => Some t
                       | Some e => match hint_of e with inl h => Some (set_hint t name h) | inr _ => None end
                       end) names t.
Definition eps_hint (epsilon : Qc) : hint := kw epsilon false None None None.
(** setup_compton_model 652-683 (no prefix), setup_elastic_model 685-708 (prefix elastic_) *)
Definition setup_compton (param : params_t) (epsilon : Qc) : option hints :=
  t <- from_params param compton_list [("epsilon"%string, eps_hint (Q2Qc (296 # 100)))] ;; Some (set_hint t "epsilon" (eps_hint epsilon)).
Definition setup_elastic (param : params_t) (source : list (string * Qc)) (epsilon : Qc) : option hints :=
  t <- copy_hints source elastic_labels [("epsilon"%string, eps_hint (Q2Qc (296 # 100)))] ;;
  t <- from_params param (elastic_labels ++ ["coherent_sct_amplitude"%string]) t ;;
  Some (set_hint t "epsilon" (eps_hint epsilon)).
(** the hints of one component of setup_element_model, e.g. 755-819 *)
Definition setup_line (source : list (string * Qc)) (epsilon : Qc) (c : comp) : option hints :=
  t <- copy_hints source elements_labels [("epsilon"%string, eps_hint (Q2Qc (296 # 100)))] ;;
  Some (set_hint t "epsilon" (eps_hint epsilon) ++
        [("area"%string, h_area c); ("delta_center"%string, h_pos c); ("delta_sigma"%string, h_width c); ("center"%string, kw (center c) false None None None);
         ("ratio"%string, kw (ratio c) false None None None); ("ratio_adjust"%string, h_ratio c)]).
Definition prefixed (p : string) (t : hints) : hints := map (fun kh => ((p ++ fst kh)%string, snd kh)) t.
Fixpoint setup_lines (source : list (string * Qc)) (epsilon : Qc) (cs : list comp) : option hints :=
  match cs with
  | [] => Some []
  | c :: r => t <- setup_line source epsilon c ;; l <- setup_lines source epsilon r ;; Some (prefixed (pre c) t ++ l)
  end.

(** ** _copy_model_param_hints_EXPR 272-323: the entry stored under the label itself (322) is no attribute of a parameter *)
Fixpoint ends_with (label s : string) : bool :=
  String.eqb label s || match s with EmptyString => false | String _ r => ends_with label r end.
Definition with_expr (label : string) (h : hint) : hint :=
  {| hvalue := hvalue h; hvary := hvary h; hmin := hmin h; hmax := hmax h; hexpr := Some label |}.
Definition tie_one (source : list (string * Qc)) (name : string) (h : hint) (label : string) : option hint :=
  _v <- aget source label ;;
  Some (if ends_with label name && negb (String.eqb label name) && negb (String.prefix "compton" name) then with_expr label h else h).
Definition tie_hint (source : list (string * Qc)) (l_elements l_elastic : list string) (kh : string * hint) : option (string * hint) :=
  let name := fst kh in
  if String.prefix "compton" name then Some kh
  else h <- foldM (tie_one source name) (if String.prefix "elastic" name then l_elastic else l_elements) (snd kh) ;; Some (name, h).
Fixpoint tie_all (source : list (string * Qc)) (l_elements l_elastic : list string) (t : hints) : option hints :=
  match t with [] => Some [] | kh :: r => x <- tie_hint source l_elements l_elastic kh ;; l <- tie_all source l_elements l_elastic r ;; Some (x :: l) end.

(** ** ModelSpectrum.__init__ 615-650 and assemble_models 1061-1079 *)
Section Tables.
Context (cs : string -> Qc -> string -> Qc) (en : string -> string -> Qc) (is_element : string -> bool).
Definition assembled (param : params_t) (energy epsilon : Qc) (source : list (string * Qc)) (els : list string) : option (list comp * hints) :=
  ct <- setup_compton param epsilon ;; et <- setup_elastic param source epsilon ;;
  match assemble cs en is_element param energy els with
  | inr _ => None
  | inl comps => lt <- setup_lines source epsilon comps ;;
                 h <- tie_all source elements_labels elastic_labels (ct ++ prefixed "elastic_" et ++ lt) ;; Some (comps, h)
  end.
End Tables.
(** the value of one component, and of all, for given parameter values *)
Definition line_value (v : string -> R) (p : string) (x : R) : R :=
  let g s := v (p ++ s)%string in
  element_peak_xrf x (g "area"%string) (g "center"%string) (g "delta_center"%string) (g "delta_sigma"%string) (g "ratio"%string) (g "ratio_adjust"%string)
    (g "fwhm_offset"%string) (g "fwhm_fanoprime"%string) (g "e_offset"%string) (g "e_linear"%string) (g "e_quadratic"%string) (g "epsilon"%string).
Definition elastic_value (v : string -> R) (x : R) : R :=
  let g s := v ("elastic_" ++ s)%string in
  elastic x (g "coherent_sct_amplitude"%string) (g "coherent_sct_energy"%string) (g "fwhm_offset"%string) (g "fwhm_fanoprime"%string)
    (g "e_offset"%string) (g "e_linear"%string) (g "e_quadratic"%string) (g "epsilon"%string).
Definition compton_value (v : string -> R) (x : R) : R :=
  compton x (v "compton_amplitude"%string) (v "coherent_sct_energy"%string) (v "fwhm_offset"%string) (v "fwhm_fanoprime"%string)
    (v "e_offset"%string) (v "e_linear"%string) (v "e_quadratic"%string) (v "compton_angle"%string) (v "compton_fwhm_corr"%string)
    (v "compton_f_step"%string) (v "compton_f_tail"%string) (v "compton_gamma"%string) (v "compton_hi_f_tail"%string) (v "compton_hi_gamma"%string) (v "epsilon"%string).
Definition spectrum_value (v : string -> R) (comps : list comp) (x : R) : R :=
  fold_left Rplus (map (fun c => line_value v (pre c) x) comps) (compton_value v x + elastic_value v x).
