(* Model of the parameter bookkeeping of /repo/skbeam/core/fitting/xrf_model.py:
   strategies, ParamController, ModelSpectrum.setup_element_model, the activated
   lines, get_line_energy, sum_area and the update of fitted values.

   Strings are ascii.  A python dict is an insertion-ordered association list.  The
   xraylib tables are parameters: [cs el e ln] is XrfElement(el).cs(e)[ln], 0 when the
   line does not exist or is not excited, and [en el ln] the energy of a line.  An
   entry of the parameter dictionary has the four keys value, min, max, bound_type;
   the entry "non_fitting_values", whose keys differ in the code, has that shape too.
   Of an lmfit model only its prefix and the hints of area, delta_center, delta_sigma,
   center, ratio and ratio_adjust are kept; the hints of the global parameters
   (xrf_model.py 214-269, 272-323) are in XrfTie_Model.v; those of epsilon and sigma are not kept. *)
From Coq Require Export Strings.String Strings.Ascii.
From Verif Require Import Common.
Open Scope list_scope.
Notation length := List.length.

Inductive err := KeyErr | ValueErr | RuntimeErr.

(** ** Strings *)
(** s.split(c) *)
Fixpoint split (c : ascii) (s : string) : list string :=
  match s with
  | EmptyString => [EmptyString]
  | String x r =>
      if Ascii.eqb x c then EmptyString :: split c r
      else match split c r with [] => [String x EmptyString] | y :: ys => String x y :: ys end
  end.
(** s.replace(a, b) for single characters *)
Fixpoint replace (a b : ascii) (s : string) : string :=
  match s with EmptyString => EmptyString | String x r => String (if Ascii.eqb x a then b else x) (replace a b r) end.
(** s.lower() *)
Definition lower_ascii (x : ascii) : ascii :=
  let n := nat_of_ascii x in if (65 <=? n) && (n <=? 90) then ascii_of_nat (n + 32) else x.
Fixpoint lower (s : string) : string :=
  match s with EmptyString => EmptyString | String x r => String (lower_ascii x) (lower r) end.
(** s.upper() *)
Definition upper_ascii (x : ascii) : ascii :=
  let n := nat_of_ascii x in if (97 <=? n) && (n <=? 122) then ascii_of_nat (n - 32) else x.
Fixpoint upper (s : string) : string :=
  match s with EmptyString => EmptyString | String x r => String (upper_ascii x) (upper r) end.
(** sub in s *)
Fixpoint contains (sub s : string) : bool :=
  prefix sub s || match s with EmptyString => false | String _ r => contains sub r end.
Definition mem (s : string) (l : list string) : bool := existsb (String.eqb s) l.

(** ** Dictionaries *)
Section D.
Context {A : Type}.
Fixpoint aget (d : list (string * A)) (k : string) : option A :=
  match d with [] => None | (k', v) :: r => if String.eqb k k' then Some v else aget r k end.
Fixpoint aset (d : list (string * A)) (k : string) (v : A) : list (string * A) :=
  match d with [] => [(k, v)] | (k', w) :: r => if String.eqb k k' then (k', v) :: r else (k', w) :: aset r k v end.
End D.

Record entry := { value : Qc; pmin : Qc; pmax : Qc; bound : string }.
Definition params_t := list (string * entry).

(** ** Tables, 65-94 *)
Definition K_LINE : list string :=
  ["Li_K"; "Be_K"; "B_K"; "C_K"; "N_K"; "O_K"; "F_K"; "Ne_K"; "Na_K"; "Mg_K"; "Al_K"; "Si_K"; "P_K"; "S_K"; "Cl_K"; "Ar_K"; "K_K";
   "Ca_K"; "Sc_K"; "Ti_K"; "V_K"; "Cr_K"; "Mn_K"; "Fe_K"; "Co_K"; "Ni_K"; "Cu_K"; "Zn_K"; "Ga_K"; "Ge_K"; "As_K"; "Se_K"; "Br_K";
   "Kr_K"; "Rb_K"; "Sr_K"; "Y_K"; "Zr_K"; "Nb_K"; "Mo_K"; "Tc_K"; "Ru_K"; "Rh_K"; "Pd_K"; "Ag_K"; "Cd_K"; "In_K"; "Sn_K"; "Sb_K";
   "Te_K"; "I_K"]%string.
Definition L_LINE : list string :=
  ["Ga_L"; "Ge_L"; "As_L"; "Se_L"; "Br_L"; "Kr_L"; "Rb_L"; "Sr_L"; "Y_L"; "Zr_L"; "Nb_L"; "Mo_L"; "Tc_L"; "Ru_L"; "Rh_L"; "Pd_L";
   "Ag_L"; "Cd_L"; "In_L"; "Sn_L"; "Sb_L"; "Te_L"; "I_L"; "Xe_L"; "Cs_L"; "Ba_L"; "La_L"; "Ce_L"; "Pr_L"; "Nd_L"; "Pm_L"; "Sm_L";
   "Eu_L"; "Gd_L"; "Tb_L"; "Dy_L"; "Ho_L"; "Er_L"; "Tm_L"; "Yb_L"; "Lu_L"; "Hf_L"; "Ta_L"; "W_L"; "Re_L"; "Os_L"; "Ir_L"; "Pt_L";
   "Au_L"; "Hg_L"; "Tl_L"; "Pb_L"; "Bi_L"; "Po_L"; "At_L"; "Rn_L"; "Fr_L"; "Ac_L"; "Th_L"; "Pa_L"; "U_L"; "Np_L"; "Pu_L"; "Am_L"]%string.
Definition M_LINE : list string :=
  ["Hf_M"; "Ta_M"; "W_M"; "Re_M"; "Os_M"; "Ir_M"; "Pt_M"; "Au_M"; "Hg_M"; "Tl_M"; "Pb_M"; "Bi_M"; "Sm_M"; "Eu_M"; "Gd_M"; "Tb_M";
   "Dy_M"; "Ho_M"; "Er_M"; "Tm_M"; "Yb_M"; "Lu_M"; "Th_M"; "Pa_M"; "U_M"]%string.
Definition K_TRANSITIONS : list string := ["ka1"; "ka2"; "ka3"; "kb1"; "kb2"; "kb3"; "kb4"; "kb5"]%string.
Definition L_TRANSITIONS : list string :=
  ["la1"; "la2"; "lb1"; "lb2"; "lb3"; "lb4"; "lb5"; "lg1"; "lg2"; "lg3"; "lg4"; "ll"; "ln"]%string.
Definition M_TRANSITIONS : list string := ["ma1"; "ma2"; "mb"; "mg"]%string.
(** TRANSITIONS_LOOKUP, 93-94 *)
Definition transitions (fam : string) : option (list string) :=
  if String.eqb fam "K" then Some K_TRANSITIONS else if String.eqb fam "L" then Some L_TRANSITIONS
  else if String.eqb fam "M" then Some M_TRANSITIONS else None.

(** constants/xrf.py: line_name (53-79) lowered as keys (191), and sorted (274). *)
Definition line_name : list string :=
  ["Ka1"; "Ka2"; "Ka3"; "Kb1"; "Kb2"; "Kb3"; "Kb4"; "kb5"; "La1"; "La2"; "Lb1"; "Lb2"; "Lb3"; "Lb4"; "Lb5"; "Lg1"; "Lg2"; "Lg3"; "Lg4";
   "Ll"; "Ln"; "Ma1"; "Ma2"; "Mb"; "Mg"]%string.
Fixpoint insert (x : string) (l : list string) : list string :=
  match l with [] => [x] | y :: r => if String.leb x y then x :: y :: r else y :: insert x r end.
Definition all_lines : list string := fold_right insert [] (map lower line_name).

(** ** Strategies, 354-404.  [sid] is the identity of the dict object. *)
Record strategy := { sid : nat; table : list (string * string) }.
Definition registry := list (string * strategy).
(** register_strategy, 363: the registry afterwards and the exception. *)
Definition register_strategy (reg : registry) (key : string) (s : strategy) (overwrite : bool) : registry * option err :=
  match aget reg key with
  | Some s0 => if overwrite then (aset reg key s, None)
               else if sid s0 =? sid s then (reg, None) else (reg, Some RuntimeErr)
  | None => (aset reg key s, None)
  end.
(** set_parameter_bound, 381 *)
Definition with_bound (b : string) (e : entry) : entry := {| value := value e; pmin := pmin e; pmax := pmax e; bound := b |}.
Definition set_parameter_bound (reg : registry) (param : params_t) (option : string) (extra : list (string * string)) : params_t + err :=
  match aget reg option with
  | None => inr KeyErr
  | Some s => inl (map (fun kv => let '(k, v) := kv in
      if String.eqb k "non_fitting_values" then (k, v)
      else (k, with_bound (match aget (table s) k with
                           | Some b => b
                           | None => match aget extra k with Some b => b | None => "fixed"%string end
                           end) v)) param)
  end.

(** ** Hints: lmfit.Model.set_param_hint replaces the given keys only; a leading prefix
    of the name is dropped. *)
Record hint := { hvalue : option Qc; hvary : option bool; hmin : option Qc; hmax : option Qc; hexpr : option string }.
Definition no_hint : hint := {| hvalue := None; hvary := None; hmin := None; hmax := None; hexpr := None |}.
Definition kw (v : Qc) (vary : bool) (mn mx : option Qc) (ex : option string) : hint :=
  {| hvalue := Some v; hvary := Some vary; hmin := mn; hmax := mx; hexpr := ex |}.
Definition orelse {A} (new old : option A) : option A := match new with Some _ => new | None => old end.
Definition merge (old new : hint) : hint :=
  {| hvalue := orelse (hvalue new) (hvalue old); hvary := orelse (hvary new) (hvary old); hmin := orelse (hmin new) (hmin old);
     hmax := orelse (hmax new) (hmax old); hexpr := orelse (hexpr new) (hexpr old) |}.
(** _set_parameter_hint, 174-211 *)
Definition hint_of (e : entry) : hint + err :=
  let b := bound e in
  if String.eqb b "none" then inl (kw (value e) true None None None)
  else if String.eqb b "fixed" then inl (kw (value e) false None None None)
  else if String.eqb b "lohi" then inl (kw (value e) true (Some (pmin e)) (Some (pmax e)) None)
  else if String.eqb b "lo" then inl (kw (value e) true (Some (pmin e)) None None)
  else if String.eqb b "hi" then inl (kw (value e) true None (Some (pmax e)) None)
  else inr ValueErr.
(** "if name in parameter: _set_parameter_hint(...)", e.g. 801-804 *)
Definition adjust (param : params_t) (name : string) (h : hint) : hint + err :=
  match aget param name with
  | None => inl h
  | Some e => match hint_of e with inl n => inl (merge h n) | inr x => inr x end
  end.

Section Tables.
Context (cs : string -> Qc -> string -> Qc) (en : string -> string -> Qc) (is_element : string -> bool).

(** ** _get_activated_line, 1434-1485; its None is an empty contribution in get_activated_lines, 1412 *)
Definition picked_lines (elemental_line first : string) (lo hi : Z) (energy : Qc) : list string :=
  let el := hd EmptyString (split "_" elemental_line) in
  if Qc_eqb (cs el energy first) 0%Qc then []
  else map (fun ln => (el ++ "_" ++ ln)%string) (filter (fun ln => negb (Qc_eqb (cs el energy ln) 0%Qc)) (pyslice all_lines lo hi)).
Definition activated_line (energy : Qc) (elemental_line : string) : list string :=
  let n := Z.of_nat (length all_lines) in
  if mem elemental_line K_LINE then picked_lines elemental_line "ka1" 0 4 energy
  else if mem elemental_line L_LINE then picked_lines elemental_line "la1" 4 (-4) energy
  else if mem elemental_line M_LINE then picked_lines elemental_line "ma1" (-4) n energy
  else [].
Definition get_activated_lines (energy : Qc) (elemental_lines : list string) : list string :=
  flat_map (activated_line energy) elemental_lines.

(** ** ParamController, 419-574 *)
Record ctrl := { params : params_t; element_list : list string; linenames : list string; estrategy : list (string * string) }.
(** PARAM_DEFAULTS, 411-416 *)
Inductive kind := Pos | Width | Ratio | Area.
Definition default_entry (k : kind) : entry :=
  match k with
  | Area => {| value := qz 1000; pmin := 0%Qc; pmax := qz 1000000000; bound := "none" |}
  | Pos => {| value := 0%Qc; pmin := Q2Qc (-5 # 1000); pmax := Q2Qc (5 # 1000); bound := "fixed" |}
  | Ratio => {| value := 1%Qc; pmin := Q2Qc (1 # 10); pmax := qz 5; bound := "fixed" |}
  | Width => {| value := 0%Qc; pmin := Q2Qc (-2 # 100); pmax := Q2Qc (2 # 100); bound := "fixed" |}
  end.
(** PARAM_SUFFIXES, 510 *)
Definition suffix (k : kind) : string :=
  match k with Pos => "delta_center" | Width => "delta_sigma" | Ratio => "ratio_adjust" | Area => "area" end.
(** One parameter: record the constraint, then self.params.update, 525-528 *)
Definition put (st : ctrl) (k : kind) (constraint : option string) (name : string) : ctrl :=
  {| params := aset (params st) name (default_entry k); element_list := element_list st; linenames := linenames st;
     estrategy := match constraint with Some c => aset (estrategy st) name c | None => estrategy st end |}.
(** _add_area_param, 545-574: the name *)
Definition area_name (element : string) : string + err :=
  let el := hd EmptyString (split "_" element) in
  if mem element K_LINE then inl (el ++ "_ka1_area")%string
  else if mem element L_LINE then inl (el ++ "_la1_area")%string
  else if mem element M_LINE then inl (el ++ "_ma1_area")%string
  else if contains "user" (lower element) then inl (element ++ "_area")%string
  else if contains "-" element then inl ("pileup_" ++ replace "-" "_" element ++ "_area")%string
  else inr ValueErr.
(** the parameter names of a call, 511-543 *)
Definition added_names (linenames : list string) (k : kind) (element : string) : list string + err :=
  match k with
  | Area => match area_name element with inl n => inl [n] | inr e => inr e end
  | _ =>
    if (String.length element <=? 4)%nat then
      match split "_" element with
      | [el; fam] => match transitions fam with
          | None => inr KeyErr
          | Some ts => inl (map (fun ln => (ln ++ "_" ++ suffix k)%string)
                              (filter (fun ln => mem ln linenames) (map (fun t => (el ++ "_" ++ t)%string) ts)))
          end
      | _ => inr ValueErr
      end
    else if contains "user" (lower element) then inl [(element ++ "_" ++ suffix k)%string]
    else inl [(("pileup_" ++ replace "-" "_" element) ++ suffix k)%string]
  end.
(** add_param, 485-543 *)
Definition add_param (st : ctrl) (k : kind) (element : string) (constraint : option string) : ctrl * option err :=
  let enter := if mem element (element_list st) then inl st
    else match aget (params st) "coherent_sct_energy" with
         | None => inr KeyErr
         | Some e => inl {| params := params st; element_list := element_list st ++ [element];
                            linenames := linenames st ++ get_activated_lines (value e) [element]; estrategy := estrategy st |}
         end in
  match enter with
  | inr e => ({| params := params st; element_list := element_list st ++ [element]; linenames := linenames st; estrategy := estrategy st |}, Some e)
  | inl st1 => match added_names (linenames st1) k element with
               | inr e => (st1, Some e)
               | inl names => (fold_left (fun s n => put s k constraint n) names st1, None)
               end
  end.
Fixpoint add_params (st : ctrl) (l : list (kind * string * option string)) : ctrl * option err :=
  match l with
  | [] => (st, None)
  | (k, el, c) :: r => match add_param st k el c with (st', None) => add_params st' r | x => x end
  end.
(** __init__ and _initialize_params, 425-453 *)
Definition controller (p : params_t) (els : list string) : (ctrl * option err) + err :=
  match aget p "coherent_sct_energy" with
  | None => inr KeyErr
  | Some e => inl (add_params {| params := p; element_list := els; linenames := get_activated_lines (value e) els; estrategy := [] |}
                (flat_map (fun el => [(Pos, el, None); (Width, el, None); (Area, el, None); (Ratio, el, None)]) els))
  end.
(** update_element_prop, 466-483 *)
Definition update_element_prop (st : ctrl) (els : list string) (kwargs : list (kind * string)) : ctrl * option err :=
  add_params st (flat_map (fun el => map (fun kc => (fst kc, el, Some (snd kc))) kwargs) els).
(** set_strategy, 455 *)
Definition set_strategy (reg : registry) (st : ctrl) (name : string) : ctrl + err :=
  match set_parameter_bound reg (params st) name (estrategy st) with
  | inl p => inl {| params := p; element_list := element_list st; linenames := linenames st; estrategy := estrategy st |}
  | inr e => inr e
  end.

(** ** get_line_energy, 1107-1137 *)
Definition get_line_energy (elemental_line : string) : Qc + err :=
  match split "_" elemental_line with
  | [name; line] =>
      let l := lower line in
      let l := if (String.length l =? 1)%nat then (l ++ "a1")%string else if (String.length l =? 2)%nat then (l ++ "1")%string else l in
      if is_element name then if mem l (map lower line_name) then inl (en name l) else inr KeyErr else inr KeyErr
  | _ => inr ValueErr
  end.

(** ** setup_element_model, 710-1059 *)
Record comp := { pre : string; center : Qc; ratio : Qc; h_area : hint; h_pos : hint; h_width : hint; h_ratio : hint }.
Inductive built := NotActive | Fails (e : err) | Comps (l : list comp).
Definition dflt (param : params_t) (name : string) (d : Qc) : Qc := match aget param name with Some e => value e | None => d end.
(** one component: its name prefix, its default hints, then the four adjustments *)
Definition component (param : params_t) (prefix : string) (cen rat : Qc) (area pos width : hint) : comp + err :=
  match adjust param (prefix ++ "area") area, adjust param (prefix ++ "delta_center") pos,
        adjust param (prefix ++ "delta_sigma") width, adjust param (prefix ++ "ratio_adjust") (kw 1%Qc false None None None) with
  | inl a, inl p, inl w, inl r => inl {| pre := prefix; center := cen; ratio := rat; h_area := a; h_pos := p; h_width := w; h_ratio := r |}
  | _, _, _, _ => inr ValueErr
  end.
Definition still : hint := kw 0%Qc false None None None.
(** a family, 736-819 (K), 821-889 (L), 891-963 (M); [area] is default_area, carried from line to line *)
Fixpoint family (param : params_t) (el first : string) (energy area : Qc) (isK : bool) (lines : list string) : list comp + err :=
  match lines with
  | [] => inl []
  | ln :: rest =>
      let pf := (el ++ "_" ++ ln ++ "_")%string in
      let area' := dflt param (pf ++ "area") area in
      let tied := Some (el ++ "_" ++ first ++ "_area")%string in
      let ha := if String.eqb ln first then kw area' true (if isK then Some 0%Qc else None) None None else kw area' true None None tied in
      let tie s := if isK && String.eqb ln "ka2" then Some (el ++ "_ka1_" ++ s)%string else None in
      match component param pf (en el ln) (cs el energy ln / cs el energy first)%Qc ha
              (kw 0%Qc false None None (tie "delta_center"%string)) (kw 0%Qc false None None (tie "delta_sigma"%string)) with
      | inr e => inr e
      | inl c => match family param el first energy area' isK rest with inl r => inl (c :: r) | inr e => inr e end
      end
  end.
Definition family_model (param : params_t) (elemental_line letter first : string) (isK : bool) (energy area : Qc) : built :=
  let el := hd EmptyString (split "_" elemental_line) in
  if Qc_eqb (cs el energy first) 0%Qc then NotActive
  else match family param el first energy area isK
               (filter (fun ln => contains letter ln && negb (Qc_eqb (cs el energy ln) 0%Qc)) all_lines) with
       | inl l => Comps l | inr e => Fails e end.
Definition one (c : comp + err) : built := match c with inl c => Comps [c] | inr e => Fails e end.
Definition setup_element_model (param : params_t) (energy : Qc) (elemental_line : string) (area : Qc) : built :=
  if mem elemental_line K_LINE then family_model param elemental_line "k" "ka1" true energy area
  else if mem elemental_line L_LINE then family_model param elemental_line "l" "la1" false energy area
  else if mem elemental_line M_LINE then family_model param elemental_line "m" "ma1" false energy area
  else if contains "user" (lower elemental_line) then
    let pf := (elemental_line ++ "_")%string in
    one (component param pf (qz 5) 1%Qc (kw (dflt param (pf ++ "area") area) true (Some 0%Qc) None None) still still)
  else match split "-" elemental_line with
       | [l1; l2] => match get_line_energy l1, get_line_energy l2 with
           | inl e1, inl e2 =>
               let pf := ("pileup_" ++ replace "-" "_" elemental_line ++ "_")%string in
               one (component param pf (e1 + e2)%Qc 1%Qc (kw (dflt param (pf ++ "area") area) true (Some 0%Qc) None None) still still)
           | inr e, _ => Fails e
           | _, inr e => Fails e
           end
       | _ => Fails ValueErr
       end.

(** ** assemble_models, 1061-1079: adding None to an lmfit model raises ValueError. *)
Fixpoint assemble (param : params_t) (energy : Qc) (els : list string) : list comp + err :=
  match els with
  | [] => inl []
  | el :: r => match setup_element_model param energy el (qz 100000) with
      | NotActive => inr ValueErr
      | Fails e => inr e
      | Comps c => match assemble param energy r with inl l => inl (c ++ l) | inr e => inr e end
      end
  end.
(** construct_linear_model, 1274-1290: the columns, one model per elemental line that is active. *)
Fixpoint linear_columns (param : params_t) (energy area : Qc) (els : list string) : list (string * list comp) + err :=
  match els with
  | [] => inl []
  | el :: r => match setup_element_model param energy el area with
      | NotActive => linear_columns param energy area r
      | Fails e => inr e
      | Comps c => match linear_columns param energy area r with inl l => inl ((el, c) :: l) | inr e => inr e end
      end
  end.

(** ** get_relative_cs_ratio, 1624-1650: None is the ZeroDivisionError. *)
Definition relative_cs_ratio (elemental_line : string) (energy : Qc) : option Qc + err :=
  match split "_" elemental_line with
  | [name; line] => if negb (is_element name) then inr KeyErr
      else match transitions (upper line) with
      | None => inr KeyErr
      | Some ts => let s := qsum (map (cs name energy) ts) in
          inl (if Qc_eqb s 0%Qc then None else Some (cs name energy (hd EmptyString ts) / s)%Qc)
      end
  | _ => inr ValueErr
  end.
End Tables.

(** ** sum_area, 577-606; [vals] is result_val.values *)
Definition line_area (vals : list (string * Qc)) (partial : string) : option Qc + err :=
  match aget vals (partial ++ "_area") with
  | None => inl None
  | Some a => match aget vals (partial ++ "_ratio"), aget vals (partial ++ "_ratio_adjust") with
      | Some r, Some j => inl (Some (1 * a * r * j)%Qc)
      | _, _ => inr KeyErr
      end
  end.
Fixpoint sum_lines (vals : list (string * Qc)) (el : string) (ts : list string) (acc : Qc) : Qc + err :=
  match ts with
  | [] => inl acc
  | t :: r => match line_area vals (el ++ "_" ++ t) with
      | inr e => inr e
      | inl None => sum_lines vals el r acc
      | inl (Some a) => sum_lines vals el r (acc + a)%Qc
      end
  end.
Definition sum_area (elemental_line : string) (vals : list (string * Qc)) : Qc + err :=
  match split "_" elemental_line with
  | [el; fam] => match transitions fam with None => inr KeyErr | Some ts => sum_lines vals el ts 0%Qc end
  | _ => inr ValueErr
  end.

(** ** update_parameter_dict, 326-351 *)
Definition fit_name (k : string) : string :=
  if String.eqb k "coherent_sct_amplitude" || String.eqb k "coherent_sct_energy" then ("elastic_" ++ k)%string else replace "-" "_" k.
Definition with_value (v : Qc) (e : entry) : entry := {| value := v; pmin := pmin e; pmax := pmax e; bound := bound e |}.
Definition update_parameter_dict (param : params_t) (vals : list (string * Qc)) : params_t :=
  map (fun kv => let '(k, e) := kv in match aget vals (fit_name k) with Some v => (k, with_value v e) | None => (k, e) end) param.

(** ** The built-in strategies, base/parameter_data.py 110-204 and xrf_model.py 354-360 *)
Definition global_names : list string :=
  ["coherent_sct_amplitude"; "coherent_sct_energy"; "compton_amplitude"; "compton_angle"; "compton_f_step"; "compton_f_tail"; "compton_fwhm_corr";
   "compton_gamma"; "compton_hi_f_tail"; "compton_hi_gamma"; "e_linear"; "e_offset"; "e_quadratic"; "fwhm_fanoprime"; "fwhm_offset"; "non_fitting_values"]%string.
Definition adjust_element : list (string * string) := combine global_names
  ["none"; "fixed"; "none"; "fixed"; "fixed"; "fixed"; "lohi"; "fixed"; "fixed"; "fixed"; "fixed"; "fixed"; "fixed"; "fixed"; "fixed"; "fixed"]%string.
Definition e_calibration : list (string * string) := combine global_names
  ["none"; "fixed"; "none"; "fixed"; "fixed"; "fixed"; "fixed"; "fixed"; "fixed"; "fixed"; "lohi"; "lohi"; "fixed"; "fixed"; "fixed"; "fixed"]%string.
Definition linear : list (string * string) := combine global_names
  ["none"; "fixed"; "none"; "fixed"; "fixed"; "fixed"; "fixed"; "fixed"; "fixed"; "fixed"; "fixed"; "fixed"; "fixed"; "fixed"; "fixed"; "fixed"]%string.
Definition free_more : list (string * string) := combine global_names
  ["none"; "lohi"; "none"; "lohi"; "lohi"; "fixed"; "lohi"; "lohi"; "fixed"; "fixed"; "lohi"; "lohi"; "lohi"; "lohi"; "lohi"; "fixed"]%string.
Definition fit_with_tail : list (string * string) := combine global_names
  ["none"; "lohi"; "none"; "lohi"; "fixed"; "lohi"; "lohi"; "fixed"; "fixed"; "fixed"; "lohi"; "lohi"; "lohi"; "lohi"; "lohi"; "fixed"]%string.
Definition builtin : registry :=
  [("linear", {| sid := 0; table := linear |}); ("adjust_element", {| sid := 1; table := adjust_element |});
   ("e_calibration", {| sid := 2; table := e_calibration |}); ("fit_with_tail", {| sid := 3; table := fit_with_tail |});
   ("free_more", {| sid := 4; table := free_more |})]%string.
