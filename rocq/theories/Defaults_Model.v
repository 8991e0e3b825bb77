(* The default parameters of the X-ray fluorescence fit and who shares them.
   /repo/skbeam/core/fitting/base/parameter_data.py 207-285 (default_param, get_para), models.py 57-97 (set_default) and the
   functions of xrf_model.py that change dictionaries in place (326-404) or copy them (425-452, 645), here as programs on
   shared objects.  The functions on values are those of Xrf_Model.v.  Numbers are the decimals as written, descriptions and
   tool tips are left out, and non_fitting_values has the shape of the other entries as in Xrf_Model.v. *)
From Verif Require Import Common Xrf_Model.

Definition dec (n : Z) (d : positive) : Qc := Q2Qc (n # d).
Definition mk (b : string) (mx mn v : Qc) : entry := {| value := v; pmin := mn; pmax := mx; bound := b |}.
(** default_param, 207-273 *)
Definition default_param : params_t :=
  [("coherent_sct_amplitude", mk "none" (qz 10000000) (dec 1 10) (qz 100000));
   ("coherent_sct_energy", mk "lohi" (qz 13) (qz 9) (qz 10));
   ("compton_amplitude", mk "none" (qz 10000000) (dec 1 10) (qz 100000));
   ("compton_angle", mk "lohi" (qz 100) (qz 80) (qz 90));
   ("compton_f_step", mk "fixed" (dec 1 100) (qz 0) (dec 1 100));
   ("compton_f_tail", mk "fixed" (dec 3 10) (dec 1 10000) (dec 5 100));
   ("compton_fwhm_corr", mk "lohi" (dec 25 10) (dec 5 10) (dec 15 10));
   ("compton_gamma", mk "lohi" (dec 42 10) (dec 38 10) (qz 4));
   ("compton_hi_f_tail", mk "fixed" (qz 1) (dec 1 1000000) (dec 1 10));
   ("compton_hi_gamma", mk "fixed" (qz 3) (dec 1 10) (qz 2));
   ("e_linear", mk "lohi" (dec 11 1000) (dec 9 1000) (dec 1 100));
   ("e_offset", mk "lohi" (dec 15 1000) (dec (-1) 100) (qz 0));
   ("e_quadratic", mk "lohi" (dec 1 1000000) (dec (-1) 1000000) (qz 0));
   ("fwhm_fanoprime", mk "fixed" (dec 1 10000) (dec 1 10000000) (dec 1 1000000));
   ("fwhm_offset", mk "lohi" (dec 19 100) (dec 16 100) (dec 178 1000));
   ("non_fitting_values", mk "" (qz 0) (qz 0) (qz 0))]%string.

(** set_default, models.py 57-97: the hints given to the model for the arguments of its function after the first, in order,
    and the TypeError of an unknown bound (ValueErr here); non_fitting_values has no bound_type (KeyError) *)
Definition default_hint (e : entry) : hint + err :=
  let b := bound e in
  if String.eqb b "none" then inl {| hvalue := None; hvary := Some true; hmin := None; hmax := None; hexpr := None |}
  else if String.eqb b "fixed" then inl (kw (value e) false None None None)
  else if String.eqb b "lo" then inl (kw (value e) true (Some (pmin e)) None None)
  else if String.eqb b "hi" then inl (kw (value e) true None (Some (pmax e)) None)
  else if String.eqb b "lohi" then inl (kw (value e) true (Some (pmin e)) (Some (pmax e)) None)
  else inr ValueErr.
Fixpoint set_default (para : params_t) (args : list string) : list (string * hint) * option err :=
  match args with
  | [] => ([], None)
  | a :: r => match aget para a with
      | None => set_default para r
      | Some e => if String.eqb a "non_fitting_values" then ([], Some KeyErr)
                  else match default_hint e with
                       | inl h => let '(hs, x) := set_default para r in ((a, h) :: hs, x)
                       | inr x => ([], Some x)
                       end
      end
  end.

(** Objects.  Shared is the module's default_param, which get_para returns itself (278-285: "Use copy for dict"). *)
Inductive ref := Shared | Copy (i : nat).
Definition get_para : ref := Shared.
Record world := {
  shared : params_t;
  copies : list params_t;
  ctrls : list ctrl;
  dicts : list (list (string * string));   (* strategy dictionaries; 0-4 are the built-in ones *)
  registered : list (string * nat) }.
Definition start : world :=
  {| shared := default_param; copies := []; ctrls := []; dicts := [linear; adjust_element; e_calibration; fit_with_tail; free_more];
     registered := [("linear", 0); ("adjust_element", 1); ("e_calibration", 2); ("fit_with_tail", 3); ("free_more", 4)]%string |}.
Definition reg (w : world) : registry := map (fun p => (fst p, {| sid := snd p; table := nth (snd p) (dicts w) [] |})) (registered w).
Definition obj (w : world) (r : ref) : option params_t := match r with Shared => Some (shared w) | Copy i => nth_error (copies w) i end.
Definition set_nth {A} (l : list A) (i : nat) (x : A) : list A := match upd l i x with Some l' => l' | None => l end.
Definition write (w : world) (r : ref) (p : params_t) : world :=
  match r with
  | Shared => {| shared := p; copies := copies w; ctrls := ctrls w; dicts := dicts w; registered := registered w |}
  | Copy i => {| shared := shared w; copies := set_nth (copies w) i p; ctrls := ctrls w; dicts := dicts w; registered := registered w |}
  end.
Definition with_ctrls (w : world) (c : list ctrl) : world :=
  {| shared := shared w; copies := copies w; ctrls := c; dicts := dicts w; registered := registered w |}.

Inductive op :=
| Deepcopy (r : ref)                                          (* copy.deepcopy(p): a new object *)
| SetEntry (r : ref) (k : string) (e : entry)                 (* p[k] = ... or p[k].update(...) *)
| Bound (r : ref) (name : string) (extra : list (string * string))     (* set_parameter_bound(p, name, extra) *)
| Update (r : ref) (vals : list (string * Qc))                (* update_parameter_dict(p, results) *)
| NewCtrl (r : ref) (els : list string)                       (* ParamController(p, els) *)
| CtrlStrategy (i : nat) (name : string)                      (* c.set_strategy(name) *)
| CtrlUpdate (i : nat) (els : list string) (kwargs : list (kind * string))  (* c.update_element_prop(els, ...) *)
| NewDict (t : list (string * string))                        (* a dict literal *)
| EditDict (i : nat) (k b : string)                           (* d[k] = b *)
| Register (key : string) (i : nat) (overwrite : bool).       (* register_strategy(key, d, overwrite) *)

Section Run.
Context (cs : string -> Qc -> string -> Qc).
(** one statement; a raised exception leaves what the code has done so far *)
Definition step (w : world) (o : op) : world :=
  match o with
  | Deepcopy r => match obj w r with
      | Some p => {| shared := shared w; copies := copies w ++ [p]; ctrls := ctrls w; dicts := dicts w; registered := registered w |}
      | None => w end
  | SetEntry r k e => match obj w r with Some p => write w r (aset p k e) | None => w end
  | Bound r name extra => match obj w r with
      | Some p => match set_parameter_bound (reg w) p name extra with inl p' => write w r p' | inr _ => w end
      | None => w end
  | Update r vals => match obj w r with Some p => write w r (update_parameter_dict p vals) | None => w end
  | NewCtrl r els => match obj w r with
      | Some p => match controller cs p els with inl (c, None) => with_ctrls w (ctrls w ++ [c]) | _ => w end
      | None => w end
  | CtrlStrategy i name => match nth_error (ctrls w) i with
      | Some c => match set_strategy (reg w) c name with inl c' => with_ctrls w (set_nth (ctrls w) i c') | inr _ => w end
      | None => w end
  | CtrlUpdate i els kwargs => match nth_error (ctrls w) i with
      | Some c => with_ctrls w (set_nth (ctrls w) i (fst (update_element_prop cs c els kwargs)))
      | None => w end
  | NewDict t => {| shared := shared w; copies := copies w; ctrls := ctrls w; dicts := dicts w ++ [t]; registered := registered w |}
  | EditDict i k b => {| shared := shared w; copies := copies w; ctrls := ctrls w;
      dicts := match nth_error (dicts w) i with Some t => set_nth (dicts w) i (aset t k b) | None => dicts w end; registered := registered w |}
  | Register key i overwrite =>
      match nth_error (dicts w) i with
      | None => w
      | Some t => {| shared := shared w; copies := copies w; ctrls := ctrls w; dicts := dicts w;
                     registered := map (fun p => (fst p, sid (snd p))) (fst (register_strategy (reg w) key {| sid := i; table := t |} overwrite)) |}
      end
  end.
Definition run (w : world) (ops : list op) : world := fold_left step ops w.
End Run.
