(* Model of integrate_ROI and integrate_ROI_spectrum of /repo/skbeam/core/spectroscopy.py.
   Samples and limits are exact rationals (no NaN).  scipy's simpson rule is a parameter
   (values, positions).  The text of the error messages and the debug log are left out;
   arrays are one-dimensional. *)
From Verif Require Import Common.
Local Open Scope Qc_scope.

Inductive ierr := ValueErr | IndexErr.
(** np.sign(np.diff(x)), line 275 *)
Definition qsign (a : Qc) : Z := if Qc_ltb 0 a then 1%Z else if Qc_ltb a 0 then (-1)%Z else 0%Z.
Fixpoint signs (x : list Qc) : list Z := match x with a :: ((b :: _) as r) => qsign (b - a) :: signs r | _ => [] end.
(** x.searchsorted(v), side left, on an ascending array: the first position not below v *)
Fixpoint searchsorted (x : list Qc) (v : Qc) : nat := match x with [] => 0 | a :: r => if Qc_ltb a v then S (searchsorted r v) else 0 end.
Definition anyb {A} (p : A -> bool) (l : list A) : bool := existsb p l.
Section I.
Context (rule : list Qc -> list Qc -> Qc).
(** the loop over the regions, 346-349 *)
Fixpoint regions (x y : list Qc) (bounds : list (Qc * Qc)) (acc : Qc) : Qc :=
  match bounds with
  | [] => acc
  | (a, b) :: r =>
      let bot := searchsorted x a in
      let top := (searchsorted x b + 1)%nat in
      regions x y r (acc + rule (firstn (top - bot) (skipn bot y)) (firstn (top - bot) (skipn bot x)))
  end.
(** integrate_ROI, 227-350 *)
Definition integrate_ROI (x y x_min x_max : list Qc) : Qc + ierr :=
  if negb (length x =? length y)%nat then inr ValueErr
  else match signs x with
  | [] => inr IndexErr                                   (* eval_x_arr_sign[0] *)
  | (s :: _) as ss =>
      if negb (forallb (fun t => t =? s)%Z ss) then inr ValueErr
      else
        let x := if (s =? -1)%Z then rev x else x in
        let y := if (s =? -1)%Z then rev y else y in
        if negb (length x_min =? length x_max)%nat then inr ValueErr
        else if anyb (fun p => Qc_leb (snd p) (fst p)) (combine x_min x_max) then inr ValueErr
        else if anyb (fun a => Qc_ltb a (hd 0 x)) x_min then inr ValueErr
        else if anyb (fun b => Qc_ltb (last x 0) b) x_max then inr ValueErr
        else inl (regions x y (combine x_min x_max) 0)
  end.
(** bin_edges[:-1] + np.diff(bin_edges), line 181 *)
Fixpoint positions (edges : list Qc) : list Qc := match edges with a :: ((b :: _) as r) => (a + (b - a)) :: positions r | _ => [] end.
(** integrate_ROI_spectrum, 142-181 *)
Definition integrate_ROI_spectrum (edges counts x_min x_max : list Qc) : Qc + ierr := integrate_ROI (positions edges) counts x_min x_max.
End I.
