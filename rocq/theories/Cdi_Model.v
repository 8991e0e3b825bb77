(* Model of /repo/skbeam/core/cdi.py.  Arrays are flat lists; in [cdi_recon] the pixel
   type is any type with addition, zero and scaling by rationals (complex numbers in the
   code), and pi_modulus and find_support are parameters: the loop does not depend on
   what they are.  Supports are lists of booleans (sup == 1).  Times and logging are
   left out.  gauss, the disk and pi_modulus itself are over the reals: Cdi_RealModel. *)
From Verif Require Import Common.

Record ops (V : Type) := Ops { vzero : V; vadd : V -> V -> V; vscale : Qc -> V -> V }.
Arguments vzero {V}. Arguments vadd {V}. Arguments vscale {V}.

(** ** generate_box_support, 204-207: slice(s//2 - r, s//2 + r) per axis *)
Fixpoint box_at (r : Z) (shape : list nat) (idx : list nat) : bool :=
  match shape, idx with
  | s :: ss, i :: is => in_slice (Z.of_nat s) (Z.of_nat s / 2 - r) (Z.of_nat s / 2 + r) (Z.of_nat i) && box_at r ss is
  | _, _ => true
  end.

Section Recon.
Context {V : Type} (O : ops V).
Definition vsub (a b : V) : V := vadd O a (vscale O (-(1))%Qc b).
(** a[outside_sup_index] = 0 *)
Definition restrict (inside : list bool) (x : list V) : list V :=
  map (fun p : bool * V => if fst p then snd p else vzero O) (combine inside x).
Definition lin2 (c d : Qc) (x y : list V) : list V :=
  map (fun p : V * V => vsub (vscale O c (fst p)) (vscale O d (snd p))) (combine x y).
(** 350-365, one iteration's update of sample_obj (in place). *)
Definition dm_update (pim : list V -> list V) (beta : Qc) (inside : list bool) (x : list V) : list V :=
  let gamma_1 := (- (1) / beta)%Qc in let gamma_2 := (1 / beta)%Qc in
  let obj_a := restrict inside (lin2 (1 + gamma_2)%Qc gamma_2 (pim x) x) in
  let obj_b := pim (lin2 (1 + gamma_1)%Qc gamma_1 (restrict inside x) x) in
  map (fun p : V * (V * V) => vadd O (fst p) (vscale O beta (vsub (fst (snd p)) (snd (snd p))))) (combine x (combine obj_a obj_b)).

Record params := Params { beta : Qc; start_avg : Qc; sw_flag : bool; sw_start : Qc; sw_end : Qc; sw_step : nat;
                          n_iter : nat; has_cb : bool; cb_step : nat }.
(** cur: sample_obj; old: np.sum(sup_old); calls: what the callback saw, in order;
    avg, avg_i: the running sum and its count. *)
Record state := St { cur : list V; inside : list bool; old : nat; sup_error : list nat; calls : list (list V);
                     avg : list V; avg_i : nat }.
Definition size (s : list bool) : nat := length (filter (fun b => b) s).
Definition iteration (pim : list V -> list V) (find : list V -> list bool) (P : params) (s : state) (n : nat) : state :=
  let N := qn (n_iter P) in
  let x := dm_update pim (beta P) (inside s) (cur s) in
  (* 371-380 shrinkwrap *)
  let refine := sw_flag P && Qc_leb (sw_start P * N)%Qc (qn n) && Qc_leb (qn n) (sw_end P * N)%Qc
                && (n mod sw_step P =? 0) in
  let sup := if refine then find x else inside s in
  let err := if refine then old s else 0 in
  let old' := if refine then size sup else old s in
  (* 382-383 *)
  let calls' := if has_cb P && (n_iter P mod cb_step P =? 0) then calls s ++ [x] else calls s in
  (* 385-387 *)
  let late := Qc_ltb (start_avg P * N)%Qc (qn n) in
  St x sup old' (sup_error s ++ [err]) calls'
     (if late then map (fun p : V * V => vadd O (fst p) (snd p)) (combine (avg s) x) else avg s)
     (if late then S (avg_i s) else avg_i s).
(** The returned average (None: 0/0, all NaN), the support errors, the calls made, and
    what the caller's sample_obj holds afterwards.  beta = 0 and cb_step = 0 raise.
    sw_step >= 1 is assumed. *)
Definition cdi_recon (pim : list V -> list V) (find : list V -> list bool) (P : params)
           (sample_obj : list V) (sup : list bool)
  : option (option (list V) * list nat * list (list V) * list V) :=
  if Qc_eqb (beta P) 0%Qc || (has_cb P && (cb_step P =? 0) && negb (n_iter P =? 0)) then None else
  let s := fold_left (iteration pim find P) (seq 0 (n_iter P))
             (St sample_obj sup 0 [] [] (map (fun _ => vzero O) sample_obj) 0) in
  Some (if avg_i s =? 0 then None else Some (map (vscale O (1 / qn (avg_i s))%Qc) (avg s)),
        sup_error s, calls s, cur s).
End Recon.
