(* Model of the linear fitting part of /repo/skbeam/core/fitting/xrf_model.py over the reals:
   nnls_fit, linear_spectrum_fitting, fit_per_line_nnls, calculate_area, and, over the
   rationals, define_range and trim.

   A matrix is the list of its rows (channels).  scipy.optimize.nnls and snip_method are
   parameters of the definitions that call them; what the former returns is described by
   [is_nnls].  Division by zero in numpy (an infinity or nan) is None. *)
From Coq Require Import Reals Qround.
From Verif Require Import Common Xrf_Model BinStat_Model.
From Coq Require Import Lra.
Open Scope list_scope.
Local Open Scope R_scope.

Definition rsum (l : list R) : R := fold_right Rplus 0 l.
Definition zipw {A B C} (f : A -> B -> C) (a : list A) (b : list B) : list C := map (fun p => f (fst p) (snd p)) (combine a b).
Definition matrix := list (list R).
Definition dotp (row x : list R) : R := rsum (zipw Rmult row x).
(** np.dot(matv, x) *)
Definition mulv (M : matrix) (x : list R) : list R := map (fun row => dotp row x) M.

(** nnls_fit, 1309-1335 *)
Definition weigh_rows (M : matrix) (w : list R) : matrix := zipw (fun row s => map (Rmult s) row) M (map sqrt w).
Definition weigh (y w : list R) : list R := zipw Rmult y (map sqrt w).
Definition nnls_fit (nnls : matrix -> list R -> list R * R) (y : list R) (M : matrix) (weights : option (list R)) : list R * R :=
  match weights with
  | Some w => nnls (weigh_rows M w) (weigh y w)
  | None => nnls M y
  end.

(** fit_per_line_nnls, 1488-1528.  [bg] is the local variable of that name. *)
Definition mean (y : list R) : R := rsum y / INR (length y).
Definition sst (y : list R) : R := rsum (map (fun v => (v - mean y) * (v - mean y)) y).
Inductive res (A : Type) := UnboundLocal | Ret (a : A).
Arguments UnboundLocal {A}. Arguments Ret {A} a.
Definition goodness (y : list R) (r : R) : option R := if Req_EM_T (sst y) 0 then None else Some (1 - r / sst y).
Fixpoint fit_rows (nnls : matrix -> list R -> list R * R) (snip : list R -> list R) (use_snip : bool) (M : matrix)
    (bg : option (list R)) (bg_sum : R) (data : list (list R)) : res (list (list R * R * option R)) :=
  match data with
  | [] => Ret []
  | y :: rest =>
      let bg := if use_snip then Some (snip y) else bg in
      match bg with
      | None => UnboundLocal
      | Some b =>
          let bg_sum := if use_snip then rsum b else bg_sum in
          let '(x, r) := nnls_fit nnls (zipw Rminus y b) M None in
          match fit_rows nnls snip use_snip M bg bg_sum rest with
          | UnboundLocal => UnboundLocal
          | Ret out => Ret ((x, bg_sum, goodness y r) :: out)
          end
      end
  end.
Definition fit_per_line_nnls nnls snip (data : list (list R)) (M : matrix) (use_snip : bool) := fit_rows nnls snip use_snip M None 0 data.

(** linear_spectrum_fitting, 1384-1409: [names], [M], [areas] come from construct_linear_model,
    [out] from nnls_fit.  np.transpose(out * matv) has as row j column j of matv times out[j]. *)
Definition column (M : matrix) (j : nat) : list R := map (fun row => nth j row 0) M.
Definition total_y (M : matrix) (out : list R) : list (list R) :=
  map (fun j => map (Rmult (nth j out 0)) (column M j)) (seq 0 (length out)).
Definition spectra_dict (names : list string) (M : matrix) (out : list R) : list (string * list R) :=
  fold_left (fun d p => if Req_EM_T (rsum (snd p)) 0 then d else aset d (fst p) (snd p)) (combine names (total_y M out)) [].
Definition area_dict (names : list string) (M : matrix) (out : list R) (areas : string -> R) : list (string * R) :=
  fold_left (fun d p => if Req_EM_T (rsum (snd (fst p))) 0 then d else aset d (fst (fst p)) (snd p * areas (fst (fst p))))
    (combine (combine names (total_y M out)) out) [].

(** calculate_area, 1583-1621, at one pixel; [results] are the values along the third axis. *)
Definition mat_sum (M : matrix) (i : nat) : R := rsum (column M i).
Definition calculate_area (names : list string) (M : matrix) (results : list R) (ratio : string -> R) (first_peak_area : bool) : list (string * R) :=
  let n := length results in
  let d := fold_left (fun d i => let nm := nth i names EmptyString in
      aset d nm (nth i results 0 * mat_sum M i * (if first_peak_area then if mem nm (K_LINE ++ L_LINE ++ M_LINE) then ratio nm else 1 else 1)))
    (seq 0 (length names)) [] in
  aset (aset d "snip_bkg" (nth (n - 2) results 0)) "r_squared" (nth (n - 1) results 0).

(** trim, 1140-1163 and define_range, 1166-1195: channel numbers and values; None: a1 is zero. *)
Definition trim {A} (x : list Z) (y : list A) (low high : Z) : list (Z * A) :=
  filter (fun p => (low <=? fst p)%Z && (fst p <=? high)%Z) (combine x y).
Definition channel (e a0 a1 : Qc) : Z := qround_even ((e - a0) / a1)%Qc.
Definition define_range {A} (data : list A) (low high a0 a1 : Qc) : option (list (Z * A)) :=
  if Qc_eqb a1 0%Qc then None
  else Some (trim (map Z.of_nat (seq 0 (length data))) data (channel low a0 a1) (channel high a0 a1)).
