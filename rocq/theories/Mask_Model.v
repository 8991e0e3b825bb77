(* Model of /repo/skbeam/core/mask.py.  margin, threshold and bad_to_nan_gen are
   exact; binned_outlier is over the real numbers (no rounding).  scipy's
   binned_statistic is modelled as: half-open bins, last one closed, other values
   ignored, empty bins NaN. *)
From Coq Require Import Reals.
From Verif Require Import Common Roi_Model RoiPolar_Model.

(** ** margin, 116-134: True (kept) inside the slice. *)
Definition margin (h w : nat) (e : Z) : list (list bool) :=
  tab2 h w (fun i j => in_slice (Z.of_nat h) e (- e) (Z.of_nat i) && in_slice (Z.of_nat w) e (- e) (Z.of_nat j)).

(** ** threshold, 84-113.  Arrays live in a heap; images and mask are addresses;
    the generator yields the address of the mask.  [thr_run] lists, for every yield,
    the address and the heap at that moment; None: reading an unknown address,
    arrays of different sizes, or images[0] of an empty list. *)
Definition heap := list (list Qc).
Definition thr_pixel (t im m : Qc) : Qc := if Qc_leb t im then 0%Qc else m.
Definition thr_step (t : Qc) (a : nat) (h : heap) (im : nat) : option heap :=
  iv <- nth_error h im ;; mv <- nth_error h a ;;
  if length iv =? length mv then upd h a (map (fun p => thr_pixel t (fst p) (snd p)) (combine iv mv)) else None.
Fixpoint thr_loop (t : Qc) (a : nat) (h : heap) (images : list nat) : option (list (nat * heap)) :=
  match images with
  | [] => Some []
  | im :: r => h' <- thr_step t a h im ;; rest <- thr_loop t a h' r ;; Some ((a, h') :: rest)
  end.
Definition threshold (h : heap) (images : list nat) (t : Qc) (mask : option nat) : option (list (nat * heap)) :=
  match mask with
  | Some a => thr_loop t a h images
  | None => match images with
            | [] => None                                                (* images[0] *)
            | im :: _ => iv <- nth_error h im ;;                        (* np.ones_like *)
                         thr_loop t (length h) (h ++ [map (fun _ => 1%Qc) iv]) images
            end
  end.
(** list(threshold(...)): what the yielded references show afterwards. *)
Definition collected (ys : list (nat * heap)) : list (option (list Qc)) :=
  match rev ys with
  | [] => []
  | (_, final) :: _ => map (fun y => nth_error final (fst y)) ys
  end.

(** ** bad_to_nan_gen, 54-81.  An image is a list of values; NaN is None.  The NaN
    array has the shape of the first bad image and is used for all later ones. *)
Fixpoint bad_loop (n : nat) (bad : list Z) (ret : option (list (option Qc))) (images : list (list (option Qc)))
  : list (list (option Qc)) :=
  match images with
  | [] => []
  | im :: r =>
      if existsb (Z.eqb (Z.of_nat n)) bad
      then let v := match ret with Some v => v | None => map (fun _ => None) im end in
           v :: bad_loop (S n) bad (Some v) r
      else im :: bad_loop (S n) bad ret r
  end.
Definition bad_to_nan_gen (images : list (list (option Qc))) (bad : list Z) := bad_loop 0 bad None images.

(** ** binned_outlier, 137-187 *)
Local Open Scope R_scope.
Definition Rltb (x y : R) : bool := if Rlt_dec x y then true else false.
(** binned_statistic: the bin of a value *)
Definition stat_bin (bins : list R) (x : R) : option nat :=
  let d := digitize Rleb bins x in
  if (d =? 0)%nat then None
  else if (d <? length bins)%nat then Some (d - 1)%nat
  else match nth_error bins (d - 1) with
       | Some e => if Rleb x e then Some (d - 2)%nat else None
       | None => None end.
Definition rsum (l : list R) : R := fold_right Rplus 0 l.
Definition rmean (l : list R) : R := rsum l / INR (length l).
Definition rvar (l : list R) : R := rsum (map (fun x => (x - rmean l) * (x - rmean l)) l) / INR (length l).
Definition rstd (l : list R) : R := sqrt (rvar l).
Definition members (bins : list R) (pix : list (bool * (R * R))) (k : nat) : list R :=
  map (fun p => snd (snd p))
    (filter (fun p => fst p && match stat_bin bins (fst (snd p)) with Some k' => (k' =? k)%nat | None => false end) pix).
(** alpha, 177-178: one number, a tuple spread by np.linspace, or an array. *)
Inductive alpha_arg := AOne (a : R) | ATuple (a b : R) | AArray (l : list R).
Definition alphas (a : alpha_arg) (n : nat) : list R :=
  match a with
  | AOne x => repeat x n
  | ATuple x y => map (fun k => x + INR k * ((y - x) / INR (n - 1))) (seq 0 n)
  | AArray l => l
  end.
(** 173 np.digitize(r, bins[:-1], True) - 1 and negative indexing *)
Definition int_r (bins : list R) (r : R) : nat :=
  let d := length (filter (fun e => Rltb e r) (removelast bins)) in
  match d with O => (length bins - 2)%nat | S d' => d' end.
(** lower[...] and upper[...]; None = NaN (empty bin) *)
Definition limits (bins al : list R) (pix : list (bool * (R * R))) (k : nat) : option (R * R) :=
  a <- nth_error al k ;;
  match members bins pix k with
  | [] => None
  | l => Some (rmean l - a * rstd l, rmean l + a * rstd l)
  end.
Definition outlier_pixel (bins al : list R) (pix : list (bool * (R * R))) (p : bool * (R * R)) : bool :=
  match limits bins al pix (int_r bins (fst (snd p))) with
  | None => false
  | Some (lo, hi) => fst p && Rltb lo (snd (snd p)) && Rltb (snd (snd p)) hi
  end.
(** Flat arrays.  None: sizes differ, fewer than two bins edges, bins that do not
    increase, or alpha of the wrong length (a broadcasting error). *)
Definition binned_outlier (img r : list R) (alpha : alpha_arg) (bins : list R) (mask : option (list bool))
  : option (list bool) :=
  let m := match mask with Some m => m | None => map (fun _ => true) img end in
  let al := alphas alpha (length bins - 1) in
  if negb ((length m =? length img) && (length r =? length img) && (2 <=? length bins)
           && ordered Rleb bins && (length al =? length bins - 1))%nat then None else
  let pix := combine m (combine r img) in
  Some (map (outlier_pixel bins al pix) pix).
