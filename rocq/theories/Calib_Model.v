(* Model of /repo/skbeam/core/calibration.py (estimate_d_blind, refine_center) over the real numbers.

   A float that is not finite is None; an exception is None one level further out.  scipy's
   argrelmax (mode "clip") and numpy's linspace, histogram, mean and std are written out.  The table
   of calibration standards and np.linalg.lstsq are parameters. *)
From Coq Require Import Reals String.
From Verif Require Import Common Roi_Model RoiPolar_Model Peak_Model QSpace_Model Powder_Model.
Local Open Scope R_scope.
Local Open Scope list_scope.

Definition rltb (a b : R) : bool := if Rlt_dec a b then true else false.
Definition rleb (a b : R) : bool := if Rle_dec a b then true else false.
Fixpoint rmaxl (a : R) (l : list R) : R := match l with [] => a | b :: r => rmaxl (if rltb a b then b else a) r end.
Fixpoint rminl (a : R) (l : list R) : R := match l with [] => a | b :: r => rminl (if rltb b a then b else a) r end.
(** np.max, np.min; of nothing they raise *)
Definition np_max (l : list R) : option R := match l with [] => None | a :: r => Some (rmaxl a r) end.
Definition np_min (l : list R) : option R := match l with [] => None | a :: r => Some (rminl a r) end.
Fixpoint mapM {A B} (f : A -> option B) (l : list A) : option (list B) :=
  match l with [] => Some [] | a :: r => b <- f a ;; rest <- mapM f r ;; Some (b :: rest) end.

(** scipy.signal.argrelmax(y, order=order)[0]: larger than every neighbour at distance 1..order, the
    index of the neighbour clipped to the array; order < 1 raises *)
Definition clip (n i : Z) : Z := Z.max 0 (Z.min (n - 1) i).
Definition at_ (y : list R) (i : Z) : R := nth (Z.to_nat i) y 0.
Definition is_cand (y : list R) (order i : Z) : bool :=
  let n := Z.of_nat (length y) in
  forallb (fun s => let s := Z.of_nat s in rltb (at_ y (clip n (i + s))) (at_ y i) && rltb (at_ y (clip n (i - s))) (at_ y i)) (seq 1 (Z.to_nat order)).
Definition argrelmax (y : list R) (order : Z) : option (list Z) :=
  if (order <? 1)%Z then None else Some (filter (is_cand y order) (map Z.of_nat (seq 0 (length y)))).
(** filter_peak_height, feature.py 257-293, on real data *)
Fixpoint filter_height (y : list R) (cands : list Z) (thresh : R) (w : Z) : option (list Z) :=
  match cands with
  | [] => Some []
  | ind :: r =>
      let v := window_of (Z.of_nat (length y)) y ind w in
      hi <- np_max v ;; lo <- np_min v ;;
      rest <- filter_height y r thresh w ;;
      Some (if rltb thresh (hi - lo) then ind :: rest else rest)
  end.
(** the first lines of both functions, 114-116 and 213-215 *)
Definition find_peaks (y : list R) (w : Z) (thresh : R) : option (list Z) :=
  cands <- argrelmax y w ;; m <- np_max y ;; filter_height y cands (thresh * m) w.

Section Blind.
Context (lstsq : list R -> list R -> beta) (standards : string -> option (list reflection)).
(** np.tan(cal.convert_2theta(wavelength)), 122: nan beyond the largest q the wavelength reaches; a
    right angle has no tangent here (the code gets 1.6e16) *)
Definition tan_2theta (wl : R) (r : reflection) : option R :=
  if rleb (Rabs (q_ r * wl / (4 * PI))) 1 then
    let t := q_to_twotheta (q_ r) wl in if Req_EM_T (cos t) 0 then None else Some (tan t)
  else None.
(** a / b elementwise with numpy's broadcasting of one-element arrays *)
Definition opt_div (a b : option R) : option R := x <- a ;; y <- b ;; fin_div x y.
Definition zip_div (a b : list (option R)) : option (list (option R)) :=
  if (length a =? length b)%nat then Some (map (fun p => opt_div (fst p) (snd p)) (combine a b))
  else match a, b with
       | [x], _ => Some (map (opt_div x) b)
       | _, [y] => Some (map (fun x => opt_div x y) a)
       | _, _ => None
       end.
(** np.mean and np.std; nan for nothing or when any entry is nan *)
Definition np_mean (l : list (option R)) : option R :=
  v <- mapM (fun x => x) l ;; match v with [] => None | _ => Some (mean v) end.
Definition np_std (l : list (option R)) : option R :=
  v <- mapM (fun x => x) l ;; match v with [] => None | _ => Some (sqrt (mean (map (fun x => (x - mean v) * (x - mean v)) v))) end.
(** estimate_d_blind, 52-127 *)
Definition estimate_d_blind (name : string) (wl : R) (bin_centers ring_average : list R) (w max_peaks : Z) (thresh : R) : option (option R * option R) :=
  cal <- standards name ;;
  cands <- find_peaks ring_average w thresh ;;
  ref <- peak_refinement (refine_log_quadratic lstsq None) bin_centers ring_average cands w ;;
  pk <- ref ;;    (* unpacking the empty tuple raises *)
  let px := fst pk in
  let t := map (tan_2theta wl) cal in
  let k := Z.min (Z.min (Z.of_nat (length t)) (Z.of_nat (length px))) max_peaks in
  d <- zip_div (pyslice px 0 k) (pyslice t 0 k) ;;
  Some (np_mean d, np_std d).
End Blind.

(** ** refine_center, 139-233 *)
(** np.linspace(lo, hi, num) *)
Definition rlinspace (lo hi : R) (num : nat) : list R := map (fun k => lo + INR k * ((hi - lo) / INR (num - 1))) (seq 0 num).
(** bin_edges_to_centers, utils.py 956-973 *)
Fixpoint centers (e : list R) : list R := match e with a :: ((b :: _) as r) => (a + b) * (1 / 2) :: centers r | _ => [] end.
(** pairwise, utils.py 977-981 *)
Fixpoint pairwise {A} (l : list A) : list (A * A) := match l with a :: ((b :: _) as r) => (a, b) :: pairwise r | _ => [] end.
(** np.histogram with explicit edges: half open bins, the last one closed *)
Definition in_bin (last : bool) (lo hi x : R) : bool := rleb lo x && if last then rleb x hi else rltb x hi.
Fixpoint hist (xs : list (R * R)) (e : list R) : list (list (R * R)) :=
  match e with
  | a :: ((b :: r') as r) => filter (fun p => in_bin (match r' with [] => true | _ => false end) a b (fst p)) xs :: hist xs r
  | _ => []
  end.
(** bin_1D, utils.py 520-563: edges and, per bin, the sum and the number of values *)
Definition bin_1D (xs : list (R * R)) (nx : Z) (min_x max_x : option R) : option (list R * list (R * nat)) :=
  lo <- match min_x with Some m => Some m | None => np_min (map fst xs) end ;;
  hi <- match max_x with Some m => Some m | None => np_max (map fst xs) end ;;
  if (nx <? 0)%Z then None else
  if rltb hi lo && (0 <? nx)%Z then None else
  let e := rlinspace lo hi (Z.to_nat nx + 1) in
  Some (e, map (fun b => (rsuml (map snd b), length b)) (hist xs e)).
(** one pass of the loop 208-216: the radii of the rings of one sector; indexing with the float array
    that filter_peak_height returns for no candidates raises *)
Definition ring_trace (max_peaks w : Z) (thresh : R) (nx : Z) (min_x max_x : option R) (xs : list (R * R)) : option (list R) :=
  b <- bin_1D xs nx min_x max_x ;;
  let kept := filter (fun p => rltb 10 (fst (snd p))) (combine (centers (fst b)) (snd b)) in
  let avg := map (fun p => fst (snd p) / INR (snd (snd p))) kept in
  cands <- find_peaks avg w thresh ;;
  match cands with
  | [] => None
  | _ => Some (map (at_ (map fst kept)) (pyslice cands 0 max_peaks))
  end.
(** the pixels (angle, (radius, intensity)) in raster order, 196-198 *)
Definition pixels (center size : R * R) (h w : nat) (II : list R) : list (R * (R * R)) :=
  combine (angle_grid center size h w) (combine (radial_grid center size h w) II).
(** r[mask], II[mask] for every sector, 202-204 *)
Definition sector (px : list (R * (R * R))) (e : R * R) : list (R * R) := map snd (filter (fun p => rleb (fst p) (snd e) && rltb (fst e) (fst p)) px).
Definition phi_edges (steps : nat) : list R := rlinspace (- PI) PI steps.
Fixpoint nat_min (a : nat) (l : list nat) : nat := match l with [] => a | b :: r => nat_min (Nat.min a b) r end.
(** mean_dr, 218-222: per sector, the mean over the rings of the deviation from the ring's mean *)
Definition ring_mean (ts : list (list R)) (j : nat) : R := mean (map (fun t => nth j t 0) ts).
Definition mean_dr (ts : list (list R)) (mm : nat) : list R := map (fun t => mean (map (fun j => nth j t 0 - ring_mean ts j) (seq 0 mm))) ts.
(** np.diff *)
Definition diffs (l : list R) : list R := map (fun p => snd p - fst p) (pairwise l).
(** 230-231 without the pixel size: one term of a Fourier series *)
Definition fourier (f : R -> R) (phi dr : list R) : R := rsuml (map (fun p => f (fst p) * snd p) (combine phi dr)) * mean (diffs phi) / PI.
(** refine_center; phi_steps = 2 gives a nan (there is no difference to average), as do no rings *)
Definition refine_center (h w : nat) (II : list R) (center size : R * R) (steps : nat) (max_peaks : Z) (thresh : R) (win : Z) (nx : option Z) (min_x max_x : option R) : option (option (R * R)) :=
  let nx := match nx with Some n => n | None => Z.of_nat (h + w) end in    (* int(mean(shape) * 2), 194 *)
  let px := pixels center size h w II in
  ts <- mapM (fun e => ring_trace max_peaks win thresh nx min_x max_x (sector px e)) (pairwise (phi_edges steps)) ;;
  match map (@length R) ts with
  | [] => None
  | n :: r =>
      let mm := nat_min n r in
      let phi := centers (phi_edges steps) in
      if (mm =? 0)%nat || (length phi <? 2)%nat then Some None
      else
        let dr := mean_dr ts mm in
        let col := fourier sin phi dr / snd size in
        let row := fourier cos phi dr / fst size in
        Some (Some (fst center + row, snd center + col))
  end.
