(* Model of find_ring_center_acorr_1D and _corr_ax1, /repo/skbeam/core/image.py 53-101, over exact
   rationals.  An image is its number of rows, of columns, and its pixel values in raster order. *)
From Verif Require Import Common.
Local Open Scope Qc_scope.
Local Open Scope list_scope.

(** np.correlate(a, b, mode="full"): entry k is the sum of a[l] b[l - k + M - 1]; an empty argument raises *)
Definition correlate (a b : list Qc) : option (list Qc) :=
  let n := length a in let m := length b in
  if ((n =? 0) || (m =? 0))%nat then None
  else Some (map (fun k => qsum (map (fun l => if ((k <=? l + (m - 1)) && (l + (m - 1) - k <? m))%nat then nth l a 0 * nth (l + (m - 1) - k)%nat b 0 else 0) (seq 0 n))) (seq 0 (n + m - 1))).
(** np.argmax: the first largest *)
Fixpoint argmax_from (j best : nat) (m : Qc) (l : list Qc) : nat :=
  match l with [] => best | a :: r => if Qclt_le_dec m a then argmax_from (S j) j a r else argmax_from (S j) best m r end.
Definition argmax (l : list Qc) : option nat := match l with [] => None | a :: r => Some (argmax_from 1 0 a r) end.
(** one row's estimate, 100: the lag of the largest normalised correlation, halved *)
Definition row_estimate (norm v : list Qc) : option Qc :=
  c <- correlate v (rev v) ;;
  k <- argmax (map (fun p => fst p / snd p) (combine c norm)) ;;
  Some (qn k / qn 2).
(** np.histogram(est, bins=np.arange(0, dim + 1)): half-open bins, the last one closed *)
Definition in_bin (dim i : nat) (x : Qc) : bool :=
  Qc_leb (qn i) x && (Qc_ltb x (qn (S i)) || (S i =? dim)%nat && Qc_eqb x (qn dim)).
Fixpoint mapM {A B} (f : A -> option B) (l : list A) : option (list B) :=
  match l with [] => Some [] | a :: r => b <- f a ;; rest <- mapM f r ;; Some (b :: rest) end.
(** _corr_ax1, 76-101: the counts; the left edges are 0, 1, ... *)
Definition corr_ax1 (dim : nat) (rows : list (list Qc)) : option (list nat) :=
  norm <- correlate (repeat 1 dim) (repeat 1 dim) ;;
  est <- mapM (row_estimate norm) rows ;;
  Some (map (fun i => length (filter (in_bin dim i) est)) (seq 0 dim)).
(** rows of the image, and of its transpose *)
Definition rows_of (h w : nat) (img : list Qc) : list (list Qc) := map (fun i => map (fun j => nth (i * w + j)%nat img 0) (seq 0 w)) (seq 0 h).
Definition cols_of (h w : nat) (img : list Qc) : list (list Qc) := map (fun j => map (fun i => nth (i * w + j)%nat img 0) (seq 0 h)) (seq 0 w).
(** find_ring_center_acorr_1D, 73 *)
Definition find_ring_center (h w : nat) (img : list Qc) : option (nat * nat) :=
  vr <- corr_ax1 h (cols_of h w img) ;; r <- argmax (map qn vr) ;;
  vc <- corr_ax1 w (rows_of h w img) ;; c <- argmax (map qn vc) ;;
  Some (r, c).
