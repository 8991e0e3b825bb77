(* Model of /repo/skbeam/core/speckle.py: xsvs, _process and normalize_bin_edges.  An image
   is given by its pixels inside the regions of interest (extract_label_indices is modelled
   in Roi_Model), as integers; [None] is an image with a nan pixel, which _process rejects
   as a whole and whose nan survives every sum.  The zero an array of objects starts with is
   the zero image.  timebin_num >= 2.  A never written entry of prob_k is 0.
   The sum of two images is of their type: [conv] takes the exact sum of two pixels to what that type
   stores (itself for counts held as floating point numbers, see IntType_Model for integers). *)
From Verif Require Import Common Roi_Model.

Definition frame := option (list Z).
Definition fadd (conv : Z -> Z) (a b : frame) : frame :=
  match a, b with Some x, Some y => Some (map (fun p => conv (fst p + snd p)%Z) (combine x y)) | _, _ => None end.

Section Xsvs.
Context (conv : Z -> Z)          (* the pixels' type *)
        (T : nat)                (* timebin_num *)
        (num_times : nat) (labels : list Z) (max_cts : nat).
Definition npix := length labels.
(** bin_edges[level] = np.arange(max_cts * 2**level): the bins are [b, b+1), the last one closed *)
Definition edges (level : nat) : nat := max_cts * 2 ^ level.
Definition in_bin (level b : nat) (v : Z) : bool :=
  let last := b + 2 =? edges level in
  (b + 2 <=? edges level) && (Z.of_nat b <=? v)%Z && (if last then (v <=? Z.of_nat (b + 1))%Z else (v <? Z.of_nat (b + 1))%Z).
(** np.histogram(..., density=True) then nan_to_num *)
Definition in_range (level : nat) (v : Z) : bool := (0 <=? v)%Z && (v <=? Z.of_nat (edges level) - 1)%Z && (2 <=? edges level).
Definition density (level : nat) (vals : list Z) (b : nat) : Qc :=
  let total := length (filter (in_range level) vals) in
  if total =? 0 then 0%Qc else (qn (length (filter (in_bin level b) vals)) / qn total)%Qc.
(** roi_data = buf[level, buf_no][labels == label], label the j-th of np.unique(labels) *)
Definition roi_data (px : list Z) (j : nat) : list Z :=
  match nth_error (unique labels) j with
  | Some lab => select (Z.eqb lab) labels px
  | None => []
  end.

Record st := St { buf : nat -> nat -> frame; cur : nat -> Z; trk : nat -> bool; ipl : nat -> nat; bad : nat -> nat;
                  pk : nat -> nat -> nat -> Qc; pw : nat -> nat -> nat -> Qc }.
Definition set1 {A} (f : nat -> A) (l : nat) (v : A) : nat -> A := fun k => if k =? l then v else f k.
Definition set2 {A} (f : nat -> nat -> A) (l i : nat) (v : A) : nat -> nat -> A := fun k => if k =? l then set1 (f k) i v else f k.
(** _process, 231-288 *)
Definition process (level slot : nat) (s : st) : st :=
  let ipl' := set1 (ipl s) level (ipl s level + 1) in
  match buf s level slot with
  | None => St (buf s) (cur s) (trk s) ipl' (set1 (bad s) level (bad s level + 1)) (pk s) (pw s)
  | Some px =>
    let cnt := (qn (ipl' level) - qn (bad s level))%Qc in
    let upd (p : nat -> nat -> nat -> Qc) (g : Qc -> Qc) : nat -> nat -> nat -> Qc :=
        fun l j b => if l =? level then (p l j b + (g (density level (roi_data px j) b) - p l j b) / cnt)%Qc else p l j b in
    St (buf s) (cur s) (trk s) ipl' (bad s) (upd (pk s) (fun x => x)) (upd (pw s) (fun x => (x * x)%Qc))
  end.
Definition slot (c : Z) : option nat := pyindex (Z.of_nat T) (c - 1).
(** the while loop, 195-220 *)
Fixpoint levels (fuel level : nat) (s : st) : option st :=
  match fuel with
  | 0 => None
  | S fuel' =>
    if level <? num_times then
      if negb (trk s level) then levels fuel' level (St (buf s) (cur s) (set1 (trk s) level true) (ipl s) (bad s) (pk s) (pw s))
      else
        let prev := (1 + (cur s (level - 1) - 2) mod Z.of_nat T)%Z in
        let c := (1 + cur s level mod Z.of_nat T)%Z in
        sp <- slot prev ;; sq <- slot (cur s (level - 1)) ;; sc <- slot c ;;
        let v := fadd conv (buf s (level - 1) sp) (buf s (level - 1) sq) in
        let s' := St (set2 (buf s) level sc v) (set1 (cur s) level c) (set1 (trk s) level false) (ipl s) (bad s) (pk s) (pw s) in
        levels fuel' (level + 1) (process level sc s')
    else Some s
  end.
(** one image, 173-220 *)
Definition one_image (s : st) (img : frame) : option st :=
  let c := ((1 + cur s 0) mod Z.of_nat T)%Z in
  sc <- slot c ;;
  let s' := St (set2 (buf s) 0 sc img) (set1 (cur s) 0 c) (trk s) (ipl s) (bad s) (pk s) (pw s) in
  levels (2 * num_times + 1) 1 (process 0 sc s').
Definition start : st :=
  St (fun _ _ => Some (repeat 0%Z npix)) (fun _ => Z.of_nat T) (fun _ => false) (fun _ => 0) (fun _ => 0)
     (fun _ _ _ => 0%Qc) (fun _ _ _ => 0%Qc).
(** prob_k_all += (prob_k - prob_k_all) / (i + 1), 222, inside the loop over images *)
Definition blend (i : nat) (all p : nat -> nat -> nat -> Qc) : nat -> nat -> nat -> Qc :=
  fun l j b => (all l j b + (p l j b - all l j b) / qn (i + 1))%Qc.
Definition image_body (i : nat) (a : st * (nat -> nat -> nat -> Qc) * (nat -> nat -> nat -> Qc)) (img : frame) :=
  let '(s, all, allp) := a in
  s' <- one_image s img ;; Some (s', blend i all (pk s'), blend i allp (pw s')).
Fixpoint sets (i : nat) (image_sets : list (list frame)) (all allp : nat -> nat -> nat -> Qc) :=
  match image_sets with
  | [] => Some (all, allp)
  | images :: rest => r <- foldM (image_body i) images (start, all, allp) ;; sets (i + 1) rest (snd (fst r)) (snd r)
  end.
(** prob_k_all and the argument of the square root in prob_k_std_dev *)
Definition xsvs (image_sets : list (list frame)) :=
  r <- sets 0 image_sets (fun _ _ _ => 0%Qc) (fun _ _ _ => 0%Qc) ;;
  Some (fst r, fun l j b => (snd r l j b - fst r l j b * fst r l j b)%Qc).
End Xsvs.

(** ** normalize_bin_edges, 291-324; bin_edges_to_centers is utils.py 956-973 *)
Definition centers (e : list Qc) : list Qc := map (fun p => ((fst p + snd p) * Q2Qc (1 # 2))%Qc) (combine e (tl e)).
Definition normalize_bin_edges (num_times : nat) (mean_roi : list Qc) (max_cts : nat) : list (list (list Qc)) * list (list (list Qc)) :=
  let e := map (fun i => map (fun m => map (fun k => (qn k / (m * qn (2 ^ i)))%Qc) (seq 0 (max_cts * 2 ^ i))) mean_roi) (seq 0 num_times) in
  (e, map (map centers) e).
