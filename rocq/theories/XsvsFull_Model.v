(* Binary64 model of the whole of /repo/skbeam/core/speckle.py xsvs and _process (132-288): the
   frames, ring buffers and counters are those of Xsvs_Model, the tables hold doubles and are
   updated as in XsvsF_Model.  [None] is a run that Xsvs_Model also stops. *)
From Coq Require Import Arith.
From Verif Require Import Common F64 GridF_Model RunMean_Model XsvsF_Model.
From Verif Require Import Roi_Model Xsvs_Model.

Definition table := nat -> nat -> nat -> f64.
Section XsvsFull.
Context (conv : Z -> Z) (T num_times : nat) (labels : list Z) (max_cts : nat).
Record stF := StF { bufF : nat -> nat -> frame; curF : nat -> Z; trkF : nat -> bool; iplF : nat -> nat; badF : nat -> nat;
                    pkF : table; pwF : table }.
(** np.histogram(roi_data, bins=bin_edges): pixels in bin b and in all bins, 281 *)
Definition hist_counts (level j b : nat) (px : list Z) : Z * Z :=
  let v := roi_data labels px j in
  (Z.of_nat (length (filter (in_bin max_cts level b) v)), Z.of_nat (length (filter (in_range max_cts level) v))).
(** _process, 266-288; img_per_level - track_bad is exact *)
Definition processF (level slot : nat) (s : stF) : stF :=
  let ipl' := set1 (iplF s) level (iplF s level + 1) in
  match bufF s level slot with
  | None => StF (bufF s) (curF s) (trkF s) ipl' (set1 (badF s) level (badF s level + 1)) (pkF s) (pwF s)
  | Some px =>
    let cnt := (Z.of_nat (ipl' level) - Z.of_nat (badF s level))%Z in
    let upd (p : table) (g : f64 -> f64) : table :=
        fun l j b => if l =? level then update (p l j b) cnt (g (spe_hist (hist_counts level j b px))) else p l j b in
    StF (bufF s) (curF s) (trkF s) ipl' (badF s) (upd (pkF s) (fun x => x)) (upd (pwF s) (fun x => fmul x x))
  end.
(** the while loop, 195-220 *)
Fixpoint levelsF (fuel level : nat) (s : stF) : option stF :=
  match fuel with
  | 0 => None
  | S fuel' =>
    if level <? num_times then
      if negb (trkF s level) then levelsF fuel' level (StF (bufF s) (curF s) (set1 (trkF s) level true) (iplF s) (badF s) (pkF s) (pwF s))
      else
        let prev := (1 + (curF s (level - 1) - 2) mod Z.of_nat T)%Z in
        let c := (1 + curF s level mod Z.of_nat T)%Z in
        sp <- slot T prev ;; sq <- slot T (curF s (level - 1)) ;; sc <- slot T c ;;
        let v := Xsvs_Model.fadd conv (bufF s (level - 1) sp) (bufF s (level - 1) sq) in
        let s' := StF (set2 (bufF s) level sc v) (set1 (curF s) level c) (set1 (trkF s) level false) (iplF s) (badF s) (pkF s) (pwF s) in
        levelsF fuel' (level + 1) (processF level sc s')
    else Some s
  end.
(** one image, 173-220 *)
Definition one_imageF (s : stF) (img : frame) : option stF :=
  let c := ((1 + curF s 0) mod Z.of_nat T)%Z in
  sc <- slot T c ;;
  let s' := StF (set2 (bufF s) 0 sc img) (set1 (curF s) 0 c) (trkF s) (iplF s) (badF s) (pkF s) (pwF s) in
  levelsF (2 * num_times + 1) 1 (processF 0 sc s').
Definition startF : stF :=
  StF (fun _ _ => Some (repeat 0%Z (length labels))) (fun _ => Z.of_nat T) (fun _ => false) (fun _ => 0) (fun _ => 0)
     (fun _ _ _ => fzero) (fun _ _ _ => fzero).
(** 222-223, inside the loop over images *)
Definition blendF (i : nat) (all p : table) : table := fun l j b => update (all l j b) (Z.of_nat (i + 1)) (p l j b).
Definition image_bodyF (i : nat) (a : stF * table * table) (img : frame) :=
  let '(s, all, allp) := a in
  s' <- one_imageF s img ;; Some (s', blendF i all (pkF s'), blendF i allp (pwF s')).
Fixpoint setsF (i : nat) (image_sets : list (list frame)) (all allp : table) :=
  match image_sets with
  | [] => Some (all, allp)
  | images :: rest => r <- foldM (image_bodyF i) images (startF, all, allp) ;; setsF (i + 1) rest (snd (fst r)) (snd r)
  end.
(** prob_k_all and prob_k_std_dev, 225 *)
Definition xsvsF (image_sets : list (list frame)) : option (table * table) :=
  r <- setsF 0 image_sets (fun _ _ _ => fzero) (fun _ _ _ => fzero) ;;
  Some (fst r, fun l j b => fsqrt (fsub (snd r l j b) (fmul (fst r l j b) (fst r l j b)))).
End XsvsFull.
