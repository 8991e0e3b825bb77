(* Binary64 model of one entry (integration time, region, bin) of the tables built by
   /repo/skbeam/core/speckle.py xsvs and _process.  The input is, image set by image set and
   image by image, [Some (c, n)] when the image gives the entry's level a new buffer with c of
   the region's n in-range pixels in the bin, and [None] when it does not (no new buffer at
   that level, or a bad image).  Which buffers arise at which level is modelled in Xsvs_Model.
   np.histogram divides the counts, as doubles, by the bin widths (1) and by their sum;
   np.power(x, 2) is x * x and np.power(x, 0.5) is the correctly rounded root.
   Simplified: nan_to_num is only needed for the NaN of an empty histogram. *)
From Verif Require Import Common F64 GridF_Model RunMean_Model.

(** 279-284 *)
Definition nan_to_num (x : f64) : f64 := match x with Flocq.IEEE754.BinarySingleNaN.B754_nan => fzero | _ => x end.
Definition spe_hist (e : Z * Z) : f64 := nan_to_num (fdiv (fdiv (f64_of_Z (fst e)) fone) (f64_of_Z (snd e))).
Record entry := Entry { good : Z; pk : f64; pw : f64; all : f64; allp : f64 }.
(** one image: _process 285-288 on a new buffer, then the blending inside the image loop, 222-223 *)
Definition entry_image (i : nat) (s : entry) (e : option (Z * Z)) : entry :=
  let '(n, p, w) := match e with
    | Some c => (good s + 1, update (pk s) (good s + 1) (spe_hist c),
                 update (pw s) (good s + 1) (fmul (spe_hist c) (spe_hist c)))%Z
    | None => (good s, pk s, pw s) end in
  Entry n p w (update (all s) (Z.of_nat (i + 1)) p) (update (allp s) (Z.of_nat (i + 1)) w).
(** the loop over image sets, 152-223: prob_k and prob_k_pow start afresh *)
Fixpoint entry_sets (i : nat) (sets : list (list (option (Z * Z)))) (a ap : f64) : f64 * f64 :=
  match sets with
  | [] => (a, ap)
  | images :: rest => let s := fold_left (entry_image i) images (Entry 0 fzero fzero a ap) in entry_sets (i + 1) rest (all s) (allp s)
  end.
(** 225: the probability and its standard deviation *)
Definition xsvs_entry (sets : list (list (option (Z * Z)))) : f64 * f64 :=
  let '(a, ap) := entry_sets 0 sets fzero fzero in (a, fsqrt (fsub ap (fmul a a))).
