(* Binary64 model of /repo/skbeam/core/roi.py ring_edges, 140-221.  The arrays it makes are of
   doubles, with one exception: np.insert (217) converts the inner radius to the type of the
   array of spacings, which is int64 for a list of python integers.  That conversion drops the
   fraction; it is modelled for radii below 2^63.  Integers of a list of widths are given as
   the doubles they become in np.array (218).  Simplified: an empty list of spacings is
   [Spacings []] (an array of doubles to numpy). *)
From Verif Require Import Common F64.

Inductive widthsF := Width (x : f64) | Widths (l : list f64).
Inductive spacingsF := Spacing (x : f64) | Spacings (l : list f64) | IntSpacings (l : list Z).
Inductive ring_resultF := RingsOf (l : list (f64 * f64)) | ValueErrorF | RaggedF.
Definition as_list (s : spacingsF) : option (list f64) :=
  match s with Spacing _ => None | Spacings l => Some l | IntSpacings l => Some (map f64_of_Z l) end.
(** np.insert(spacing, 0, inner_radius)[0], 217 *)
Definition insertedF (inner : f64) (s : spacingsF) : f64 :=
  match s with IntSpacings (_ :: _) => f64_of_Z (Btrunc inner) | _ => inner end.
(** np.array([all_spacings, width]).T.ravel(), 218 *)
Fixpoint alternateF (a b : list f64) : list f64 :=
  match a, b with x :: a', y :: b' => x :: y :: alternateF a' b' | _, _ => [] end.
(** np.cumsum, 219 *)
Fixpoint cumF (a : f64) (l : list f64) : list f64 := match l with [] => [] | x :: r => fadd a x :: cumF (fadd a x) r end.
Definition cumsumF (l : list f64) : list f64 := match l with [] => [] | x :: r => x :: cumF x r end.
(** reshape(-1, 2), 219 *)
Fixpoint pairsF (l : list f64) : list (f64 * f64) := match l with x :: y :: r => (x, y) :: pairsF r | _ => [] end.
Definition ring_edgesF (inner : f64) (width : widthsF) (spacing : spacingsF) (num_rings : option Z) : ring_resultF :=
  let wlen := match width with Widths l => Some (Z.of_nat (length l)) | Width _ => None end in
  let slen := option_map (fun l => Z.of_nat (length l)) (as_list spacing) in
  if match wlen, slen with Some a, Some b => negb (a =? b - 1)%Z | _, _ => false end then ValueErrorF else   (* 187-189 *)
  let n := match num_rings with                                                                           (* 190-208 *)
    | None => match wlen, slen with Some a, _ => Some a | None, Some b => Some (b + 1)%Z | None, None => None end
    | Some k => if match wlen with Some a => negb (k =? a)%Z | None => false end
                   || match slen with Some b => negb (k - 1 =? b)%Z | None => false end then None else Some k
    end in
  match n with
  | None => ValueErrorF
  | Some k =>
    if match wlen with None => (k <? 0)%Z | _ => false end || match slen with None => (k - 1 <? 0)%Z | _ => false end
    then ValueErrorF else
    let ws := match width with Width x => repeat (fmul fone x) (Z.to_nat k) | Widths l => l end in          (* 211-212 *)
    let ss := match spacing with Spacing x => repeat (fmul fone x) (Z.to_nat (k - 1))
                               | Spacings l => l | IntSpacings l => map f64_of_Z l end in                 (* 213-214 *)
    let all := insertedF inner spacing :: ss in
    if negb (length all =? length ws) then RaggedF
    else RingsOf (pairsF (cumsumF (alternateF all ws)))
  end.
