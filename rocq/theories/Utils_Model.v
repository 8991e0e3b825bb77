(* Models of small helpers of /repo/skbeam/core/utils.py.  Exact rationals. *)
From Verif Require Import Common.
From Coq Require Import Qround.

(** ** subtract_reference_images, 407-456.  Images are any type with a
    subtraction.  [None] is an exception: IndexError for an empty is_reference or
    imgs, ValueError when the first image is not a reference. *)
Section Ref.
Context {A : Type} (sub : A -> A -> A).
(** The loop, 446-454. *)
Fixpoint sub_loop (ref : A) (l : list (A * bool)) : list A :=
  match l with
  | [] => []
  | (im, true) :: r => sub_loop im r
  | (im, false) :: r => sub im ref :: sub_loop ref r
  end.
Definition subtract_reference_images (imgs : list A) (is_reference : list bool) : option (list A) :=
  match is_reference with
  | [] => None
  | false :: _ => None
  | true :: refs => match imgs with [] => None | i0 :: rest => Some (sub_loop i0 (combine rest refs)) end
  end.
End Ref.

(** ** img_to_relative_xyi, 459-517.  The image is its shape and its values in
    C order (img.ravel()).  [None] is the ValueError on pixel sizes. *)
Definition xyi_sizes (px py : option Qc) : option (Qc * Qc) :=
  match px, py with
  | Some a, Some b => if Qc_leb a 0%Qc || Qc_leb b 0%Qc then None else Some (a, b)
  | None, None => Some (1%Qc, 1%Qc)
  | _, _ => None
  end.
(** x, y = np.meshgrid(xv, yv): row i, column j of x is xv[j], of y is yv[i];
    both are raveled, 512-517. *)
Definition meshgrid_x (xv yv : list Qc) : list Qc := concat (map (fun _ => xv) yv).
Definition meshgrid_y (xv yv : list Qc) : list Qc := concat (map (fun y => map (fun _ => y) xv) yv).
Definition axis (n : nat) (p c : Qc) : list Qc := map (fun i => (p * (qn i - c))%Qc) (seq 0 n).
Definition img_to_relative_xyi (s0 s1 : nat) (img : list Qc) (cx cy : Qc) (px py : option Qc)
  : option (list Qc * list Qc * list Qc) :=
  match xyi_sizes px py with
  | None => None
  | Some (a, b) =>
      let xv := axis s0 a cx in let yv := axis s1 b cy in
      Some (meshgrid_x xv yv, meshgrid_y xv yv, img)
  end.

(** ** np.linspace(a, b, n + 1, endpoint=True), exact. *)
Definition linspace (a b : Qc) (n : nat) : list Qc :=
  map (fun k => if n =? 0 then a else (a + qn k * ((b - a) / qn n))%Qc) (seq 0 (S n)).

Definition qmin (x y : Qc) : Qc := if Qc_leb x y then x else y.
Definition qmax (x y : Qc) : Qc := if Qc_leb x y then y else x.
Definition lmin_q (l : list Qc) : option Qc :=
  match l with [] => None | x :: r => Some (fold_left qmin r x) end.
Definition lmax_q (l : list Qc) : option Qc :=
  match l with [] => None | x :: r => Some (fold_left qmax r x) end.
(** int(q): truncation towards zero. *)
Definition qtrunc (q : Qc) : Z := if Qc_leb 0%Qc q then Qfloor (this q) else Qceiling (this q).

(** ** np.histogram(a=x, bins=bins, weights=y): numpy sorts x and takes, per edge,
    the cumulative weight at searchsorted(edge, "left"), or "right" for the last
    edge, and differences them. *)
Definition below_w (incl : bool) (xs : list (Qc * Qc)) (e : Qc) : Qc :=
  qsum (map snd (filter (fun p => if incl then Qc_leb (fst p) e else Qc_ltb (fst p) e) xs)).
Definition cum_at (xs : list (Qc * Qc)) (bins : list Qc) (k : nat) : Qc :=
  below_w (S k =? length bins) xs (nth k bins 0%Qc).
Definition histogram_w (xs : list (Qc * Qc)) (bins : list Qc) : list Qc :=
  map (fun k => (cum_at xs bins (S k) - cum_at xs bins k)%Qc) (seq 0 (length bins - 1)).
Fixpoint non_decreasing (l : list Qc) : bool :=
  match l with a :: ((b :: _) as r) => Qc_leb a b && non_decreasing r | _ => true end.

(** ** bin_1D, 520-563.  [None] is an exception. *)
Definition bin_1D (x y : list Qc) (nx : option Z) (min_x max_x : option Qc)
  : option (list Qc * list Qc * list Qc) :=
  lo <- (match min_x with Some m => Some m | None => lmin_q x end) ;;
  hi <- (match max_x with Some m => Some m | None => lmax_q x end) ;;
  let n := match nx with Some n => n | None => qtrunc (hi - lo)%Qc end in
  if (n <? 0)%Z then None else
  if negb (length x =? length y) then None else
  let bins := linspace lo hi (Z.to_nat n) in
  if negb (non_decreasing bins) then None else
  Some (bins, histogram_w (combine x y) bins,
        histogram_w (map (fun v => (v, 1%Qc)) x) bins).

(** ** bin_edges, 694-793. *)
Inductive be_result := BE_value (l : list Qc) | BE_ValueError | BE_OtherError.
Definition arange_from (a s : Qc) (n : nat) : list Qc := map (fun k => (a + qn k * s)%Qc) (seq 0 n).
Definition opt_n {A} (o : option A) : nat := match o with Some _ => 1 | None => 0 end.
Definition bin_edges (range_min range_max : option Qc) (nbins : option Z) (step : option Qc) : be_result :=
  if negb (opt_n range_min + opt_n range_max + opt_n step + opt_n nbins =? 3) then BE_ValueError else
  if (match range_min, range_max with Some a, Some b => Qc_leb b a | _, _ => false end) then BE_ValueError else
  if (match nbins with Some n => (n <=? 0)%Z | None => false end) then BE_ValueError else
  match range_min, range_max, nbins, step with
  | Some a, Some b, Some n, None => BE_value (linspace a b (Z.to_nat n))
  | Some a, Some b, None, Some s =>
      if Qc_ltb (b - a)%Qc s then BE_ValueError else
      if Qc_eqb s 0%Qc then BE_OtherError (* ZeroDivisionError *) else
      let n := Qfloor (this ((b - a) / s)%Qc) in
      let ret := arange_from a s (Z.to_nat (n + 1)) in
      match rev ret with
      | [] => BE_OtherError (* IndexError of ret[-1] *)
      | l :: r => BE_value (if Qc_ltb b l then rev r else ret)
      end
  | Some a, None, Some n, Some s => BE_value (arange_from a s (Z.to_nat n + 1))
  | None, Some b, Some n, Some s =>
      BE_value (map (fun k => (b - qn k * s)%Qc) (rev (seq 0 (Z.to_nat n + 1))))
  | _, _, _, _ => BE_OtherError
  end.

(** ** bin_edges_to_centers, 956-973. *)
Fixpoint bin_edges_to_centers (e : list Qc) : list Qc :=
  match e with
  | a :: ((b :: _) as r) => ((a + b) * (qz 1 / qz 2))%Qc :: bin_edges_to_centers r
  | _ => []
  end.

(** ** pairwise, 977-981. *)
Definition pairwise {A} (l : list A) : list (A * A) := combine l (tl l).

(** ** geometric_series, 1168-1207.  [None]: the loop has not ended within the fuel. *)
Fixpoint geo_loop (fuel : nat) (r n last : Qc) (acc : list Qc) : option (list Qc) :=
  if Qc_ltb (last * r)%Qc n then
    match fuel with
    | 0 => None
    | S f => geo_loop f r n (last * r)%Qc (acc ++ [(last * r)%Qc])
    end
  else Some acc.
Definition geometric_series (fuel : nat) (r n a : Qc) : option (list Qc) := geo_loop fuel r n a [a].
