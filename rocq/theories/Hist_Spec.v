(* What a uniform-bin weighted histogram should contain (independent of the
   implementation's loops and of the index formula). *)
From Verif Require Import Common.

(** [lo, hi) is split into n bins of equal width; x lies in bin i. *)
Definition in_bin (n : nat) (lo hi : Qc) (i : nat) (x : Qc) : Prop :=
  i < n /\ (lo + qn i * ((hi - lo) / qn n) <= x)%Qc /\ (x < lo + qn (S i) * ((hi - lo) / qn n))%Qc.

(** A point (one coordinate per axis) lies in the cell with index tuple [idx]. *)
Inductive in_cell : list (nat * Qc * Qc) -> list nat -> list Qc -> Prop :=
| cell_nil : in_cell [] [] []
| cell_cons n lo hi axes i idx x xs :
    in_bin n lo hi i x -> in_cell axes idx xs -> in_cell ((n, lo, hi) :: axes) (i :: idx) (x :: xs).

(** Position of an index tuple in a row-major array. *)
Fixpoint row_major (ns : list nat) (idx : list nat) : nat :=
  match ns, idx with
  | n :: ns', i :: idx' => i * fold_right Nat.mul 1 ns' + row_major ns' idx'
  | _, _ => 0
  end.

(** [total P pts t]: t is the sum of the weights of the points satisfying P. *)
Inductive total (P : list Qc -> Prop) : list (list Qc * Qc) -> Qc -> Prop :=
| tot_nil : total P [] 0%Qc
| tot_in p w l t : P p -> total P l t -> total P ((p, w) :: l) (w + t)%Qc
| tot_out p w l t : ~ P p -> total P l t -> total P ((p, w) :: l) t.

(** The points accumulated in a history of fills ([Some pts]) and resets ([None]). *)
Definition accumulated (h : list (option (list (list Qc * Qc)))) : list (list Qc * Qc) :=
  fold_left (fun acc o => match o with None => [] | Some pts => acc ++ pts end) h [].
