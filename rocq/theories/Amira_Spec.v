(* What the header of an AmiraMesh file says. *)
From Coq Require Import Strings.String.
From Verif Require Import Common Amira_Model.
Local Open Scope list_scope.

Definition free (ws : list string) (l : list string) : Prop := forall w, In w ws -> ~ In w l.
(** lines that neither give the size nor the bounding box, and whose entries are complete *)
Inductive harmless : list string -> Prop :=
| plain l : free ["define"; "Content"; "CoordType"; "BoundingBox"; "Units"; "Coordinates"]%string l -> harmless l
| content pre a b post : free ["define"; "Content"]%string pre -> free ["define"]%string (a :: b :: post) -> harmless (pre ++ "Content"%string :: a :: b :: post)
| coordtype pre a post : free ["define"; "Content"; "CoordType"]%string pre -> free ["define"; "Content"]%string (a :: post) -> harmless (pre ++ "CoordType"%string :: a :: post)
| units_line l : In "Units"%string l -> free ["define"; "Content"; "CoordType"; "BoundingBox"]%string l -> harmless l.
(** distance between neighbouring voxels *)
Definition spacing (lo hi : Qc) (n : Z) (r : Qc) : Prop := (1 < n)%Z /\ (r * qz (n - 1) = hi - lo)%Qc \/ (n <= 1)%Z /\ r = 0%Qc.
Definition same_within (r r0 : Qc) : Prop := exists q, (q * r0 = r)%Qc /\ (Q2Qc (99 # 100) < q)%Qc /\ (q < Q2Qc (101 # 100))%Qc.
