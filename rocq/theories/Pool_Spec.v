(* What a plain loop over the rows does: the results in row order, or the exception of the first row that fails. *)
From Verif Require Import Common.

Fixpoint serial {Row Res Exn} (fit : Row -> Res + Exn) (rows : list Row) : list Res + Exn :=
  match rows with
  | [] => inl []
  | r :: rest => match fit r with
      | inr e => inr e
      | inl v => match serial fit rest with inl vs => inl (v :: vs) | inr e => inr e end
      end
  end.
