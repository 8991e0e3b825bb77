(* Model of fit_pixel_multiprocess_nnls and _log_and_fit, /repo/skbeam/core/fitting/xrf_model.py 1531-1580, as a
   transition system.  [fit] is what a worker process computes for one row of the map: a result or an exception.
   The workers of the pool take tasks in the order of submission, any number of them at any time up to the number of
   processes; they finish in any order.  A worker that dies, the logging and the final np.array are not modelled. *)
From Verif Require Import Common.

Section Pool.
Context {Row Res Exn : Type} (fit : Row -> Res + Exn) (rows : list Row) (workers : nat).

(** the caller: at 1570 with k rows submitted; at 1573 with the first k results collected; after the call *)
Inductive caller := Submitting (k : nat) | Collecting (k : nat) (got : list Res) | Returned (l : list Res) | Raised (e : Exn).
(** [queue]: tasks submitted, [busy]: tasks being computed, [slots]: result_pool, [alive]: the pool is not terminated *)
Record state := { main : caller; queue : list nat; busy : list nat; slots : list (option (Res + Exn)); alive : bool }.
Definition init : state := {| main := Submitting 0; queue := []; busy := []; slots := []; alive := true |}.

Inductive step : state -> state -> Prop :=
(** pool.apply_async, 1570 *)
| submit k r q b sl al : nth_error rows k = Some r ->
    step {| main := Submitting k; queue := q; busy := b; slots := sl; alive := al |}
         {| main := Submitting (S k); queue := q ++ [k]; busy := b; slots := sl ++ [None]; alive := al |}
| submitted k q b sl al : nth_error rows k = None ->
    step {| main := Submitting k; queue := q; busy := b; slots := sl; alive := al |}
         {| main := Collecting 0 []; queue := q; busy := b; slots := sl; alive := al |}
(** an idle worker takes the oldest task *)
| take m k q b sl : length b < workers ->
    step {| main := m; queue := k :: q; busy := b; slots := sl; alive := true |}
         {| main := m; queue := q; busy := k :: b; slots := sl; alive := true |}
(** a worker finishes, 1531-1542 *)
| finish m q b1 k b2 sl r sl' : nth_error rows k = Some r -> upd sl k (Some (fit r)) = Some sl' ->
    step {| main := m; queue := q; busy := b1 ++ k :: b2; slots := sl; alive := true |}
         {| main := m; queue := q; busy := b1 ++ b2; slots := sl'; alive := true |}
(** r.get(), 1573: waits; the exception of the worker is raised again *)
| get k got q b sl al v : nth_error sl k = Some (Some (inl v)) ->
    step {| main := Collecting k got; queue := q; busy := b; slots := sl; alive := al |}
         {| main := Collecting (S k) (got ++ [v]); queue := q; busy := b; slots := sl; alive := al |}
| get_raises k got q b sl al e : nth_error sl k = Some (Some (inr e)) ->
    step {| main := Collecting k got; queue := q; busy := b; slots := sl; alive := al |}
         {| main := Raised e; queue := q; busy := b; slots := sl; alive := al |}
(** pool.terminate() and pool.join(), 1575-1578 *)
| finished k got q b sl al : nth_error sl k = None ->
    step {| main := Collecting k got; queue := q; busy := b; slots := sl; alive := al |}
         {| main := Returned got; queue := []; busy := []; slots := sl; alive := false |}.

Inductive run : nat -> state -> state -> Prop :=
| run_nil s : run 0 s s
| run_cons n s s' s'' : step s s' -> run n s' s'' -> run (S n) s s''.
End Pool.
Arguments state : clear implicits.
Arguments caller : clear implicits.
