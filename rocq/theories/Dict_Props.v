(* Property theorems C11 (MD_dict) and C12 (RCParamDict). *)
From Verif Require Import Common Dict_Model Dict_Spec Dict_Main.
Open Scope string_scope.

Definition md_s : list md_op :=
  [MSet "name" (PStr "test"); MSet "nested.b" (PSeq [PNum 5; PStr "m"]); MSet "nested.c.x" (PNum 2)].

(** C11: writing a key then reading it returns the wrapped value, and keys that are
    not path-related keep theirs; keys above and below the written one lose theirs. *)
Theorem C11_write_read : forall d k val m, md_wrap val = inl m ->
  let d' := fst (md_setitem d k val) in
  snd (md_setitem d k val) = None /\ md_value_at d' k = Some m /\
  (forall k', apart k k' -> md_value_at d' k' = md_value_at d k') /\
  (forall k', below k k' \/ below k' k -> md_value_at d' k' = None).
Proof. exact md_set_ok. Qed.
Print Assumptions C11_write_read.
Example C11_ex1 : md_wrap (PSeq [PNum 5; PStr "m"]) = inl (PNum 5, PStr "m")
  /\ md_wrap (PStr "test") = inl (PStr "test", PStr "text")
  /\ md_wrap (PSeq [PNum 1; PNone; PNum 3]) = inl (PSeq [PNum 1; PNone; PNum 3], PNone)
  /\ md_value_at (md_run md_s) "nested.b" = Some (PNum 5, PStr "m")
  /\ apart "nested.b" "nested.c".
Proof.
  repeat split; try (vm_compute; reflexivity); try discriminate.
  - intros (r & E). discriminate.
  - intros (r & E). discriminate.
Qed.

(** The only value a write rejects is a sequence with fewer than two elements
    (IndexError); the write then has the side effects of a read of the key. *)
Theorem C11_write_rejects : forall d k val e, md_wrap val = inr e ->
  e = IndexErr /\ (exists l, val = PSeq l /\ List.length l < 2) /\
  snd (md_setitem d k val) = Some IndexErr /\
  fst (md_setitem d k val) = fst (md_getitem d k).
Proof. exact md_set_bad. Qed.
Print Assumptions C11_write_rejects.
Example C11_ex2 : md_wrap (PSeq [PNum 5]) = inr IndexErr. Proof. reflexivity. Qed.

(** Reading is not pure: after reading a key, every key above it reads as a branch
    and its value, if it had one, is gone; all other keys are unchanged. *)
Theorem C11_read_effects : forall d k, let d' := fst (md_getitem d k) in
  (forall k', ~ below k' k -> md_value_at d' k' = md_value_at d k') /\
  (forall k', below k' k -> md_value_at d' k' = None /\
      exists sub, snd (md_getitem d' k') = Some (Branch sub)).
Proof. exact md_get_ok. Qed.
Print Assumptions C11_read_effects.
Example C11_ex3 : below "a.b" "a.b.c" /\ ~ below "a.b" "a.bc".
Proof. split; [exists "c"; reflexivity|intros (r & E); discriminate]. Qed.

(** A read destroys data: there are a history, a key and an unrelated-looking read
    that remove a stored value and shrink the dictionary. *)
Theorem C11_read_is_pure_refuted : exists ops k k' v,
  md_value_at (md_run ops) k = Some v /\
  md_value_at (md_run (ops ++ [MGet k'])%list) k = None /\
  iter_keys (md_run ops) = ["name"; "nested.b"; "nested.c.x"] /\
  iter_keys (md_run (ops ++ [MGet k'])%list) = ["nested.b"; "nested.c.x"].
Proof.
  exists md_s, "name", "name.first", (PStr "test", PStr "text"). repeat split; vm_compute; reflexivity.
Qed.
Print Assumptions C11_read_is_pure_refuted.

(** `in` answers True for every key, stored or not. *)
Theorem C11_contains_always : forall d k, snd (md_contains d k) = true.
Proof. exact md_contains_ok. Qed.
Print Assumptions C11_contains_always.
Example C11_ex4 : snd (md_contains (md_run md_s) "no.such") = true
  /\ md_value_at (md_run md_s) "no.such" = None.
Proof. split; vm_compute; reflexivity. Qed.

(** Iteration lists exactly the keys that hold a value, once each. *)
Theorem C11_iteration : forall ops, let d := md_run ops in
  NoDup (iter_keys d) /\ (forall k, In k (iter_keys d) <-> md_value_at d k <> None) /\
  dict_len d = List.length (iter_keys d).
Proof. exact md_iter_ok. Qed.
Print Assumptions C11_iteration.
Theorem C11_delete : forall ops k, let d := md_run ops in
  match md_delitem d k with
  | (d', None) => (forall k', k' = k \/ below k k' -> md_value_at d' k' = None) /\
      (forall k', k' <> k -> ~ below k k' -> md_value_at d' k' = md_value_at d k')
  | (d', Some e) => d' = d /\ snd (md_getitem d k) = None
  end.
Proof. exact md_del_ok. Qed.
Print Assumptions C11_delete.
Example C11_ex5 : iter_keys (md_run (md_s ++ [MDel "nested"; MDel "x.y"])%list) = ["name"]
  /\ snd (md_delitem (md_run md_s) "name.x") = Some AttrErr
  /\ snd (md_delitem (md_run md_s) "name2") = Some KeyErr.
Proof. repeat split; vm_compute; reflexivity. Qed.

(* ------------------------------------------------------------------ *)
Definition rc_s : list (rc_op nat) := [RSet "a" 1; RSet "b.c" 2; RSet "b.d.e" 3; RSet "a.x" 9; RDel "b.c"].

(** C12: a write either binds the key (dropping what was below it, keeping every
    unrelated key) or raises KeyError because a key above holds a value, changing
    nothing. *)
Theorem C12_set : forall V (d : list (string * node V)) k v,
  match rc_set d (split_dot k) v with
  | (d', None) =>
      rc_value d' k = Some v /\
      (forall k', below k k' -> rc_value d' k' = None) /\
      (forall k', apart k k' -> rc_value d' k' = rc_value d k') /\
      (forall k', below k' k -> rc_value d k' = None /\ rc_value d' k' = None)
  | (d', Some e) => d' = d /\ e = KeyErr /\ exists k' w, below k' k /\ rc_value d k' = Some w
  end.
Proof. exact @rc_set_ok. Qed.
Print Assumptions C12_set.
Example C12_ex1 : snd (rc_set (rc_run rc_s) (split_dot "b.d.f") 7) = None
  /\ snd (rc_set (rc_run rc_s) (split_dot "b.d.e.f") 7) = Some KeyErr
  /\ rc_value (rc_run rc_s) "a" = Some 1.
Proof. repeat split; vm_compute; reflexivity. Qed.

(** A delete removes the key and everything below it, nothing else, and a later read
    raises KeyError; or it fails, changing nothing. *)
Theorem C12_delete : forall V (ops : list (rc_op V)) k, let d := rc_run ops in
  match rc_del d (split_dot k) with
  | (d', None) =>
      rc_get d' (split_dot k) = inr KeyErr /\
      (forall k', k' = k \/ below k k' -> rc_value d' k' = None) /\
      (forall k', k' <> k -> ~ below k k' -> rc_value d' k' = rc_value d k')
  | (d', Some e) => d' = d /\
      (e = KeyErr /\ rc_get d (split_dot k) = inr KeyErr \/
       e = AttrErr /\ exists k' w, below k' k /\ rc_value d k' = Some w)
  end.
Proof. exact @rc_del_ok. Qed.
Print Assumptions C12_delete.
Example C12_ex2 : snd (rc_del (rc_run rc_s) (split_dot "b.d")) = None
  /\ snd (rc_del (rc_run rc_s) (split_dot "b.c")) = Some KeyErr
  /\ snd (rc_del (rc_run rc_s) (split_dot "a.b")) = Some AttrErr.
Proof. repeat split; vm_compute; reflexivity. Qed.

(** After any history, iteration lists exactly the stored keys, once each. *)
Theorem C12_iteration : forall V (ops : list (rc_op V)), let d := rc_run ops in
  NoDup (iter_keys d) /\ (forall k, In k (iter_keys d) <-> rc_value d k <> None) /\
  dict_len d = List.length (iter_keys d).
Proof. exact @rc_iter_ok. Qed.
Print Assumptions C12_iteration.
Example C12_ex3 : iter_keys (rc_run rc_s) = ["a"; "b.d.e"]. Proof. vm_compute. reflexivity. Qed.

(** `in`: true for stored keys and branches, false for absent keys, but TypeError
    for a key below a stored value. *)
Theorem C12_contains : forall V (d : list (string * node V)) k,
  match rc_contains d (split_dot k) with
  | inl true => exists n, rc_get d (split_dot k) = inl n
  | inl false => rc_get d (split_dot k) = inr KeyErr
  | inr e => e = TypeErr
  end /\
  (rc_contains d (split_dot k) = inr TypeErr <-> exists k' w, below k' k /\ rc_value d k' = Some w).
Proof. exact @rc_contains_ok. Qed.
Print Assumptions C12_contains.
Example C12_ex4 : rc_contains (rc_run rc_s) (split_dot "a.b") = inr TypeErr
  /\ rc_contains (rc_run rc_s) (split_dot "b.d") = inl true
  /\ rc_contains (rc_run rc_s) (split_dot "b.c") = inl false.
Proof. repeat split; vm_compute; reflexivity. Qed.
