From Verif Require Import Common IoBin_Model.

Section Bin.
Context {B A : Type} (decode : list B -> A) (zero : A) (isize : nat).
Notation items := (items decode isize).
Notation read_binary := (read_binary decode zero isize).
(** item m of a file after a header of h bytes; zero beyond the end *)
Definition item (file : list B) (h m : nat) : A :=
  if h + (m + 1) * isize <=? length file then decode (firstn isize (skipn (h + m * isize) file)) else zero.

Lemma skipn_plus {T} : forall b a (l : list T), skipn a (skipn b l) = skipn (b + a) l.
Proof. induction b as [|b IH]; intros a l; [reflexivity|]. destruct l; [destruct a; reflexivity|]. apply IH. Qed.
Lemma items_len rest : length (items rest) = length rest / isize.
Proof. unfold IoBin_Model.items. now rewrite map_length, seq_length. Qed.
Lemma items_nth rest m : 0 < isize -> nth_error (items rest) m = if (m + 1) * isize <=? length rest then Some (decode (firstn isize (skipn (m * isize) rest))) else None.
Proof.
  intros P. unfold IoBin_Model.items. destruct (Nat.leb_spec ((m + 1) * isize) (length rest)) as [H|H].
  - rewrite nth_error_map. assert (L : m < length rest / isize) by (apply Nat.div_le_lower_bound with (b := isize) in H || idtac; assert (m + 1 <= length rest / isize) by (apply Nat.div_le_lower_bound; lia); lia).
    rewrite (nth_error_nth' _ 0) by (rewrite seq_length; exact L). rewrite seq_nth by exact L. reflexivity.
  - apply nth_error_None. rewrite map_length, seq_length. assert (length rest / isize < m + 1) by (apply Nat.div_lt_upper_bound; lia). lia.
Qed.
Lemma resized_nth n l m : m < n -> nth_error (resized zero n l) m = Some (nth m l zero).
Proof.
  intros H. unfold resized. destruct (lt_dec m (length l)) as [L|L].
  - rewrite nth_error_app1 by (rewrite firstn_length; lia). rewrite <- (nth_error_nth' l zero L). clear L. revert n H l. induction m as [|m IH]; intros [|n] H [|x l]; cbn; try lia; auto. apply IH. lia.
  - rewrite nth_error_app2 by (rewrite firstn_length; lia). rewrite firstn_length, nth_overflow by lia. apply nth_error_repeat. lia.
Qed.
Lemma resized_len n l : length (resized zero n l) = n.
Proof. unfold resized. rewrite app_length, firstn_length, repeat_length. lia. Qed.
Lemma items_item file h m : 0 < isize -> nth m (items (skipn h file)) zero = item file h m.
Proof.
  intros P. pose proof (items_nth (skipn h file) m P) as E. unfold item. rewrite skipn_length in E.
  destruct (Nat.leb_spec ((m + 1) * isize) (length file - h)) as [H|H].
  - rewrite (nth_error_nth _ _ zero E). rewrite (proj2 (Nat.leb_le _ _)) by lia. now rewrite skipn_plus.
  - rewrite nth_overflow by now apply nth_error_None. destruct (Nat.leb_spec (h + (m + 1) * isize) (length file)); [exfalso; nia|reflexivity].
Qed.
Lemma idx a b n m : a < n -> b < m -> a * m + b < n * m.
Proof. nia. Qed.
Theorem read_3d file nx ny nz h : 0 < isize -> nz <> 1 ->
  exists data, read_binary file (Z.of_nat nx) (Z.of_nat ny) (Z.of_nat nz) (Z.of_nat h) = Some (([nx; ny; nz], data), firstn h file) /\ length data = nx * ny * nz /\
  forall i j k, i < nx -> j < ny -> k < nz -> nth_error data ((i * ny + j) * nz + k) = Some (item file h ((i * ny + j) * nz + k)).
Proof.
  intros P N. unfold IoBin_Model.read_binary, read_header. rewrite (proj2 (Z.ltb_ge (Z.of_nat h) 0)) by lia. rewrite Nat2Z.id.
  destruct (Z.eqb_spec (Z.of_nat nz) 1) as [E|_]; [lia|]. unfold resize. cbn [negb forallb map fold_left]. rewrite !(proj2 (Z.leb_le 0 _)) by lia. cbn [andb bind].
  rewrite !Nat2Z.id. eexists. split; [reflexivity|]. split; [rewrite resized_len; ring|]. intros i j k Hi Hj Hk. rewrite resized_nth by (rewrite Nat.mul_1_l; apply idx; [now apply idx|exact Hk]). now rewrite items_item.
Qed.
Theorem read_2d file nx ny h : 0 < isize -> ny <> 1 ->
  exists data, read_binary file (Z.of_nat nx) (Z.of_nat ny) 1 (Z.of_nat h) = Some (([nx; ny], data), firstn h file) /\ length data = nx * ny /\
  forall i j, i < nx -> j < ny -> nth_error data (i * ny + j) = Some (item file h (i * ny + j)).
Proof.
  intros P N. unfold IoBin_Model.read_binary, read_header. rewrite (proj2 (Z.ltb_ge (Z.of_nat h) 0)) by lia. rewrite Nat2Z.id.
  destruct (Z.eqb_spec (Z.of_nat ny) 1) as [E|_]; [lia|]. unfold resize. cbn [negb forallb map fold_left Z.eqb Pos.eqb]. rewrite !(proj2 (Z.leb_le 0 _)) by lia. cbn [andb bind].
  rewrite !Nat2Z.id. eexists. split; [reflexivity|]. split; [rewrite resized_len; ring|]. intros i j Hi Hj. rewrite resized_nth by (rewrite Nat.mul_1_l; now apply idx). now rewrite items_item.
Qed.
Theorem read_1d file nx h : 0 < isize ->
  exists data, read_binary file nx 1 1 (Z.of_nat h) = Some (([length data], data), firstn h file) /\ length data = (length file - h) / isize /\
  forall i, i < length data -> nth_error data i = Some (item file h i).
Proof.
  intros P. unfold IoBin_Model.read_binary, read_header. rewrite (proj2 (Z.ltb_ge (Z.of_nat h) 0)) by lia. rewrite Nat2Z.id. cbn [negb Z.eqb Pos.eqb bind].
  eexists. split; [reflexivity|]. split; [rewrite items_len, skipn_length; reflexivity|].
  intros i Hi. rewrite <- items_item by exact P. apply nth_error_nth'. exact Hi.
Qed.
(** written in C order, read back *)
Theorem read_written header (xs : list A) enc nx ny nz : 0 < isize -> (forall a, length (enc a) = isize) -> (forall a, decode (enc a) = a) -> nz <> 1 -> length xs = nx * ny * nz ->
  read_binary (header ++ flat_map enc xs) (Z.of_nat nx) (Z.of_nat ny) (Z.of_nat nz) (Z.of_nat (length header)) = Some (([nx; ny; nz], xs), header).
Proof.
  intros P LE DE N L. unfold IoBin_Model.read_binary, read_header. rewrite (proj2 (Z.ltb_ge (Z.of_nat (length header)) 0)) by lia. rewrite Nat2Z.id.
  rewrite firstn_app, firstn_all, Nat.sub_diag, skipn_app, skipn_all, Nat.sub_diag. cbn [firstn skipn app]. rewrite app_nil_r.
  destruct (Z.eqb_spec (Z.of_nat nz) 1) as [E|_]; [lia|]. unfold resize. cbn [negb forallb map fold_left]. rewrite !(proj2 (Z.leb_le 0 _)) by lia. cbn [andb bind]. rewrite !Nat2Z.id.
  assert (FL : forall l, length (flat_map enc l) = length l * isize) by (induction l as [|a l IH]; cbn; [reflexivity|]; rewrite app_length, LE, IH; lia).
  assert (IT : items (flat_map enc xs) = xs).
  { apply nth_error_ext. intros m. rewrite items_nth by exact P. rewrite FL. destruct (Nat.leb_spec ((m + 1) * isize) (length xs * isize)) as [H|H].
    - assert (M : m < length xs) by nia. clear L N. revert m M H. induction xs as [|a l IH]; intros m M H; [cbn in M; lia|]. destruct m as [|m].
      + cbn [Nat.mul skipn flat_map nth_error]. rewrite firstn_app, <- (LE a) at 1. rewrite firstn_all, (LE a), Nat.sub_diag. cbn [firstn]. now rewrite app_nil_r, DE.
      + cbn [flat_map nth_error]. rewrite <- IH by (cbn in M; nia). do 2 f_equal. rewrite skipn_app, LE. replace (S m * isize - isize) with (m * isize) by lia. rewrite skipn_all2 by (rewrite LE; nia). reflexivity.
    - symmetry. apply nth_error_None. nia. }
  rewrite IT. unfold resized. rewrite firstn_all2 by lia. replace (1 * nx * ny * nz - length xs) with 0 by lia. cbn. now rewrite app_nil_r.
Qed.
End Bin.
