(* Formatting and parsing are inverse. *)
From Coq Require Import Qround.
From Verif Require Import Common QcArith BinStat_Model BinStat_Main Text_Model.
Open Scope list_scope.

(** ** Digits *)
Definition isdigit (c : ascii) : bool := match undigit c with Some _ => true | None => false end.
Definition alldigits (s : text) : Prop := Forall (fun c => isdigit c = true) s.
Lemma undigit_digit d : (0 <= d < 10)%Z -> undigit (digit d) = Some d.
Proof.
  intros H. assert (E : exists n, d = Z.of_nat n /\ (n < 10)%nat) by (exists (Z.to_nat d); lia). destruct E as (n & -> & L).
  unfold digit. rewrite Nat2Z.id. do 10 (destruct n as [|n]; [reflexivity|]). lia.
Qed.
Lemma digit_ok d : (0 <= d < 10)%Z -> isdigit (digit d) = true.
Proof. intros H. unfold isdigit. now rewrite undigit_digit. Qed.
Lemma isdigit_nospace c : isdigit c = true -> isspace c = false /\ c <> "-"%char /\ c <> "+"%char /\ c <> "."%char /\ c <> cr /\ c <> lf.
Proof.
  unfold isdigit. destruct c as [[|] [|] [|] [|] [|] [|] [|] [|]]; intros H; vm_compute in H; try discriminate H; repeat split; intros E; discriminate E.
Qed.
Definition num (s : text) (v : Z) : Z := fst (fst (read_digits s v 0)).
Lemma read_digits_app s : alldigits s -> forall v k r, read_digits (s ++ r) v k = read_digits r (num s v) (k + length s).
Proof.
  unfold num. induction 1 as [|c s H F IH]; intros v k r; cbn [app read_digits length].
  - cbn. f_equal. lia.
  - unfold isdigit in H. destruct (undigit c) as [d|] eqn:E; [|discriminate]. rewrite IH.
    assert (G : forall k', fst (fst (read_digits s (10 * v + d) k')) = fst (fst (read_digits s (10 * v + d)%Z 0))).
    { intros k'. generalize (10 * v + d)%Z. clear - F. induction F as [|c s H F IH] in k' |- *; intros w; [reflexivity|]. cbn. unfold isdigit in H.
      destruct (undigit c); [|discriminate]. rewrite IH. symmetry. apply IH. }
    rewrite (G 1%nat). f_equal. lia.
Qed.
Lemma num_app a b v : alldigits a -> alldigits b -> num (a ++ b) v = num b (num a v).
Proof. intros A B. unfold num at 1. rewrite (read_digits_app a A). rewrite <- (app_nil_r b) at 1. rewrite (read_digits_app b B). reflexivity. Qed.
Lemma num_cons d s v : (0 <= d < 10)%Z -> alldigits s -> num (digit d :: s) v = num s (10 * v + d)%Z.
Proof.
  intros H F. unfold num at 1. cbn [read_digits]. rewrite undigit_digit by exact H.
  rewrite <- (app_nil_r s) at 1. now rewrite (read_digits_app s F).
Qed.
Lemma num_shift s : alldigits s -> forall v, num s v = (v * 10 ^ Z.of_nat (length s) + num s 0)%Z.
Proof.
  induction 1 as [|c s H F IH]; intros v; [cbn; lia|].
  unfold isdigit in H. destruct (undigit c) as [d|] eqn:E; [|discriminate].
  assert (G : forall w, num (c :: s) w = num s (10 * w + d)%Z).
  { intros w. change (c :: s) with ([c] ++ s). rewrite num_app; [|constructor; [unfold isdigit; now rewrite E|constructor]|exact F].
    unfold num at 2. cbn. now rewrite E. }
  rewrite !G, (IH (10 * v + d)%Z), (IH (10 * 0 + d)%Z). cbn [length]. rewrite Nat2Z.inj_succ, Z.pow_succ_r by lia. ring.
Qed.
(** ** dec *)
Lemma dec_aux_ok : forall fuel n acc, (0 <= n)%Z -> (n < 10 ^ Z.of_nat fuel)%Z -> (0 < fuel)%nat -> alldigits acc ->
  exists s, dec_aux fuel n acc = s ++ acc /\ s <> [] /\ alldigits s /\ num s 0 = n /\
    (forall k, (0 < k)%nat -> (n < 10 ^ Z.of_nat k)%Z -> (length s <= k)%nat).
Proof.
  induction fuel as [|f IH]; intros n acc N B L A; [lia|]. cbn [dec_aux]. destruct (n <? 10)%Z eqn:T.
  - apply Z.ltb_lt in T. exists [digit n]. split; [reflexivity|]. split; [discriminate|].
    split; [constructor; [apply digit_ok; lia|constructor]|]. split; [|intros; cbn; lia].
    rewrite num_cons; [unfold num; cbn; lia|lia|constructor].
  - apply Z.ltb_ge in T. rewrite Nat2Z.inj_succ, Z.pow_succ_r in B by lia.
    assert (D : (0 <= n mod 10 < 10)%Z) by (apply Z.mod_pos_bound; lia).
    destruct f as [|f']; [cbn in B; lia|].
    destruct (IH (n / 10)%Z (digit (n mod 10) :: acc)) as (s & E & NE & AD & V & Len); [apply Z.div_pos; lia|apply Z.div_lt_upper_bound; lia|lia|constructor; [now apply digit_ok|exact A]|].
    exists (s ++ [digit (n mod 10)]). split; [now rewrite E, <- app_assoc|]. split; [destruct s; discriminate|].
    assert (A1 : alldigits [digit (n mod 10)]) by (constructor; [now apply digit_ok|constructor]).
    split; [apply Forall_app; now split|]. split.
    + rewrite num_app by assumption. rewrite V, num_cons; [|exact D|constructor]. unfold num. cbn [read_digits fst]. pose proof (Z.div_mod n 10 ltac:(lia)). lia.
    + intros k Hk Hn. rewrite app_length. cbn. destruct k as [|k]; [lia|]. rewrite Nat2Z.inj_succ, Z.pow_succ_r in Hn by lia.
      destruct k as [|k]; [cbn in Hn; lia|]. assert (length s <= S k)%nat; [|lia]. apply Len; [lia|]. apply Z.div_lt_upper_bound; lia.
Qed.
Lemma log_fuel_ok n : (0 <= n)%Z -> (n < 10 ^ Z.of_nat (S (Z.to_nat (Z.log2 n))))%Z.
Proof.
  intros N. destruct (Z.eq_dec n 0) as [->|Z]; [reflexivity|]. destruct (Z.log2_spec n ltac:(lia)) as [_ U].
  rewrite Nat2Z.inj_succ, Z2Nat.id by apply Z.log2_nonneg.
  eapply Z.lt_le_trans; [exact U|]. apply Z.pow_le_mono_l. lia.
Qed.
Lemma dec_ok n : (0 <= n)%Z -> dec n <> [] /\ alldigits (dec n) /\ num (dec n) 0 = n /\ forall k, (0 < k)%nat -> (n < 10 ^ Z.of_nat k)%Z -> (length (dec n) <= k)%nat.
Proof.
  intros N. unfold dec. destruct (dec_aux_ok (S (Z.to_nat (Z.log2 n))) n [] N (log_fuel_ok n N) ltac:(lia) (Forall_nil _)) as (s & E & R).
  rewrite E, app_nil_r. exact R.
Qed.
Lemma zeros_ok k : alldigits (repeat "0"%char k) /\ num (repeat "0"%char k) 0 = 0%Z.
Proof.
  induction k as [|k [IH1 IH2]]; [split; [constructor|reflexivity]|]. cbn [repeat]. split; [constructor; [reflexivity|exact IH1]|].
  change "0"%char with (digit 0). rewrite num_cons; [exact IH2|lia|exact IH1].
Qed.
Lemma zfill_ok d n : (0 <= n < 10 ^ Z.of_nat d)%Z -> (0 < d)%nat -> length (zfill d (dec n)) = d /\ alldigits (zfill d (dec n)) /\ num (zfill d (dec n)) 0 = n.
Proof.
  intros [N B] D. destruct (dec_ok n N) as (_ & A & V & L). specialize (L d D B). unfold zfill. destruct (zeros_ok (d - length (dec n))) as (Z1 & Z2). split; [|split].
  - rewrite app_length, repeat_length. lia.
  - apply Forall_app. now split.
  - rewrite num_app by assumption. now rewrite Z2.
Qed.

(** ** Words without spaces *)
Definition solid (s : text) : Prop := s <> [] /\ Forall (fun c => isspace c = false /\ c <> cr /\ c <> lf) s.
Lemma digits_solid s : alldigits s -> Forall (fun c => isspace c = false /\ c <> cr /\ c <> lf) s.
Proof. intros H. eapply Forall_impl; [|exact H]. intros c Hc. cbn in Hc. apply isdigit_nospace in Hc. tauto. Qed.
Lemma round_nonneg x : (0 <= x)%Qc -> (0 <= qround_even x)%Z.
Proof.
  intros H. unfold qround_even. assert (F : (0 <= Qfloor (this x))%Z).
  { destruct (Qfloor_qc x) as [_ B]. assert (C : (qz 0 < qz (Qfloor (this x) + 1))%Qc) by (rewrite qz_add, qz_0, qz_1; qclra). apply (proj1 (qz_lt _ _)) in C. lia. }
  destruct (Qc_ltb _ _); [exact F|]. destruct (Qc_ltb _ _); [lia|]. destruct (Z.even _); lia.
Qed.
Lemma pow10_pos d : (0 < 10 ^ Z.of_nat d)%Z.
Proof. apply Z.pow_pos_nonneg; lia. Qed.
Lemma Qc_abs_nonneg x : (0 <= Qc_abs x)%Qc.
Proof. unfold Qc_abs. destruct (Qc_ltb_spec x 0%Qc) as [H|H]; [qclra|]. now apply Qcnot_lt_le. Qed.
Lemma fix_nonneg d x : (0 <= fix_digits d x)%Z.
Proof.
  apply round_nonneg. pose proof (Qc_abs_nonneg x) as A. assert (B : (0 <= qz (10 ^ Z.of_nat d))%Qc) by (apply (qz_le 0); pose proof (pow10_pos d); lia).
  replace 0%Qc with (0 * qz (10 ^ Z.of_nat d))%Qc by ring. now apply Qcmult_le_compat_r.
Qed.
Lemma fixed_solid d x : solid (fixed_text d x).
Proof.
  unfold fixed_text. pose proof (fix_nonneg d x) as N. set (r := fix_digits d x) in *.
  assert (M : Forall (fun c => isspace c = false /\ c <> cr /\ c <> lf) (minus (Qc_ltb x 0%Qc))).
  { destruct (Qc_ltb x 0%Qc); [|constructor]. constructor; [|constructor]. split; [reflexivity|]. split; intros E; discriminate E. }
  destruct d as [|d].
  - destruct (dec_ok r N) as (NE & A & _). split; [destruct (minus _); [exact NE|discriminate]|]. apply Forall_app. split; [exact M|now apply digits_solid].
  - assert (P := pow10_pos (S d)). assert (Z.of_nat (S d) = Z.of_nat (S d)) as _ by reflexivity. set (p := (10 ^ Z.of_nat (S d))%Z) in *.
    destruct (dec_ok (r / p)%Z (Z.div_pos _ _ N P)) as (NE & A & _). destruct (zfill_ok (S d) (r mod p)%Z (Z.mod_pos_bound _ _ P) ltac:(lia)) as (_ & B & _).
    split; [destruct (minus _), (dec (r / p)); discriminate|]. apply Forall_app. split; [exact M|]. apply Forall_app. split; [now apply digits_solid|].
    constructor; [|now apply digits_solid]. split; [reflexivity|]. split; intros E; discriminate E.
Qed.
Lemma int_solid n : solid (int_text n).
Proof.
  unfold int_text. destruct (dec_ok (Z.abs n) (Z.abs_nonneg n)) as (NE & A & _). split; [destruct (minus _); [exact NE|discriminate]|].
  apply Forall_app. split; [|now apply digits_solid]. destruct (n <? 0)%Z; [|constructor]. constructor; [|constructor]. split; [reflexivity|]. split; intros E; discriminate E.
Qed.

(** ** strip *)
Lemma lstrip_spaces n s : lstrip (spaces n ++ s) = lstrip s.
Proof. induction n; [reflexivity|exact IHn]. Qed.
Lemma lstrip_solid s : solid s -> lstrip s = s.
Proof. intros [N F]. destruct s as [|c s]; [congruence|]. inversion F as [|? ? [H _] _]. subst. cbn. now rewrite H. Qed.
Lemma solid_rev s : solid s -> solid (rev s).
Proof.
  intros [N F]. split; [|now apply Forall_rev]. intros E. apply N. rewrite <- (rev_involutive s), E. reflexivity.
Qed.
Lemma strip_rjust w s : solid s -> strip (rjust w s) = s.
Proof.
  intros H. unfold strip, rjust. rewrite lstrip_spaces, (lstrip_solid s H). rewrite lstrip_solid by now apply solid_rev. apply rev_involutive.
Qed.
Lemma strip_solid s : solid s -> strip s = s.
Proof. intros H. unfold strip. rewrite (lstrip_solid s H). rewrite lstrip_solid by now apply solid_rev. apply rev_involutive. Qed.

(** ** Parsing what was printed *)
(** the value printed by %.df *)
Definition printed (d : nat) (x : Qc) : Qc :=
  let v := (qz (fix_digits d x) / qz (10 ^ Z.of_nat d))%Qc in if Qc_ltb x 0%Qc then (- v)%Qc else v.
Lemma read_sign_digits s : s <> [] -> (forall c r, s = c :: r -> isdigit c = true) -> read_sign s = (false, s).
Proof.
  intros N H. destruct s as [|c s]; [congruence|]. specialize (H c s eq_refl). apply isdigit_nospace in H as (_ & A & B & _).
  cbn. destruct (Ascii.eqb_spec c "-"); [congruence|]. destruct (Ascii.eqb_spec c "+"); [congruence|reflexivity].
Qed.
Lemma parse_body neg ip fp : ip <> [] -> alldigits ip -> alldigits fp ->
  (let '(n, r) := read_sign (minus neg ++ ip ++ fp) in (n, r)) = (neg, ip ++ fp).
Proof.
  intros N A B. destruct neg; [reflexivity|]. cbn [minus app]. rewrite read_sign_digits; [reflexivity| |].
  - destruct ip; [congruence|discriminate].
  - intros c r E. destruct ip as [|x ip]; [congruence|]. injection E as -> _. now inversion A.
Qed.
Lemma sign_split neg s : s <> [] -> (forall c r, s = c :: r -> isdigit c = true) -> read_sign (minus neg ++ s) = (neg, s).
Proof. intros N H. destruct neg; [reflexivity|]. now apply read_sign_digits. Qed.
Lemma parse_fixed w d x : parse_float (rjust w (fixed_text d x)) = Some (printed d x) /\ parse_float (fixed_text d x) = Some (printed d x).
Proof.
  unfold parse_float. rewrite strip_rjust, strip_solid by apply fixed_solid.
  enough (G : (let '(neg, r) := read_sign (fixed_text d x) in
     let sgn x := if neg : bool then (- x)%Qc else x in
     match read_digits r 0%Z 0 with
     | (v, S _, []) => Some (sgn (qz v))
     | (v, k, c :: r') => if Ascii.eqb c "." then
        match read_digits r' v 0 with
        | (w, j, []) => match (k + j)%nat with O => None | _ => Some (sgn (qz w / qz (10 ^ Z.of_nat j))%Qc) end
        | _ => None
        end
      else None
     | _ => None
     end) = Some (printed d x)) by (split; exact G).
  unfold fixed_text, printed. pose proof (fix_nonneg d x) as N. set (r := fix_digits d x) in *.
  destruct d as [|d].
  - destruct (dec_ok r N) as (NE & A & V & _). rewrite sign_split; [|exact NE|intros c s E; rewrite E in A; now inversion A].
    rewrite <- (app_nil_r (dec r)). rewrite (read_digits_app _ A). cbn [read_digits]. rewrite V.
    destruct (dec r) as [|c s] eqn:E; [congruence|]. cbn [length Nat.add].
    change (10 ^ Z.of_nat 0)%Z with 1%Z. rewrite qz_1. replace (qz r / 1)%Qc with (qz r) by (field; discriminate). reflexivity.
  - assert (P := pow10_pos (S d)). set (p := (10 ^ Z.of_nat (S d))%Z) in *.
    destruct (dec_ok (r / p)%Z (Z.div_pos _ _ N P)) as (NE & A & V & _). destruct (zfill_ok (S d) (r mod p)%Z (Z.mod_pos_bound _ _ P) ltac:(lia)) as (L & B & W).
    rewrite sign_split; [|destruct (dec (r / p)); [congruence|discriminate]|intros c s E; destruct (dec (r / p)) as [|c0 s0]; [congruence|injection E as -> _; now inversion A]].
    rewrite (read_digits_app _ A), V. cbn [read_digits]. change (undigit ".") with (@None Z). cbn [Nat.add].
    destruct (length (dec (r / p))) as [|k] eqn:K; [destruct (dec (r / p)); [congruence|discriminate]|].
    change (Ascii.eqb "." ".") with true. cbv iota.
    rewrite <- (app_nil_r (zfill (S d) (dec (r mod p)))). rewrite (read_digits_app _ B). cbn [read_digits]. rewrite L. cbn [Nat.add].
    assert (E : num (zfill (S d) (dec (r mod p))) (r / p) = r).
    { rewrite (num_shift _ B), W, L. fold p. pose proof (Z.div_mod r p ltac:(lia)). lia. }
    rewrite E. fold p. reflexivity.
Qed.
Lemma parse_int_text w n : parse_int (rjust w (int_text n)) = Some n /\ parse_int (int_text n) = Some n.
Proof.
  unfold parse_int. rewrite strip_rjust, strip_solid by apply int_solid.
  enough (G : (let '(neg, r) := read_sign (int_text n) in
    match read_digits r 0%Z 0 with (v, S _, []) => Some (if neg then (- v)%Z else v) | _ => None end) = Some n) by (split; exact G).
  unfold int_text. destruct (dec_ok (Z.abs n) (Z.abs_nonneg n)) as (NE & A & V & _).
  rewrite sign_split; [|exact NE|intros c s E; rewrite E in A; now inversion A].
  rewrite <- (app_nil_r (dec (Z.abs n))). rewrite (read_digits_app _ A). cbn [read_digits]. rewrite V.
  destruct (dec (Z.abs n)) as [|c s] eqn:E; [congruence|]. cbn [length Nat.add]. f_equal. destruct (n <? 0)%Z eqn:S; lia.
Qed.
Lemma parse_float_int n : parse_float (int_text n) = Some (qz n).
Proof.
  unfold parse_float. rewrite strip_solid by apply int_solid.
  unfold int_text. destruct (dec_ok (Z.abs n) (Z.abs_nonneg n)) as (NE & A & V & _).
  rewrite sign_split; [|exact NE|intros c s E; rewrite E in A; now inversion A].
  rewrite <- (app_nil_r (dec (Z.abs n))). rewrite (read_digits_app _ A). cbn [read_digits]. rewrite V.
  destruct (dec (Z.abs n)) as [|c s] eqn:E; [congruence|]. cbn [length Nat.add]. f_equal. destruct (n <? 0)%Z eqn:S.
  - rewrite <- qz_opp. f_equal. lia.
  - f_equal. lia.
Qed.
(** ** What is printed is near, and exact when it fits *)
Lemma printed_near d x : (printed d x - x <= 1 / qz (2 * 10 ^ Z.of_nat d))%Qc /\ (x - printed d x <= 1 / qz (2 * 10 ^ Z.of_nat d))%Qc.
Proof.
  unfold printed, fix_digits. pose proof (pow10_pos d) as P. set (p := (10 ^ Z.of_nat d)%Z) in *.
  assert (P' : (0 < qz p)%Qc) by now apply (qz_lt 0). assert (NZ : qz p <> 0%Qc) by (apply qz_neq0; lia).
  assert (H2 : (1 / qz (2 * p) = Q2Qc (1 # 2) / qz p)%Qc).
  { rewrite qz_mul. replace (Q2Qc (1 # 2)) with (1 / qz 2)%Qc by (apply Qc_is_canon; reflexivity). field. split; [discriminate|exact NZ]. }
  rewrite H2. set (h := Q2Qc (1 # 2)). destruct (round_near (Qc_abs x * qz p)) as [A B]. fold h in A, B. set (r := qz (qround_even (Qc_abs x * qz p))) in *.
  assert (E : forall v, (v - h <= Qc_abs x * qz p)%Qc -> (v / qz p - Qc_abs x <= h / qz p)%Qc).
  { intros v Hv. replace (v / qz p - Qc_abs x)%Qc with ((v - Qc_abs x * qz p) / qz p)%Qc by (field; exact NZ).
    apply Qc_le_div; [exact P'|]. replace ((v - Qc_abs x * qz p) / qz p * qz p)%Qc with (v - Qc_abs x * qz p)%Qc by (field; exact NZ).
    set (q := (Qc_abs x * qz p)%Qc) in *. qclra. }
  assert (E' : forall v, (Qc_abs x * qz p <= v + h)%Qc -> (Qc_abs x - v / qz p <= h / qz p)%Qc).
  { intros v Hv. replace (Qc_abs x - v / qz p)%Qc with ((Qc_abs x * qz p - v) / qz p)%Qc by (field; exact NZ).
    apply Qc_le_div; [exact P'|]. replace ((Qc_abs x * qz p - v) / qz p * qz p)%Qc with (Qc_abs x * qz p - v)%Qc by (field; exact NZ).
    set (q := (Qc_abs x * qz p)%Qc) in *. qclra. }
  assert (F1 : (r / qz p - Qc_abs x <= h / qz p)%Qc) by (apply E; set (q := (Qc_abs x * qz p)%Qc) in *; clearbody q r h; qclra).
  assert (F2 : (Qc_abs x - r / qz p <= h / qz p)%Qc) by (apply E'; set (q := (Qc_abs x * qz p)%Qc) in *; clearbody q r h; qclra).
  unfold Qc_abs in F1, F2 |- *. destruct (Qc_ltb x 0%Qc).
  - set (u := (r / qz p)%Qc) in *. set (w := (h / qz p)%Qc) in *. clearbody u w. split; qclra.
  - set (u := (r / qz p)%Qc) in *. set (w := (h / qz p)%Qc) in *. clearbody u w. split; qclra.
Qed.
Lemma qround_int z : qround_even (qz z) = z.
Proof.
  unfold qround_even. assert (F : Qfloor (this (qz z)) = z) by (apply Qfloor_unique; qclra). rewrite F.
  replace (qz z - qz z)%Qc with 0%Qc by ring. destruct (Qc_ltb_spec 0%Qc (Q2Qc (1 # 2))) as [_|N]; [reflexivity|]. exfalso. apply N. reflexivity.
Qed.
Lemma printed_exact d z : printed d (qz z / qz (10 ^ Z.of_nat d))%Qc = (qz z / qz (10 ^ Z.of_nat d))%Qc.
Proof.
  pose proof (pow10_pos d) as P. unfold printed, fix_digits. set (p := (10 ^ Z.of_nat d)%Z) in *. assert (NZ : qz p <> 0%Qc) by (apply qz_neq0; lia).
  assert (P' : (0 < qz p)%Qc) by now apply (qz_lt 0).
  unfold Qc_abs. destruct (Qc_ltb_spec (qz z / qz p)%Qc 0%Qc) as [H|H].
  - replace (- (qz z / qz p) * qz p)%Qc with (qz (- z)) by (rewrite qz_opp; field; exact NZ). rewrite qround_int, qz_opp. field. exact NZ.
  - replace (qz z / qz p * qz p)%Qc with (qz z) by (field; exact NZ). now rewrite qround_int.
Qed.
Lemma printed_int z : printed 0 (qz z) = qz z.
Proof.
  pose proof (printed_exact 0 z) as H. change (10 ^ Z.of_nat 0)%Z with 1%Z in H. rewrite qz_1 in H. replace (qz z / 1)%Qc with (qz z) in H by (field; discriminate). exact H.
Qed.
(** ** Widths *)
Lemma rjust_len w s : (length s <= w)%nat -> length (rjust w s) = w.
Proof. intros H. unfold rjust, spaces. rewrite app_length, repeat_length. lia. Qed.
Lemma ljust_len w s : (length s <= w)%nat -> length (ljust w s) = w.
Proof. intros H. unfold ljust, spaces. rewrite app_length, repeat_length. lia. Qed.
(** ** Splitting *)
Lemma words_solid cur s r : Forall (fun c => isspace c = false /\ c <> cr /\ c <> lf) s -> words_aux cur (s ++ r) = words_aux (cur ++ s) r.
Proof.
  intros F. revert cur. induction F as [|c s [H _] F IH]; intros cur; [now rewrite app_nil_r|]. cbn. rewrite H, IH. now rewrite <- app_assoc.
Qed.
Lemma words_spaces n r : words_aux [] (spaces n ++ r) = words_aux [] r.
Proof. induction n; [reflexivity|exact IHn]. Qed.
Lemma words_field w s c r : solid s -> isspace c = true -> words_aux [] (rjust w s ++ c :: r) = s :: words_aux [] r.
Proof.
  intros [N F] H. unfold rjust. rewrite <- app_assoc, words_spaces, words_solid by exact F. cbn [app words_aux]. rewrite H. destruct s; [congruence|reflexivity].
Qed.
Lemma words_tok s c r : solid s -> isspace c = true -> words_aux [] (s ++ c :: r) = s :: words_aux [] r.
Proof. intros S H. pose proof (words_field 0 s c r S H) as E. exact E. Qed.
Definition oneline (s : text) : Prop := Forall (fun c => c <> cr /\ c <> lf) s.
Lemma universal_app s r : oneline s -> universal (s ++ cr :: lf :: r) = s ++ lf :: universal r.
Proof.
  induction 1 as [|c s [A B] F IH]; [reflexivity|]. cbn [app universal]. destruct (Ascii.eqb_spec c cr); [congruence|]. now rewrite IH.
Qed.
Lemma readlines_app s cur r : oneline s -> readlines_aux cur (s ++ lf :: r) = (cur ++ s ++ [lf]) :: readlines_aux [] r.
Proof.
  intros F. revert cur. induction F as [|c s [A B] F IH]; intros cur; [reflexivity|]. cbn [app readlines_aux]. destruct (Ascii.eqb_spec c lf); [congruence|].
  rewrite IH. now rewrite <- !app_assoc.
Qed.
Lemma readlines_file lines : Forall oneline lines -> readlines (flat_map (fun l => l ++ [cr; lf]) lines) = map (fun l => l ++ [lf]) lines.
Proof.
  unfold readlines. induction 1 as [|l lines H F IH]; [reflexivity|]. cbn [flat_map map]. rewrite <- app_assoc. cbn [app].
  rewrite universal_app by exact H. rewrite readlines_app by exact H. now rewrite IH.
Qed.
(** ** Fixed-width fields *)
Definition chop (w n : nat) (s : text) : list text := map (fun i => sub (i * w) w s) (seq 0 n).
Lemma skipn_add {A} : forall b a (l : list A), skipn a (skipn b l) = skipn (b + a) l.
Proof. induction b as [|b IH]; intros a l; [reflexivity|]. destruct l as [|x l]; cbn; [apply skipn_nil|apply IH]. Qed.
Lemma chop_S w n s : chop w (S n) s = firstn w s :: chop w n (skipn w s).
Proof.
  unfold chop. cbn [seq map]. f_equal. rewrite <- seq_shift, map_map. apply map_ext. intros i. unfold sub. now rewrite skipn_add.
Qed.
Lemma chop_recs w : forall recs n tail, Forall (fun r => length r = w) recs -> chop w (length recs + n) (List.concat recs ++ tail) = recs ++ chop w n tail.
Proof.
  induction recs as [|r recs IH]; intros n tail F; [reflexivity|]. inversion F as [|? ? L F']; subst. cbn [length Nat.add List.concat app].
  rewrite chop_S, <- app_assoc. f_equal.
  - rewrite firstn_app, Nat.sub_diag, firstn_all. apply app_nil_r.
  - rewrite skipn_app, Nat.sub_diag, skipn_all. cbn [skipn app]. now apply IH.
Qed.
Lemma chop_blank w : forall n r, (0 < w)%nat -> chop w n (spaces (n * w) ++ r) = repeat (spaces w) n.
Proof.
  induction n as [|n IH]; intros r W; [reflexivity|]. rewrite chop_S. cbn [repeat Nat.mul]. unfold spaces. rewrite repeat_app, <- app_assoc.
  rewrite firstn_app, skipn_app, repeat_length, Nat.sub_diag. rewrite firstn_all2, skipn_all2 by (rewrite repeat_length; lia). cbn [firstn skipn app].
  rewrite app_nil_r. f_equal. apply IH. exact W.
Qed.
