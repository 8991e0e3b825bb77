(* C51, C52, C53: powder pattern files. *)
From Verif Require Import Common Text_Model Gsas_Model Gsas_Spec Gsas_Files Gsas_Lines.
Open Scope list_scope.
Notation nodirs := (fun _ : text => false).
Definition show (r : list point + gerr) : list (Q * Q * Q) + gerr := match r with inl l => inl (map (fun p => (this (fst (fst p)), this (snd (fst p)), this (snd p))) l) | inr e => inr e end.
Definition wr (tth ys : list Qc) (mode : option string) (err : option (list Qc)) : list (Q * Q * Q) + gerr :=
  let '(fs, e) := gsas_writer nodirs [] tth ys (txt "scan") mode err None in match e with Some x => inr x | None => show (gsas_reader fs (txt "scan.gsas")) end.

(** C51: what a STD file gives back *)
Theorem C51_std_round_trip : forall isdir fs tth ys name mode err dir k,
  (forall d, dir = Some d -> isdir d = true) -> has_stem name -> one_line name ->
  length tth = length ys -> (2 <= length ys)%nat -> (forall e, err = Some e -> length e = length ys /\ mode = Some "STD"%string) ->
  (exists y, In y ys /\ (0 <= y)%Qc) -> decades ys k -> (forall y, In y ys -> (qz (-99999) <= y / ten k)%Qc) ->
  exists pts, writes isdir fs tth ys name mode err dir pts /\ length pts = length ys /\
    forall i y, nth_error ys i = Some y -> exists t v w z,
      nth_error pts i = Some (t, v, w) /\ on_grid tth i t /\ near 0 (qz z) (y / ten k)%Qc /\ (z <= 999999)%Z /\ clipped v (qz z) /\ inverse w (qz z).
Proof. exact std_round_trip. Qed.
Print Assumptions C51_std_round_trip.
Example C51_std_case : wr [qz 10; qz 11; qz 12] [Q2Qc (17#2); qz (-3); qz 400] None None =
  inl [(10, 8, 1#8); (11, 0, 0); (12, 400, 1#400)]%Q.
Proof. reflexivity. Qed.

Theorem C51_decades_exist : forall ys, (exists y, In y ys /\ (0 <= y)%Qc) -> exists! k, decades ys k.
Proof.
  intros ys (y & I & P). destruct (qmax_nonneg ys y I P) as (m & M & PM). exists (scale_exp m). split; [now apply decades_scale|].
  intros k D. apply (decades_unique ys); [now apply decades_scale|exact D].
Qed.
Print Assumptions C51_decades_exist.

Theorem C51_std_exact : forall isdir fs tth zs name mode err dir,
  (forall d, dir = Some d -> isdir d = true) -> has_stem name -> one_line name ->
  length tth = length zs -> (2 <= length zs)%nat -> (forall e, err = Some e -> length e = length zs /\ mode = Some "STD"%string) ->
  Forall (fun z => 0 <= z <= 999999)%Z zs ->
  exists pts, writes isdir fs tth (map qz zs) name mode err dir pts /\ map (fun p => snd (fst p)) pts = map qz zs.
Proof. exact std_exact. Qed.
Print Assumptions C51_std_exact.
Example C51_exact_case : wr [qz 10; qz 11] [qz 999999; qz 0] None None = inl [(10, 999999, 1#999999); (11, 0, 0)]%Q.
Proof. reflexivity. Qed.

(** above 999999 the reader does not undo the scale *)
Theorem C51_std_scale_lost : forall isdir fs tth ys name mode err dir k,
  (forall d, dir = Some d -> isdir d = true) -> has_stem name -> one_line name ->
  length tth = length ys -> (2 <= length ys)%nat -> (forall e, err = Some e -> length e = length ys /\ mode = Some "STD"%string) ->
  decades ys k -> (0 < k)%nat -> (forall y, In y ys -> (qz (-99999) <= y / ten k)%Qc) ->
  exists pts i y t v w, writes isdir fs tth ys name mode err dir pts /\ nth_error ys i = Some y /\ nth_error pts i = Some (t, v, w) /\ (v <= qz 999999)%Qc /\ (qz 999999 < y)%Qc.
Proof. exact std_scale_lost. Qed.
Print Assumptions C51_std_scale_lost.
Example C51_scale_case : wr [qz 10; qz 11] [qz 1000000; qz 14] None None = inl [(10, 100000, 1#100000); (11, 1, 1)]%Q.
Proof. reflexivity. Qed.

(** below -99999 a field overflows and every later point is shifted *)
Theorem C51_std_overflow_refuted : ~ (forall tth zs pts, length tth = length zs -> (2 <= length zs)%nat -> Forall (fun z => z <= 999999)%Z zs -> (exists z, In z zs /\ 0 <= z)%Z ->
  writes nodirs [] tth (map qz zs) (txt "scan") None None None pts -> forall i z, nth_error zs i = Some z -> (0 <= z)%Z -> exists t w, nth_error pts i = Some (t, qz z, w)).
Proof.
  intros H. specialize (H [qz 10; qz 11] [-1000000; 5]%Z). set (pts := match gsas_reader (fst (gsas_writer nodirs [] [qz 10; qz 11] [qz (-1000000); qz 5] (txt "scan") None None None)) (txt "scan.gsas") with inl l => l | inr _ => [] end) in *.
  destruct (H pts eq_refl ltac:(cbn; lia)) with (i := 1%nat) (z := 5%Z) as (t & w & E).
  - repeat constructor; lia.
  - exists 5%Z. cbn. split; [auto|lia].
  - unfold writes. eexists. split; [reflexivity|reflexivity].
  - reflexivity.
  - lia.
  - assert (S : option_map (fun p => this (snd (fst p))) (nth_error pts 1) = Some 1%Q) by reflexivity. rewrite E in S. discriminate S.
Qed.
Print Assumptions C51_std_overflow_refuted.

(** C52: ESD files come back padded, FXYE files with the scale applied to the angles *)
Theorem C52_esd_read_back : forall isdir fs tth ys es name dir k,
  (forall d, dir = Some d -> isdir d = true) -> has_stem name -> one_line name ->
  length tth = length ys -> length es = length ys -> (2 <= length ys)%nat ->
  (exists y, In y ys /\ (0 <= y)%Qc) -> decades ys k ->
  (forall y, In y ys -> qz (-9999999) <= y /\ y <= qz 99999999)%Qc -> (forall e, In e es -> qz (-9999999) <= e / ten k /\ e / ten k <= qz 99999999)%Qc ->
  exists pts b c, writes isdir fs tth ys name (Some "ESD"%string) (Some es) dir pts /\ (b < 5)%nat /\ (length ys + b = 5 * c)%nat /\ length pts = (length ys + b)%nat /\
    (forall i y e, nth_error ys i = Some y -> nth_error es i = Some e -> exists t v w z u,
      nth_error pts i = Some (t, v, w) /\ on_grid tth i t /\ near 0 (qz z) y /\ clipped v (qz z) /\ near 0 (qz u) (e / ten k)%Qc /\ inverse_square w (qz u)) /\
    (forall i, (length ys <= i < length ys + b)%nat -> exists t, on_grid tth i t /\ nth_error pts i = Some (t, 0%Qc, 0%Qc)).
Proof. exact esd_read_back. Qed.
Print Assumptions C52_esd_read_back.
Example C52_esd_case : wr [qz 10; qz 11] [qz 2000000; qz 4] (Some "ESD"%string) (Some [qz 20; qz 3]) =
  inl [(10, 2000000, 1#4); (11, 4, 0); (12, 0, 0); (13, 0, 0); (14, 0, 0)]%Q.
Proof. reflexivity. Qed.

Theorem C52_fxye_read_back : forall isdir fs tth ys es name dir k,
  (forall d, dir = Some d -> isdir d = true) -> has_stem name -> one_line name ->
  length tth = length ys -> length es = length ys -> (2 <= length ys)%nat ->
  (exists y, In y ys /\ (0 <= y)%Qc) -> decades ys k ->
  (forall y, In y ys -> qz (-999999999) <= y / ten k)%Qc -> (forall e, In e es -> qz (-99999999999) <= e / ten k /\ e / ten k <= qz 99999999999)%Qc ->
  exists pts, writes isdir fs tth ys name (Some "FXYE"%string) (Some es) dir pts /\ length pts = length ys /\
    forall i t0 y e, nth_error tth i = Some t0 -> nth_error ys i = Some y -> nth_error es i = Some e -> exists t v w p u,
      nth_error pts i = Some (t, v, w) /\ near 10 t (t0 / ten k)%Qc /\ near 10 p (y / ten k)%Qc /\ clipped v p /\ near 10 u (e / ten k)%Qc /\ inverse_square w u.
Proof. exact fxye_read_back. Qed.
Print Assumptions C52_fxye_read_back.
Example C52_fxye_case : wr [qz 10; Q2Qc (47#4)] [Q2Qc (5#2); qz (-4)] (Some "FXYE"%string) (Some [qz 2; Q2Qc (1#2)]) = inl [(10, 5#2, 1#4); (47#4, 0, 4)]%Q.
Proof. reflexivity. Qed.

Theorem C52_fxye_angles_lost : forall isdir fs tth ys es name dir k,
  (forall d, dir = Some d -> isdir d = true) -> has_stem name -> one_line name ->
  length tth = length ys -> length es = length ys -> (2 <= length ys)%nat ->
  decades ys k -> (0 < k)%nat ->
  (forall y, In y ys -> qz (-999999999) <= y / ten k)%Qc -> (forall e, In e es -> qz (-99999999999) <= e / ten k /\ e / ten k <= qz 99999999999)%Qc ->
  exists pts, writes isdir fs tth ys name (Some "FXYE"%string) (Some es) dir pts /\
    forall i t0, nth_error tth i = Some t0 -> (1 <= t0)%Qc -> exists t v w, nth_error pts i = Some (t, v, w) /\ (t * qz 5 < t0)%Qc.
Proof. exact fxye_angles_lost. Qed.
Print Assumptions C52_fxye_angles_lost.
Example C52_angles_case : wr [qz 10; qz 11] [qz 1000000; qz 4] (Some "FXYE"%string) (Some [qz 20; qz 30]) = inl [(1, 100000, 1#4); (11#10, 2#5, 1#9)]%Q.
Proof. reflexivity. Qed.
(** fields without a blank between them are not readable *)
Example C52_fxye_merged : wr [qz 10; qz 11] [qz 1; qz (-1234567890)] (Some "FXYE"%string) (Some [qz 20; qz 30]) = inr ValueErr.
Proof. reflexivity. Qed.

(** C53: existing files *)
Theorem C53_save_output : forall isdir fs tth ys name qt ext err dir fs' r,
  save_output isdir fs tth ys name qt ext err dir = (fs', r) ->
  let p := match dir with None => name | Some d => path_in d name end ++ ext in
  (forall q, q <> p -> fget fs' q = fget fs q) /\ fget fs' p = match r with Some _ => fget fs p | None => Some (Columns tth ys err) end /\
  (r = None <-> (qt = "Q"%string \/ qt = "2theta"%string) /\ length tth = length ys /\ (forall e, err = Some e -> length e = length ys) /\ (err = None -> ext <> txt ".xye") /\ (forall d, dir = Some d -> isdir d = true)).
Proof. exact save_output_all_or_nothing. Qed.
Print Assumptions C53_save_output.
Example C53_save_case : snd (save_output (fun d => teqb d (txt "/data")) [] [qz 1] [qz 2] (txt "a") "Q" (txt ".chi") None (Some (txt "/data"))) = None /\
  map fst (fst (save_output (fun d => teqb d (txt "/data")) [] [qz 1] [qz 2] (txt "a") "Q" (txt ".chi") None (Some (txt "/data")))) = [txt "/data/a.chi"].
Proof. split; reflexivity. Qed.

Theorem C53_gsas_writer_effects : forall isdir fs tth ys name mode err dir fs' r, length ys <> 1%nat ->
  gsas_writer isdir fs tth ys name mode err dir = (fs', r) ->
  (forall q, q <> outfile dir name -> fget fs' q = fget fs q) /\
  (~ accepted isdir tth ys err dir -> r <> None /\ fget fs' (outfile dir name) = fget fs (outfile dir name)) /\
  (accepted isdir tth ys err dir ->
     ((exists y, In y ys /\ (0 <= y)%Qc) /\ known_mode mode err -> r = None /\ exists t, fget fs' (outfile dir name) = Some (Text t)) /\
     (~ ((exists y, In y ys /\ (0 <= y)%Qc) /\ known_mode mode err) -> r <> None /\ fget fs' (outfile dir name) = None)).
Proof. exact gsas_writer_effects. Qed.
Print Assumptions C53_gsas_writer_effects.

(** the previous file is lost when the mode is wrong or was left out *)
Theorem C53_failed_write_keeps_file_refuted : ~ (forall isdir fs tth ys name mode err dir fs' e,
  gsas_writer isdir fs tth ys name mode err dir = (fs', Some e) -> fget fs' (outfile dir name) = fget fs (outfile dir name)).
Proof.
  intros H. specialize (H nodirs [(txt "scan.gsas", Text (txt "precious"))] [qz 10; qz 11] [qz 1; qz 2] (txt "scan") None (Some [qz 1; qz 1]) None _ _ eq_refl). discriminate H.
Qed.
Print Assumptions C53_failed_write_keeps_file_refuted.

Theorem C53_reader_refuses : forall fs p, (forall t, fget fs p <> Some (Text t)) \/ ~ gsas_named p -> gsas_reader fs p = inr IOErr.
Proof. intros fs p H. apply reader_needs_stem. destruct H as [H|H]; [left; exact H|right]. rewrite extension_named. exact H. Qed.
Print Assumptions C53_reader_refuses.
(** a file the writer writes and the reader refuses *)
Example C53_no_stem : let '(fs, e) := gsas_writer nodirs [] [qz 10; qz 11] [qz 1; qz 2] [] None None None in e = None /\ gsas_reader fs (outfile None []) = inr IOErr.
Proof. split; reflexivity. Qed.

(** C90: the file is made of 80-character records, each ended by carriage return and line feed: the title,
    cut or filled; a header giving the number of points and the number of records that follow; those records. *)
Theorem C90_std isdir fs tth ys name mode err dir k :
  (forall d, dir = Some d -> isdir d = true) -> length tth = length ys -> (2 <= length ys)%nat -> (Z.of_nat (length ys) < 10 ^ 8)%Z ->
  (forall e, err = Some e -> length e = length ys /\ mode = Some "STD"%string) ->
  (exists y, In y ys /\ (0 <= y)%Qc) -> decades ys k -> (forall y, In y ys -> (qz (-99999) <= y / ten k)%Qc) -> axis_ok tth 999 ->
  exists t, file_written isdir fs tth ys name mode err dir t /\ gsas_lines t name k (length ys) ((length ys + 9) / 10).
Proof. exact (std_lines isdir fs tth ys name mode err dir k). Qed.
Print Assumptions C90_std.
Theorem C90_esd isdir fs tth ys es name dir k :
  (forall d, dir = Some d -> isdir d = true) -> length tth = length ys -> length es = length ys -> (2 <= length ys)%nat -> (Z.of_nat (length ys) < 10 ^ 8)%Z ->
  (exists y, In y ys /\ (0 <= y)%Qc) -> decades ys k ->
  (forall y, In y ys -> qz (-9999999) <= y /\ y <= qz 99999999)%Qc -> (forall e, In e es -> qz (-9999999) <= e / ten k /\ e / ten k <= qz 99999999)%Qc -> axis_ok tth 999 ->
  exists t, file_written isdir fs tth ys name (Some "ESD"%string) (Some es) dir t /\ gsas_lines t name k (length ys) ((length ys + 4) / 5).
Proof. exact (esd_lines isdir fs tth ys es name dir k). Qed.
Print Assumptions C90_esd.
Theorem C90_fxye isdir fs tth ys es name dir k :
  (forall d, dir = Some d -> isdir d = true) -> length tth = length ys -> length es = length ys -> (2 <= length ys)%nat -> (Z.of_nat (length ys) < 10 ^ 8)%Z ->
  (exists y, In y ys /\ (0 <= y)%Qc) -> decades ys k ->
  (forall t, In t tth -> 0 <= t /\ t <= qz 999)%Qc -> (forall y, In y ys -> qz (-999999999) <= y / ten k)%Qc ->
  (forall e, In e es -> qz (-99999999999) <= e / ten k /\ e / ten k <= qz 99999999999)%Qc -> axis_ok tth 99 ->
  exists t, file_written isdir fs tth ys name (Some "FXYE"%string) (Some es) dir t /\ gsas_lines t name k (length ys) (length ys).
Proof. exact (fxye_lines isdir fs tth ys es name dir k). Qed.
Print Assumptions C90_fxye.
(** ... but an FXYE file starting at 100 degrees has a header of 81 characters. *)
Theorem C90_fxye_refuted : exists tth ys es t, axis_ok tth 999 /\ file_written nodirs [] tth ys (txt "scan") (Some "FXYE"%string) (Some es) None t /\
  exists head bank body, records t (head :: bank :: body) /\ ~ In lf (head ++ bank) /\ length bank = 81%nat.
Proof.
  exists [qz 100; qz 101], [qz 5; qz 6], [qz 1; qz 1]. eexists. split; [repeat split; discriminate|].
  split; [eexists; split; reflexivity|].
  match goal with |- context [records ?t _] => set (tt := t) end.
  exists (firstn 80 tt), (firstn 81 (skipn 82 tt)), [firstn 80 (skipn 165 tt); firstn 80 (skipn 247 tt)].
  split; [vm_compute; reflexivity|]. split; [|reflexivity]. intros I.
  assert (E : existsb (fun c => Ascii.eqb c lf) (firstn 80 tt ++ firstn 81 (skipn 82 tt)) = true) by (apply existsb_exists; exists lf; split; [exact I|reflexivity]).
  vm_compute in E. discriminate E.
Qed.
Print Assumptions C90_fxye_refuted.
Example C90_ex : exists t, file_written nodirs [] [qz 10; qz 11] [qz 1000000; qz 14] (txt "scan") None None None t /\ length t = (3 * 82)%nat /\
  firstn 30 t = txt "Angular Profile: scan scale=0." /\ firstn 80 (skipn 164 t) = ljust 80 (txt " 1100000 1     1").
Proof. eexists. split; [eexists; split; reflexivity|]. repeat split. Qed.
