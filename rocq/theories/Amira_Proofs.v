(* Proofs for AmiraMesh headers and Fit2D masks. *)
From Coq Require Import Strings.String.
From Verif Require Import Common QcArith Amira_Model Amira_Spec.
Local Open Scope list_scope.

Lemma read_no_marker fuel file header : ~ In marker file -> exists h, read_amira fuel file header = Reading h /\ length h = length header + fuel.
Proof.
  revert file header. induction fuel as [|f IH]; intros file header H; cbn [read_amira]; [exists header; split; [reflexivity|lia]|].
  destruct file as [|l r].
  - destruct (IH [] (header ++ [""%string])) as [h [E L]]; [intros []|]. exists h. split; [exact E|]. rewrite L, app_length. cbn. lia.
  - destruct (String.eqb_spec l marker) as [->|N]; [exfalso; apply H; left; reflexivity|].
    destruct (IH r (header ++ [l])) as [h [E L]]; [intros F; apply H; right; exact F|]. exists h. split; [exact E|]. rewrite L, app_length. cbn. lia.
Qed.
Lemma read_marker file : In marker file -> exists n, forall fuel header, n <= fuel -> exists h d, read_amira fuel file header = Header h d /\ In marker h.
Proof.
  induction file as [|l r IH]; [intros []|]. intros H. destruct (String.eqb_spec l marker) as [->|N].
  - exists 1. intros [|f] header Hf; [lia|]. cbn [read_amira]. rewrite String.eqb_refl. eexists _, _. split; [reflexivity|]. apply in_or_app. right. left. reflexivity.
  - destruct H as [H|H]; [contradiction|]. destruct (IH H) as [n Hn]. exists (S n). intros [|f] header Hf; [lia|]. cbn [read_amira].
    destruct (String.eqb_spec l marker); [contradiction|]. apply Hn. lia.
Qed.
Lemma clean_raises h : In marker h -> clean_amira_header h = None.
Proof.
  intros H. unfold clean_amira_header. destruct (forallb _ h) eqn:E; [exfalso|reflexivity].
  rewrite forallb_forall in E. specialize (E marker H). vm_compute in E. discriminate.
Qed.
Theorem load_ok finish file :
  (In marker file -> exists n, forall fuel, n <= fuel -> load_amiramesh finish fuel file = Raised) /\
  (~ In marker file -> forall fuel, load_amiramesh finish fuel file = Running).
Proof.
  unfold load_amiramesh. split; intros H.
  - destruct (read_marker file H) as [n Hn]. exists n. intros fuel Hf. destruct (Hn fuel [] Hf) as [h [d [E Hm]]]. rewrite E, (clean_raises h Hm). reflexivity.
  - intros fuel. destruct (read_no_marker fuel file [] H) as [h [E _]]. rewrite E. reflexivity.
Qed.

(** ** Header lines *)
Lemma has_false w l : ~ In w l -> has w l = false.
Proof. intros H. unfold has. destruct (existsb _ l) eqn:E; [|reflexivity]. apply existsb_exists in E. destruct E as [x [Hx Ex]]. apply String.eqb_eq in Ex. subst. contradiction. Qed.
Lemma has_true w l : In w l -> has w l = true.
Proof. intros H. apply existsb_exists. exists w. split; [exact H|apply String.eqb_refl]. Qed.
Lemma after_at w pre post k : ~ In w pre -> after w k (pre ++ w :: post) = nth_error (w :: post) k.
Proof.
  unfold after. intros H. assert (E : index_of w (pre ++ w :: post) = Some (length pre)).
  { clear k. induction pre as [|a pre IH]; cbn; [rewrite String.eqb_refl; reflexivity|].
    destruct (String.eqb_spec a w) as [->|N]; [exfalso; apply H; left; reflexivity|]. rewrite IH by (intros F; apply H; right; exact F). reflexivity. }
  rewrite E. cbn [bind]. rewrite nth_error_app2 by lia. f_equal. lia.
Qed.
Lemma free_app ws a b : free ws a -> free ws b -> free ws (a ++ b).
Proof. intros H1 H2 w Hw Hi. apply in_app_or in Hi. destruct Hi as [Hi|Hi]; [exact (H1 w Hw Hi)|exact (H2 w Hw Hi)]. Qed.
Ltac incl_list := cbn; tauto.
Section Md.
Variables (to_int : string -> option Z) (to_float : string -> option Qc).
Lemma not_in_cons (w a : string) l : w <> a -> ~ In w l -> ~ In w (a :: l). Proof. intros H1 H2 [H|H]; [congruence|contradiction]. Qed.
Lemma harmless_line m l : harmless l -> exists m', header_line to_int to_float m l = Some m' /\ dims m' = dims m /\ res m' = res m /\ bbox m' = bbox m /\
  software m' = software m /\ data_format m' = data_format m /\ format_version m' = format_version m.
Proof.
  intros [l' H|pre a b post H1 H2|pre a post H1 H2|l' Hu H]; unfold header_line.
  - rewrite !has_false by (apply H; incl_list). exists m. auto 8.
  - rewrite (has_false "define").
    2:{ intros F. apply in_app_or in F. destruct F as [F|[F|F]]; [exact (H1 "define"%string ltac:(incl_list) F)|discriminate|exact (H2 "define"%string ltac:(incl_list) F)]. }
    rewrite (has_true "Content") by (apply in_or_app; right; left; reflexivity). rewrite after_at by (apply H1; incl_list).
    cbn [nth_error bind]. eexists. split; [reflexivity|]. cbn. auto 8.
  - rewrite (has_false "define").
    2:{ intros F. apply in_app_or in F. destruct F as [F|[F|F]]; [exact (H1 "define"%string ltac:(incl_list) F)|discriminate|exact (H2 "define"%string ltac:(incl_list) F)]. }
    rewrite (has_false "Content").
    2:{ intros F. apply in_app_or in F. destruct F as [F|[F|F]]; [exact (H1 "Content"%string ltac:(incl_list) F)|discriminate|exact (H2 "Content"%string ltac:(incl_list) F)]. }
    rewrite (has_true "CoordType") by (apply in_or_app; right; left; reflexivity). rewrite after_at by (apply H1; incl_list).
    cbn [nth_error bind]. eexists. split; [reflexivity|]. cbn. auto 8.
  - rewrite (has_true "Units" l' Hu). rewrite !has_false by (apply H; incl_list). eexists. split; [reflexivity|]. cbn. auto 8.
Qed.
Lemma harmless_lines ls m : Forall harmless ls -> exists m', foldM (header_line to_int to_float) ls m = Some m' /\ dims m' = dims m /\ res m' = res m /\ bbox m' = bbox m /\
  software m' = software m /\ data_format m' = data_format m /\ format_version m' = format_version m.
Proof.
  intros H. revert m. induction H as [|l ls Hl H IH]; intros m; cbn [foldM]; [exists m; auto 8|].
  destruct (harmless_line m l Hl) as [m1 [E1 [A1 [A2 [A3 [A4 [A5 A6]]]]]]]. rewrite E1. cbn [bind]. destruct (IH m1) as [m2 [E2 [B1 [B2 [B3 [B4 [B5 B6]]]]]]].
  exists m2. split; [exact E2|]. repeat split; congruence.
Qed.
Lemma define_line m pre name a b c post x y z : ~ In "define"%string pre -> to_int a = Some x -> to_int b = Some y -> to_int c = Some z ->
  exists m', header_line to_int to_float m (pre ++ "define"%string :: name :: a :: b :: c :: post) = Some m' /\ dims m' = Some (x, y, z) /\ res m' = res m /\
  software m' = software m /\ data_format m' = data_format m /\ format_version m' = format_version m.
Proof.
  intros H Ha Hb Hc. unfold header_line. rewrite (has_true "define") by (apply in_or_app; right; left; reflexivity).
  rewrite !after_at by exact H. cbn [nth_error bind]. rewrite Ha, Hb, Hc. cbn [bind]. eexists. split; [reflexivity|]. cbn. auto 6.
Qed.
Lemma spacing_ok lo hi n : spacing lo hi n (axis_res lo hi n).
Proof.
  unfold spacing, axis_res. destruct (Z.ltb_spec 1 n) as [L|L]; [left; split; [exact L|]|right; split; [exact L|reflexivity]].
  field. apply qz_neq0. lia.
Qed.
Lemma close_ok r r0 : r0 <> 0%Qc -> (close r r0 = true <-> same_within r r0).
Proof.
  intros H. unfold close, same_within. rewrite andb_true_iff.
  assert (F : forall a b, Qc_ltb a b = true <-> (a < b)%Qc) by (intros a b; destruct (Qc_ltb_spec a b); split; auto; discriminate).
  rewrite !F. split.
  - intros [A B]. exists (r / r0)%Qc. split; [field; exact H|auto].
  - intros [q [E [A B]]]. replace (r / r0)%Qc with q; [auto|]. rewrite <- E. field. exact H.
Qed.
Lemma resolve_ok rx ry rz : match resolve rx ry rz with
  | None => rx = 0%Qc
  | Some (Isotropic x) => rx <> 0%Qc /\ x = rx /\ same_within ry rx /\ same_within rz rx
  | Some (Anisotropic z y x) => rx <> 0%Qc /\ (x, y, z) = (rx, ry, rz) /\ ~ (same_within ry rx /\ same_within rz rx)
  end.
Proof.
  unfold resolve. destruct (Qc_eqb_spec rx 0%Qc) as [E|N]; [exact E|]. destruct (close ry rx && close rz rx) eqn:C.
  - apply andb_true_iff in C. rewrite !close_ok in C by exact N. tauto.
  - split; [exact N|]. split; [reflexivity|]. intros [A B]. apply close_ok in A, B; [|exact N|exact N]. rewrite A, B in C. discriminate.
Qed.
Lemma bbox_line m pre ws post v : free ["define"; "Content"; "CoordType"; "BoundingBox"]%string pre -> free ["define"; "Content"; "CoordType"]%string (ws ++ post) ->
  length ws = 6 -> map to_float ws = map Some v ->
  header_line to_int to_float m (pre ++ "BoundingBox"%string :: ws ++ post) =
  match dims m, v with
  | Some n, [x0; x1; y0; y1; z0; z1] =>
      r <- resolve (axis_res x0 x1 (fst (fst n))) (axis_res y0 y1 (snd (fst n))) (axis_res z0 z1 (snd n)) ;;
      Some {| software := software m; data_format := data_format m; format_version := format_version m; dims := dims m;
              data_type := data_type m; coord_type := coord_type m; bbox := Some [x0; x1; y0; y1; z0; z1]; res := Some r; units := units m; coordinates := coordinates m |}
  | _, _ => None
  end.
Proof.
  intros H1 H2 HL HV. unfold header_line.
  assert (N : forall w, In w ["define"; "Content"; "CoordType"]%string -> has w (pre ++ "BoundingBox"%string :: ws ++ post) = false).
  { intros w Hw. apply has_false. intros F. apply in_app_or in F. destruct F as [F|[F|F]].
    - revert F. apply H1. cbn in Hw |- *. tauto.
    - subst w. cbn in Hw. destruct Hw as [Hw|[Hw|[Hw|[]]]]; discriminate.
    - exact (H2 w Hw F). }
  rewrite !N by incl_list. rewrite (has_true "BoundingBox") by (apply in_or_app; right; left; reflexivity).
  rewrite !after_at by (apply H1; incl_list).
  destruct ws as [|a [|b [|c [|d [|e [|f [|g ws]]]]]]]; try discriminate.
  destruct v as [|x0 [|x1 [|y0 [|y1 [|z0 [|z1 [|w v]]]]]]]; cbn [map] in HV; try discriminate. injection HV as E1 E2 E3 E4 E5 E6.
  cbn [app nth_error bind]. rewrite E1, E2, E3, E4, E5, E6. cbn [bind]. destruct (dims m); reflexivity.
Qed.
Theorem md_ok h0 w s f v rest l1 pre name a b c post l2 pre' ws post' l3 x y z x0 x1 y0 y1 z0 z1 :
  h0 = w :: s :: f :: v :: rest -> f <> "3D"%string ->
  Forall harmless (h0 :: l1) -> Forall harmless l2 -> Forall harmless l3 ->
  ~ In "define"%string pre -> to_int a = Some x -> to_int b = Some y -> to_int c = Some z ->
  free ["define"; "Content"; "CoordType"; "BoundingBox"]%string pre' -> free ["define"; "Content"; "CoordType"]%string (ws ++ post') ->
  length ws = 6 -> map to_float ws = map Some [x0; x1; y0; y1; z0; z1] ->
  exists rx ry rz, spacing x0 x1 x rx /\ spacing y0 y1 y ry /\ spacing z0 z1 z rz /\
    match create_md_dict to_int to_float ((h0 :: l1) ++ (pre ++ "define"%string :: name :: a :: b :: c :: post) :: l2 ++ (pre' ++ "BoundingBox"%string :: ws ++ post') :: l3) with
    | None => rx = 0%Qc
    | Some m => rx <> 0%Qc /\ software m = s /\ data_format m = f /\ format_version m = v /\ dims m = Some (x, y, z) /\ bbox m = Some [x0; x1; y0; y1; z0; z1] /\
        ((same_within ry rx /\ same_within rz rx) /\ res m = Some (Isotropic rx) \/ ~ (same_within ry rx /\ same_within rz rx) /\ res m = Some (Anisotropic rz ry rx))
    end.
Proof.
  intros E0 Hf H1 H2 H3 Hp Ha Hb Hc Hp' Hw HL HV. exists (axis_res x0 x1 x), (axis_res y0 y1 y), (axis_res z0 z1 z).
  split; [apply spacing_ok|]. split; [apply spacing_ok|]. split; [apply spacing_ok|].
  unfold create_md_dict. cbn [app nth_error bind]. subst h0. cbn [nth_error bind].
  destruct (String.eqb_spec f "3D") as [|_]; [contradiction|]. cbn [bind fst snd]. rewrite app_comm_cons, foldM_app.
  match goal with |- context [foldM _ _ ?m0] => destruct (harmless_lines _ m0 H1) as [m1 [E1 [A1 [A2 [A3 [A4 [A5 A6]]]]]]] end. cbn in A4, A5, A6.
  rewrite E1. cbn [bind foldM].
  destruct (define_line m1 pre name a b c post x y z Hp Ha Hb Hc) as [m2 [E2 [B1 [B2 [B4 [B5 B6]]]]]]. rewrite E2. cbn [bind]. rewrite foldM_app.
  destruct (harmless_lines l2 m2 H2) as [m3 [E3 [C1 [C2 [C3 [C4 [C5 C6]]]]]]]. rewrite E3. cbn [bind foldM].
  rewrite (bbox_line m3 pre' ws post' _ Hp' Hw HL HV). rewrite C1, B1. cbn [fst snd].
  pose proof (resolve_ok (axis_res x0 x1 x) (axis_res y0 y1 y) (axis_res z0 z1 z)) as R.
  destruct (resolve _ _ _) as [r|]; cbn [bind]; [|exact R].
  match goal with |- context [foldM _ l3 ?m0] => destruct (harmless_lines l3 m0 H3) as [m4 [E4 [D1 [D2 [D3 [D4 [D5 D6]]]]]]] end. cbn [dims res bbox software data_format format_version] in *.
  rewrite E4. assert (RX : axis_res x0 x1 x <> 0%Qc) by (destruct r; tauto).
  split; [exact RX|]. split; [congruence|]. split; [congruence|]. split; [congruence|]. split; [congruence|]. split; [exact D3|]. rewrite D2.
  destruct r as [x'|z' y' x'].
  - left. destruct R as [_ [-> R]]. split; [exact R|reflexivity].
  - right. destruct R as [_ [E R]]. injection E as -> -> ->. split; [exact R|reflexivity].
Qed.
Theorem bbox_first_raises h0 l1 pre' ws post' l3 : Forall harmless (h0 :: l1) ->
  free ["define"; "Content"; "CoordType"; "BoundingBox"]%string pre' -> free ["define"; "Content"; "CoordType"]%string (ws ++ post') ->
  length ws = 6 -> (exists v, map to_float ws = map Some v) ->
  create_md_dict to_int to_float ((h0 :: l1) ++ (pre' ++ "BoundingBox"%string :: ws ++ post') :: l3) = None.
Proof.
  intros H Hp Hw HL [v HV]. unfold create_md_dict. cbn [app nth_error bind].
  do 3 match goal with |- bind ?e _ = None => destruct e; [cbn [bind]|reflexivity] end.
  match goal with |- bind ?e _ = None => destruct e as [fv|]; [cbn [bind]|reflexivity] end. rewrite app_comm_cons, foldM_app.
  match goal with |- context [foldM _ _ ?m0] => destruct (harmless_lines _ m0 H) as [m1 [E1 [A1 _]]] end. rewrite E1. cbn [bind foldM].
  rewrite (bbox_line m1 pre' ws post' v Hp Hw HL HV), A1. reflexivity.
Qed.
End Md.

(** ** Masks *)
Theorem mask_bool m : read_fit2d_msk (fit2d_save (map (map PBool) m)) = m.
Proof.
  unfold read_fit2d_msk, fit2d_save. rewrite !map_map. rewrite <- (map_id m) at 2. apply map_ext. intros r. rewrite !map_map.
  rewrite <- (map_id r) at 2. apply map_ext. intros []; reflexivity.
Qed.
Theorem mask_int (m : list (list Z)) : Forall (Forall (fun n => n <> -1)%Z) m ->
  read_fit2d_msk (fit2d_save (map (map PInt) m)) = map (map (fun _ => false)) m.
Proof.
  intros H. unfold read_fit2d_msk, fit2d_save. rewrite !map_map. apply map_ext_in. intros r Hr. rewrite !map_map. apply map_ext_in. intros n Hn.
  rewrite Forall_forall in H. specialize (H r Hr). rewrite Forall_forall in H. specialize (H n Hn). cbn.
  destruct (Z.eqb_spec (- n - 1) 0); [lia|reflexivity].
Qed.

(** ** headers that survive the cleaning *)
(** python's ASCII white space *)
Definition white (c : Ascii.ascii) : Prop := In (Ascii.nat_of_ascii c) [9; 10; 11; 12; 13; 28; 29; 30; 31; 32].
Fixpoint blank (s : string) : Prop := match s with EmptyString => True | String c r => white c /\ blank r end.
Lemma split_at_nil s cur : split_at s cur = [] <-> cur = EmptyString /\ blank s.
Proof.
  revert cur. induction s as [|c s IH]; intros cur; cbn [split_at blank].
  - destruct cur; split; [auto|auto|discriminate|intros [E _]; discriminate].
  - match goal with |- context [if ?b then _ else _] => destruct b eqn:E end.
    + assert (W : white c) by (unfold white; cbn [In]; lia).
      split.
      * intros A. apply app_eq_nil in A. destruct A as [A B]. apply IH in B. destruct cur; [tauto|discriminate].
      * intros (-> & _ & B). cbn [app]. apply IH. tauto.
    + assert (W : ~ white c) by (unfold white; cbn [In]; lia).
      rewrite IH. split; [intros [A _]; destruct cur; discriminate|tauto].
Qed.
Theorem clean_blank h : (clean_amira_header h <> None <-> Forall blank h) /\ (forall r, clean_amira_header h = Some r -> r = map (fun _ => []) h).
Proof.
  unfold clean_amira_header. split.
  - rewrite Forall_forall. destruct (forallb _ h) eqn:E.
    + split; [|discriminate]. intros _ s Hs. rewrite forallb_forall in E. specialize (E s Hs). unfold split in E.
      destruct (split_at s EmptyString) eqn:D; [|discriminate]. apply split_at_nil in D. tauto.
    + split; [congruence|]. intros F. exfalso. apply not_true_iff_false in E. apply E. apply forallb_forall. intros s Hs.
      unfold split. rewrite (proj2 (split_at_nil s EmptyString) (conj eq_refl (F s Hs))). reflexivity.
  - intros r. destruct (forallb _ h); [|discriminate]. intros A. injection A as <-. reflexivity.
Qed.
