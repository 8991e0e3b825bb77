(* C99: Fit2D mask files.  C100: AmiraMesh files. *)
From Coq Require Import Strings.String.
From Verif Require Import Common QcArith Amira_Model Amira_Spec Amira_Proofs.
Local Open Scope list_scope.

(** ** C99 *)
(** a boolean mask saved and read again is the same mask *)
Theorem C99_boolean_mask m : read_fit2d_msk (fit2d_save (map (map PBool) m)) = m.
Proof. exact (mask_bool m). Qed.
Print Assumptions C99_boolean_mask.
(** an integer mask of zeros and ones is read again as all False, ones included *)
Theorem C99_integer_mask_refuted m : Forall (Forall (fun n => 0 <= n)%Z) m ->
  read_fit2d_msk (fit2d_save (map (map PInt) m)) = map (map (fun _ => false)) m.
Proof.
  intros H. apply mask_int. eapply Forall_impl; [|exact H]. intros r Hr. eapply Forall_impl; [|exact Hr]. intros n Hn. cbn in Hn. lia.
Qed.
Print Assumptions C99_integer_mask_refuted.
Example C99_ex1 : read_fit2d_msk (fit2d_save [[PBool true; PBool false]; [PBool false; PBool true]]) = [[true; false]; [false; true]].
Proof. reflexivity. Qed.
Example C99_ex2 : read_fit2d_msk (fit2d_save [[PInt 1; PInt 0]]) = [[false; false]].
Proof. reflexivity. Qed.
(** every mask, whatever its type: the pixel read is True exactly when the inverted value is zero *)
Theorem C99_every_mask m i j r p : nth_error m i = Some r -> nth_error r j = Some p ->
  exists r' b, nth_error (read_fit2d_msk (fit2d_save m)) i = Some r' /\ nth_error r' j = Some b /\ (b = true <-> p = PBool true \/ p = PInt (-1)).
Proof.
  intros Hr Hp. unfold read_fit2d_msk, fit2d_save. rewrite map_map.
  exists (map negb (map (fun p => nonzero (invert p)) r)), (negb (nonzero (invert p))). split; [|split].
  - rewrite nth_error_map, Hr. reflexivity.
  - rewrite map_map, nth_error_map, Hp. reflexivity.
  - destruct p as [[]|n]; cbn.
    + split; [auto|reflexivity].
    + split; [discriminate|intros [E|E]; discriminate].
    + destruct (Z.eqb_spec (- n - 1) 0) as [E|E]; cbn; split; intros H; try discriminate.
      * right. f_equal. lia.
      * reflexivity.
      * destruct H as [H|H]; [discriminate|]. injection H as ->. lia.
Qed.
Print Assumptions C99_every_mask.

(** ** C100 *)
(** no AmiraMesh file can be loaded under python 3: with the line that opens the data section the cleaning of the header raises,
    without it the reader never comes to an end *)
Theorem C100_never_loads_refuted finish file :
  (In "# Data section follows"%string file -> exists n, forall fuel, n <= fuel -> load_amiramesh finish fuel file = Raised) /\
  (~ In "# Data section follows"%string file -> forall fuel, load_amiramesh finish fuel file = Running) /\
  (forall fuel, load_amiramesh finish fuel file <> Returned).
Proof.
  destruct (load_ok finish file) as [A B]. split; [exact A|]. split; [exact B|]. intros fuel.
  destruct (in_dec string_dec marker file) as [I|I]; [|rewrite (B I); discriminate].
  unfold load_amiramesh. destruct (read_amira fuel file []) as [h|h d] eqn:E; [discriminate|].
  assert (M : forall fuel file header h d, read_amira fuel file header = Header h d -> In marker h).
  { clear. induction fuel as [|f IH]; intros file header h d; cbn [read_amira]; [discriminate|]. destruct file as [|l r]; [apply IH|].
    destruct (String.eqb_spec l marker) as [->|_]; [|apply IH]. intros E. injection E as <- <-. apply in_or_app. right. left. reflexivity. }
  rewrite (clean_raises h (M _ _ _ _ _ E)). discriminate.
Qed.
Print Assumptions C100_never_loads_refuted.
(** the cleaning itself raises on every header but one of blank lines *)
Theorem C100_only_blank_headers h : (clean_amira_header h <> None <-> Forall blank h) /\ (forall r, clean_amira_header h = Some r -> r = map (fun _ => []) h).
Proof. exact (clean_blank h). Qed.
Print Assumptions C100_only_blank_headers.
Example C100_ex0 : clean_amira_header ["  "; ""]%string = Some [[]; []] /\ clean_amira_header ["  "; " #"]%string = None.
Proof. split; reflexivity. Qed.
(** while it runs without the marker it stores one more line per step *)
Theorem C100_endless_memory_refuted file : ~ In "# Data section follows"%string file ->
  forall fuel, exists h, read_amira fuel file [] = Reading h /\ length h = fuel.
Proof. intros H fuel. exact (read_no_marker fuel file [] H). Qed.
Print Assumptions C100_endless_memory_refuted.
(** the header is every line up to the first marker, the marker included; the line after it is dropped and the rest is the data *)
Theorem C100_split pre rest fuel : ~ In "# Data section follows"%string pre -> length pre < fuel ->
  read_amira fuel (pre ++ "# Data section follows"%string :: rest) [] = Header (pre ++ ["# Data section follows"%string]) (skipn 1 rest).
Proof.
  intros H L. enough (G : forall acc, read_amira fuel (pre ++ marker :: rest) acc = Header (acc ++ pre ++ [marker]) (skipn 1 rest)) by exact (G []).
  revert fuel L H. induction pre as [|l pre IH]; intros [|f] L H acc; cbn [length] in L; try lia.
  - cbn. destruct rest; reflexivity.
  - cbn [app read_amira]. destruct (String.eqb_spec l marker) as [->|_]; [destruct H; left; reflexivity|].
    rewrite (IH f ltac:(lia) (fun I => H (or_intror I)) (acc ++ [l])). rewrite <- !app_assoc. reflexivity.
Qed.
Print Assumptions C100_split.
Example C100_split_ex : read_amira 9 ["# AmiraMesh 3D"; "# Data section follows"; "@1"; "0 1"; "# Data section follows"]%string [] =
  Header ["# AmiraMesh 3D"; "# Data section follows"]%string ["0 1"; "# Data section follows"]%string.
Proof. reflexivity. Qed.
Example C100_ex1 : load_amiramesh (fun _ _ => Returned) 5 ["# AmiraMesh 3D"; "define Lattice 2 2 2"; "# Data section follows"; "@1"]%string = Raised.
Proof. reflexivity. Qed.
Example C100_ex2 : load_amiramesh (fun _ _ => Returned) 50 ["# AmiraMesh 3D"; "define Lattice 2 2 2"]%string = Running.
Proof. reflexivity. Qed.

Section Header.
Variables (to_int : string -> option Z) (to_float : string -> option Qc).
(** the metadata of a cleaned header: a size line, later a bounding box, the rest without effect on either *)
Theorem C100_metadata h0 w s f v rest l1 pre name a b c post l2 pre' ws post' l3 x y z x0 x1 y0 y1 z0 z1 :
  h0 = w :: s :: f :: v :: rest -> f <> "3D"%string ->
  Forall harmless (h0 :: l1) -> Forall harmless l2 -> Forall harmless l3 ->
  ~ In "define"%string pre -> to_int a = Some x -> to_int b = Some y -> to_int c = Some z ->
  free ["define"; "Content"; "CoordType"; "BoundingBox"]%string pre' -> free ["define"; "Content"; "CoordType"]%string (ws ++ post') ->
  length ws = 6 -> map to_float ws = map Some [x0; x1; y0; y1; z0; z1] ->
  exists rx ry rz, spacing x0 x1 x rx /\ spacing y0 y1 y ry /\ spacing z0 z1 z rz /\
    match create_md_dict to_int to_float ((h0 :: l1) ++ (pre ++ "define"%string :: name :: a :: b :: c :: post) :: l2 ++ (pre' ++ "BoundingBox"%string :: ws ++ post') :: l3) with
    | None => rx = 0%Qc
    | Some m => rx <> 0%Qc /\ software m = s /\ data_format m = f /\ format_version m = v /\ dims m = Some (x, y, z) /\ bbox m = Some [x0; x1; y0; y1; z0; z1] /\
        ((same_within ry rx /\ same_within rz rx) /\ res m = Some (Isotropic rx) \/ ~ (same_within ry rx /\ same_within rz rx) /\ res m = Some (Anisotropic rz ry rx))
    end.
Proof. exact (md_ok to_int to_float h0 w s f v rest l1 pre name a b c post l2 pre' ws post' l3 x y z x0 x1 y0 y1 z0 z1). Qed.
(** a bounding box before any size raises *)
Theorem C100_box_before_size h0 l1 pre' ws post' l3 : Forall harmless (h0 :: l1) ->
  free ["define"; "Content"; "CoordType"; "BoundingBox"]%string pre' -> free ["define"; "Content"; "CoordType"]%string (ws ++ post') ->
  length ws = 6 -> (exists v, map to_float ws = map Some v) ->
  create_md_dict to_int to_float ((h0 :: l1) ++ (pre' ++ "BoundingBox"%string :: ws ++ post') :: l3) = None.
Proof. exact (bbox_first_raises to_int to_float h0 l1 pre' ws post' l3). Qed.
(** the entries taken from single lines *)
Theorem C100_entries m pre post t u :
  (free ["define"; "Content"]%string pre -> free ["define"]%string (t :: u :: post) ->
     exists m', header_line to_int to_float m (pre ++ "Content"%string :: t :: u :: post) = Some m' /\ data_type m' = Some u) /\
  (free ["define"; "Content"; "CoordType"]%string pre -> free ["define"; "Content"]%string (t :: post) ->
     exists m', header_line to_int to_float m (pre ++ "CoordType"%string :: t :: post) = Some m' /\ coord_type m' = Some t) /\
  (free ["define"; "Content"; "CoordType"; "BoundingBox"; "Units"]%string pre -> free ["define"; "Content"; "CoordType"; "BoundingBox"]%string (t :: u :: post) ->
     exists m', header_line to_int to_float m (pre ++ "Units"%string :: t :: u :: post) = Some m' /\ units m' = Some u) /\
  (free ["define"; "Content"; "CoordType"; "BoundingBox"; "Units"]%string pre -> free ["define"; "Content"; "CoordType"; "BoundingBox"]%string [t] ->
     exists m', header_line to_int to_float m (pre ++ ["Units"%string; t]) = Some m' /\ units m' = Some "pixels"%string) /\
  (free ["define"; "Content"; "CoordType"; "BoundingBox"; "Units"; "Coordinates"]%string pre -> free ["define"; "Content"; "CoordType"; "BoundingBox"; "Units"]%string (t :: post) ->
     exists m', header_line to_int to_float m (pre ++ "Coordinates"%string :: t :: post) = Some m' /\ coordinates m' = Some t).
Proof.
  assert (N : forall ws ws' k l, free ws pre -> free ws' l -> (forall w, In w ws' -> In w ws) -> ~ In k ws' -> forall w, In w ws' -> has w (pre ++ k :: l) = false).
  { intros ws ws' k l H1 H2 I K w Hw. apply has_false. intros F. apply in_app_or in F. destruct F as [F|[F|F]]; [exact (H1 w (I w Hw) F)|subst; contradiction|exact (H2 w Hw F)]. }
  assert (T : forall k l, has k (pre ++ k :: l) = true) by (intros k l; apply has_true, in_or_app; right; left; reflexivity).
  repeat split; intros H1 H2; unfold header_line;
    match goal with |- context [pre ++ ?k :: ?l] =>
      rewrite (T k l);
      assert (NN := N _ _ k l H1 H2 ltac:(intros w Hw; cbn in Hw |- *; tauto) ltac:(cbn; intuition discriminate));
      rewrite ?NN by (cbn; tauto); rewrite !after_at by (apply H1; cbn; tauto) end; cbn [nth_error bind]; eexists; split; reflexivity.
Qed.
End Header.
Print Assumptions C100_metadata.
Print Assumptions C100_box_before_size.
Print Assumptions C100_entries.

(** a header with its numbers; x and y spacing 2, z spacing 4 *)
Definition ex_int (s : string) : option Z :=
  if String.eqb s "3" then Some 3%Z else if String.eqb s "2" then Some 2%Z else if String.eqb s "1" then Some 1%Z else None.
Definition ex_float (s : string) : option Qc := if String.eqb s "0" then Some 0%Qc else if String.eqb s "4" then Some (qz 4) else None.
Definition ex_head : list string := ["#"; "AmiraMesh"; "BINARY-LITTLE-ENDIAN"; "2.1"]%string.
Definition ex_box : list string := ["BoundingBox"; "0"; "4"; "0"; "4"; "0"; "4"]%string.
Example C100_ex3 : option_map (fun m => (dims m, res m, data_type m)) (create_md_dict ex_int ex_float
  [ex_head; ["define"; "Lattice"; "3"; "3"; "2"]; ["Content"; "3x3x2"; "byte"]; ex_box]%string) =
  Some (Some (3, 3, 2)%Z, Some (Anisotropic (qz 4) (qz 2) (qz 2)), Some "byte"%string).
Proof. vm_compute. do 4 f_equal; f_equal; apply Qc_is_canon; reflexivity. Qed.
Example C100_ex4 : option_map (fun m => (dims m, res m, units m)) (create_md_dict ex_int ex_float
  [ex_head; ["define"; "Lattice"; "3"; "3"; "3"]; ex_box; ["Units"; "{"]]%string) = Some (Some (3, 3, 3)%Z, Some (Isotropic (qz 2)), Some "pixels"%string).
Proof. vm_compute. do 4 f_equal; f_equal; apply Qc_is_canon; reflexivity. Qed.
Example C100_ex5 : create_md_dict ex_int ex_float [ex_head; ["define"; "Lattice"; "1"; "3"; "3"]; ex_box]%string = None.
Proof. vm_compute. reflexivity. Qed.
Example C100_ex6 : create_md_dict ex_int ex_float [ex_head; ex_box; ["define"; "Lattice"; "3"; "3"; "3"]]%string = None.
Proof. vm_compute. reflexivity. Qed.
