From Coq Require Import Reals Sorted.
From Verif Require Import Common Roi_Model Roi_Proofs RoiPolar_Model RoiPolar_Proofs PixGrid_Props Snip_Model ImgCirc_Model ImgCirc_Spec.
From Coq Require Import Lra.
Local Open Scope R_scope.
Local Open Scope list_scope.

Lemma seg_ok radii : forall vals x, StronglySorted Rlt radii -> length radii = length vals -> radii <> [] -> hd 0 radii <= x <= last radii 0 -> on_line radii vals x (seg x radii vals).
Proof.
  induction radii as [|a radii IH]; intros [|u vals] x S L N H; try discriminate; [easy|]. destruct radii as [|b radii]; destruct vals as [|v vals]; try discriminate.
  - cbn in H |- *. left. exists 0%nat. split; cbn; f_equal. lra.
  - cbn [seg]. destruct (Rlt_dec x b) as [Y|Y].
    + cbn [hd] in H. inversion S as [|? ? _ F]; subst. inversion F; subst. destruct (proj1 H) as [Hx|Hx].
      * right. exists 0%nat, a, b, u, v. repeat split; try reflexivity; try lra. field. lra.
      * left. exists 0%nat. split; cbn; [now subst|]. f_equal. subst. ring.
    + inversion S as [|? ? S' _]; subst. destruct (IH (v :: vals) x S') as [(k & A & B)|(k & c & d & e & f & A & B & C & D & E)]; [cbn in *; lia|discriminate|cbn [hd]; cbn [last] in H; split; [lra|exact (proj2 H)]| |].
      * left. exists (Datatypes.S k). auto.
      * right. exists (Datatypes.S k), c, d, e, f. auto.
Qed.
Lemma hd_nth (l : list R) : l <> [] -> nth_error l 0 = Some (hd 0 l). Proof. now destruct l. Qed.
Lemma last_nth (l : list R) : l <> [] -> nth_error l (length l - 1) = Some (last l 0).
Proof.
  induction l as [|a l IH]; [easy|]. intros _. destruct l as [|b l]; [reflexivity|]. cbn [length last] in *. replace (S (S (length l)) - 1)%nat with (S (S (length l) - 1)) by lia. apply IH. easy.
Qed.
Lemma interp_ok radii vals x : StronglySorted Rlt radii -> length radii = length vals -> radii <> [] -> profile radii vals x (interp x radii vals 0).
Proof.
  intros S L N. assert (Nv : vals <> []) by (intros ->; destruct radii; [easy|discriminate]).
  exists (hd 0 radii), (last radii 0), (hd 0 vals). split; [now apply hd_nth|]. split; [now apply last_nth|]. split; [now apply hd_nth|]. unfold interp.
  assert (O : hd 0 radii <= last radii 0).
  { clear - S N. induction radii as [|a r IH]; [easy|]. destruct r as [|b r]; [cbn; lra|]. inversion S as [|? ? S' F]; subst. inversion F; subst. specialize (IH S' ltac:(easy)). cbn [hd last] in *. lra. }
  destruct (Rlt_dec x (hd 0 radii)); [repeat split; intros; lra|]. destruct (Rlt_dec (last radii 0) x); [repeat split; intros; lra|].
  repeat split; intros; try lra. now apply seg_ok.
Qed.
Lemma fold_max l : forall a, In (fold_left Rmax l a) (a :: l) /\ forall r, In r (a :: l) -> r <= fold_left Rmax l a.
Proof.
  induction l as [|b l IH]; intros a; cbn [fold_left]; [split; [now left|]; intros r [<-|[]]; lra|]. destruct (IH (Rmax a b)) as [I U]. split.
  - destruct I as [I|I]; [|right; now right]. rewrite <- I. unfold Rmax. destruct (Rle_dec a b); [right; now left|now left].
  - intros r [<-|[<-|Hr]]; [|  |apply U; now right]; (eapply Rle_trans; [|apply U; now left]); [apply Rmax_l|apply Rmax_r].
Qed.
Lemma reach_ok radii size m : 0 < size -> reach radii size m -> max_pixels radii size = Some (Z.of_nat m).
Proof.
  intros Hs (M & I & U & B). unfold max_pixels. destruct (Req_EM_T size 0); [lra|]. destruct radii as [|a radii]; [destruct I|]. cbn [map rmax_list bind].
  destruct (fold_max (map (fun r => r / size) radii) (a / size)) as [F G]. set (X := fold_left _ _ _) in *. f_equal.
  assert (E : X = M / size).
  { apply Rle_antisym.
    - change (a / size :: map (fun r => r / size) radii) with (map (fun r => r / size) (a :: radii)) in F. apply in_map_iff in F as (r & <- & Ir). unfold Rdiv. apply Rmult_le_compat_r; [apply Rlt_le, Rinv_0_lt_compat, Hs|now apply U].
    - apply G. change (a / size :: map (fun r => r / size) radii) with (map (fun r => r / size) (a :: radii)). apply in_map_iff. eauto. }
  rewrite E. assert (Q : INR m - 1 / 2 <= M / size < INR m + 1 / 2).
  { assert (E2 : M / size * size = M) by (field; lra). split; [apply (Rmult_le_reg_r size)|apply (Rmult_lt_reg_r size)]; try exact Hs; rewrite E2; lra. }
  pose proof (pos_INR m). unfold trunc. destruct (Rlt_dec (M / size + 1 / 2) 0); [lra|]. rewrite INR_IZR_INZ in Q, H.
  pose proof (base_Int_part (M / size + 1 / 2)) as [B1 B2].
  apply Z.le_antisymm; apply Z.lt_succ_r; apply lt_IZR; unfold Z.succ; rewrite plus_IZR; lra.
Qed.
