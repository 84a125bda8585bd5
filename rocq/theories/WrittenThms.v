(* Closing lemmas and examples for what the writers write. *)
From Coq Require Import ZArith Ascii String List Bool Lia Reals Lra.
From Verif Require Import Base BaseFacts MultiIndex MultiIndexSpec Spaces SpacesSpec SpacesFacts SplineEval SplineSpec SplineNew KnotVecThms BasisThms EqualThms StrSpec StrOps StrFacts StrNum Convert Format FormatSpec FormatFacts Fixed IritThms Irit
  ConvLogFacts ConvLogThms Xml XmlThms XmlReadSpec IgesReadSpec IritDocSpec Iges IgesFile IgesThms IgesLayoutSpec IgesLayoutThms WrittenSpec WrittenFacts.
Import ListNotations.
Open Scope Z_scope.

Lemma xml_written_ok dz (fmt : R -> list ascii) (tol : R) (os : list (any (spline (Rops dz)))) (ss : list (spline (Rops dz))) :
  Forall2 (fun o s => exists d, xml_ready fmt tol d o s) os ss -> Forall (fun s => ph_dim (sp_ph s) <= 4) ss ->
  exists doc, write_xml (F := Rops dz) fmt os = Ok doc /\
    Forall2 (fun s e => exists x, writes_down e x /\ written_as tol s (coordinate s) x /\ so_names x = variable_names (ph_dim (sp_ph s))) ss doc.
Proof. apply xml_document_written. Qed.
Lemma xml_unnamed dz (fmt : R -> list ascii) (tol : R) d (o : any (spline (Rops dz))) (s : spline (Rops dz)) : xml_ready fmt tol d o s -> 4 < ph_dim (sp_ph s) ->
  exists e, write_xml (F := Rops dz) fmt [o] = Ok [e] /\ forall x, ~ writes_down e x.
Proof. apply xml_no_names. Qed.
Lemma irit_written_ok dz (fmt : R -> list ascii) (tol : R) (os : list (any (spline (Rops dz)))) (ss : list (spline (Rops dz))) :
  Forall2 (fun o s => exists d, irit_ready fmt tol d o s) os ss -> zlen os < 2 ^ 31 - 1 -> ss <> [] ->
  exists text objects, write_irit (F := Rops dz) fmt os = Ok text /\ words_of_file text ([of_string "[OBJECT"; of_string "SPLINES"] ++ numbered_objects 0 objects) /\
    Forall2 (fun s ws => exists x, object_words x ws /\ written_as tol s (weighted s) x) ss objects.
Proof. apply irit_document_written. Qed.

(* a line in five-dimensional space *)
Definition ex_five {dz} : spline (Rops dz) :=
  mkSpline (F := Rops dz) (mkps dz [[0; 0; 1; 1]%R] [1]) (mkPhys (F := Rops dz) 5 [2] [0; 0; 0; 0; 0; 1; 1; 1; 1; 1]%R None).
Lemma ex_five_ready dz : xml_ready (dz := dz) fixed6 (1 / 2000000) 1 (AnyB 1 ex_five) ex_five /\ 4 < ph_dim (sp_ph (ex_five (dz := dz))).
Proof.
  split; [|reflexivity]. assert (B : (1000000 <= IZR (2 ^ 1024))%R) by (apply IZR_le; vm_compute; discriminate).
  destruct (spline_new_ok dz [[0; 0; 1; 1]%R] [1] [[0; 0; 0; 0; 0]; [1; 1; 1; 1; 1]]%R None 5 ex_line_good) as (_ & W); try reflexivity; try lia.
  { repeat constructor. } { discriminate. }
  apply xml_ready_fixed6; auto; try lia.
  - split; [reflexivity | left; split; reflexivity].
  - split; [repeat constructor | split; vm_compute; reflexivity].
  - cbn. repeat constructor; rewrite Rabs_right; lra.
  - discriminate.
  - intros idx c Hi Hc. change (npts_of ex_five) with [2] in Hi. rewrite irit_ex_indices in Hi. change (ph_dim (sp_ph ex_five)) with 5 in Hc.
    assert (Hc' : c = 0 \/ c = 1 \/ c = 2 \/ c = 3 \/ c = 4) by lia. apply Rle_lt_trans with 1%R; [|lra].
    destruct Hi as [<- |[<- |[]]]; destruct Hc' as [-> |[-> |[-> |[-> | ->]]]]; first [change (coordinate ex_five _ _) with 0%R | change (coordinate ex_five _ _) with 1%R]; apply Rabs_le; lra.
Qed.

(* dates *)
Definition date_char (c : ascii) : Prop := (exists d, 0 <= d <= 9 /\ c = ascii_of_nat (48 + Z.to_nat d)) \/ c = "."%char.
Lemma first_h a b s t : ~ In "H"%char a -> ~ In "H"%char b -> a ++ of_string "H" ++ s = b ++ of_string "H" ++ t -> s = t.
Proof.
  revert b. induction a as [|x a IH]; intros b Ha Hb E; destruct b as [|y b].
  - injection E. auto.
  - exfalso. apply Hb. left. cbn in E. injection E. congruence.
  - exfalso. apply Ha. left. cbn in E. injection E. congruence.
  - cbn [app] in E. injection E as E1 E2. apply (IH b); auto; intros I; [apply Ha | apply Hb]; now right.
Qed.
Lemma int_no_h n : ~ In "H"%char (int_str n).
Proof.
  assert (G : Forall (fun c => c <> "H"%char) (int_str n)).
  { unfold int_str. apply Forall_app. split; [destruct (n <? 0); repeat constructor; discriminate|].
    apply (show_chars (digits10 (S (Z.to_nat (Z.log2 (Z.abs n)))) (Z.abs n))); [apply digits_small; lia|]. each_digit. }
  intros I. rewrite Forall_forall in G. exact (G _ I eq_refl).
Qed.
Lemma date_no_h t : Forall date_char t -> ~ In "H"%char t.
Proof.
  intros H I. rewrite Forall_forall in H. destruct (H _ I) as [(d & Hd & E)|E]; [|discriminate]. revert d Hd E. each_digit.
Qed.
Lemma date_twice y mo md h mi se t : Forall date_char t -> hollerith_constant (iges_time y mo md h mi se) <> hollerith_constant t.
Proof.
  intros Ht E. apply first_h in E; try apply int_no_h. apply (date_no_h t Ht). rewrite <- E. unfold iges_time, hollerith. apply in_or_app. right. now left.
Qed.
(* half past nine *)
Lemma date_example : iges_time 126 10 16 9 30 0 = of_string "14H20261116.93000" /\ hollerith_constant (iges_time 126 10 16 9 30 0) = of_string "17H14H20261116.93000" /\
  Forall date_char (of_string "20261116.093000").
Proof.
  split; [vm_compute; reflexivity|]. split; [vm_compute; reflexivity|].
  assert (D : forall d, 0 <= d <= 9 -> date_char (ascii_of_nat (48 + Z.to_nat d))) by (intros d Hd; left; eauto).
  cbn. repeat (apply Forall_cons; [first [right; reflexivity | exact (D 0 ltac:(lia)) | exact (D 1 ltac:(lia)) | exact (D 2 ltac:(lia)) | exact (D 3 ltac:(lia)) | exact (D 6 ltac:(lia)) | exact (D 9 ltac:(lia))]|]). apply Forall_nil.
Qed.
Lemma extent_small dz : exists (s : spline (Rops dz)) idx c h, well_formed s /\ holds 1 (AnyB 1 s) s /\ In idx (all_indices (npts_of s)) /\ 0 <= c < ph_dim (sp_ph s) /\
  iges_highest (F := Rops dz) [AnyB 1 s] = Ok h /\ (h < Rabs (coordinate s idx c))%R.
Proof.
  pose proof (iges_ex_ready dz None I) as H.
  destruct (highest_layout short6 [irit_ex_any None] [irit_ex_line (dz := dz) None]) as (h & E & L).
  { constructor; [|constructor]. now apply (raw_okay short6 1), (ready_raw short6 (1 / 2000000)). }
  exists (irit_ex_line None), [1], 0, h. refine (conj (irit_ex_ok dz None) (conj (gr_holds _ _ _ _ _ H) (conj _ (conj _ (conj E _))))); [change (npts_of _) with [2]; rewrite irit_ex_indices; cbn; auto | cbn; lia|].
  change (coordinate (irit_ex_line None) [1] 0) with (-5)%R. destruct L as (_ & _ & L). assert (h <= 2)%R as Hh.
  { destruct L as [-> |(s & idx & c & [<- |[]] & Hi & Hc & <-)]; [lra|]. change (npts_of (irit_ex_line None)) with [2] in Hi. rewrite irit_ex_indices in Hi. change (ph_dim (sp_ph (irit_ex_line None))) with 2 in Hc.
    assert (Hc' : c = 0 \/ c = 1) by lia. destruct Hi as [<- |[<- |[]]]; destruct Hc' as [-> | ->];
        [change (coordinate _ _ _) with (1/3)%R | change (coordinate _ _ _) with 0%R | change (coordinate _ _ _) with (-5)%R | change (coordinate _ _ _) with 2%R]; lra. }
  rewrite Rabs_left; lra.
Qed.
Lemma ex_two_dim dz : Forall (fun s => ph_dim (sp_ph s) <= 4) [irit_ex_line (dz := dz) None; irit_ex_line (Some (1/3)%R)].
Proof. repeat constructor; discriminate. Qed.
