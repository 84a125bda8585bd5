(* A file to convert: the XML document of the reader's examples. *)
From Coq Require Import ZArith Bool Ascii String List Lia Reals Lra.
From Verif Require Import Base BaseFacts StrSpec StrOps StrThms Format FormatFacts FormatSpec MultiIndex Spaces SplineEval SplineSpec EvalFacts Irit IritThms Iges IgesThms Xml XmlThms XmlReadSpec XmlReadThms Vtk VtkSpec Convert ConvertSpec ConvertFacts ConvertThms ConvertFile ConvertFileSpec.
Import ListNotations.
Open Scope Z_scope.

Definition conv_text (n : str) : option str := None.
Definition conv_tree (n : str) : option (list xml_entry) := Some [xml_ent; xml_ent].
Definition conv_input : str := of_string "in.xml".

Lemma extension_dec f n : 5 <= zlen n < 2 ^ 63 -> f <> FError -> get_format n = f -> has_extension f n.
Proof. intros H Hf E. split; [exact H|]. split; [exact Hf|]. now apply format_long. Qed.
Lemma conv_names : has_extension FXml conv_input /\ has_extension FXml (of_string "out.xml") /\ has_extension FIrit (of_string "out.itd") /\ has_extension FVtk (of_string "out.vtk") /\ has_extension FIges (of_string "out.iges").
Proof. repeat split; try discriminate; try (apply format_long; [split; [vm_compute; discriminate | reflexivity] | discriminate | reflexivity]); try reflexivity; vm_compute; discriminate. Qed.
Lemma conv_no_names : long_name (of_string "model.stl") /\ forall f, ~ has_extension f (of_string "model.stl").
Proof.
  assert (L : long_name (of_string "model.stl")) by (split; [vm_compute; discriminate | reflexivity]). split; [exact L|].
  intros f (_ & Hf & H). apply (format_long _ L f Hf) in H. vm_compute in H. congruence.
Qed.

Lemma src_value r k : In r (so_rows xml_src) \/ r = [] -> (Rabs (numeral_value (nth k r (dig 0))) <= 9)%R.
Proof.
  assert (D : forall d, 0 <= d <= 9 -> (Rabs (numeral_value (dig d)) <= 9)%R).
  { intros d H. rewrite dig_value. rewrite Rabs_right by (apply Rle_ge, IZR_le; lia). apply IZR_le. lia. }
  assert (E : (Rabs (numeral_value num_ex) <= 9)%R) by (rewrite (proj2 value_num_ex); apply Rabs_le; lra).
  cbn [so_rows xml_src]. intros [[<- |[<- |[]]] | ->]; do 5 (destruct k as [|k]; [cbn [nth]; first [exact E | apply D; lia]|]); cbn [nth]; try (destruct k; apply D; lia); apply D; lia.
Qed.
Section Ex.
Context {dz : R -> R}.
Notation F := (Rops dz).
Lemma src_spline first (s : spline F) : described xml_src first s -> well_formed s /\ knots_of s = [[0; 0; 1; 1]%R] /\ degs_of s = [1] /\ npts_of s = [2] /\ ph_dim (sp_ph s) = 2 /\ ph_wts (sp_ph s) = Some [1; 2]%R /\
  forall idx c, In idx (all_indices (npts_of s)) -> 0 <= c < 2 -> (Rabs (coordinate s idx c) <= 9)%R.
Proof.
  intros [W D K M P Wt]. assert (K' : knots_of s = [[0; 0; 1; 1]%R]) by (rewrite K; cbn [so_knots xml_src map]; now rewrite !dig_value).
  assert (N : npts_of s = [2]) by (rewrite (wf_npts s W), K', D; reflexivity).
  split; [exact W|]. split; [exact K'|]. split; [exact D|]. split; [exact N|]. split; [exact M|]. split; [cbn [so_weights xml_src map] in Wt; rewrite !dig_value in Wt; exact Wt|].
  intros idx c Hi Hc. rewrite (P idx c Hi Hc (dig 0)). apply src_value. destruct (nth_in_or_default (Z.to_nat (position (npts_of s) idx)) (so_rows xml_src) []); auto.
Qed.
Lemma src_ready first (o : any (spline F)) s : FormatSpec.holds 1 o s -> described xml_src first s ->
  xml_ready fixed6 (1 / 2000000) 1 o s /\ irit_ready fixed6 (1 / 2000000) 1 o s /\ good_job (mkJob o s [3]) /\ iges_ready short6 (1 / 2000000) 1 o s /\ iges_numbers s = 22.
Proof.
  intros Ho Hd. destruct (src_spline first s Hd) as (W & K & D & N & M & Wt & C).
  assert (B : (1000000 <= IZR (2 ^ 1024))%R) by (apply IZR_le; vm_compute; discriminate).
  assert (S : int_sized s) by (split; [rewrite K; repeat constructor | rewrite N, M; split; reflexivity]).
  assert (HK : Forall (Forall (fun x => Rabs x < IZR (2 ^ 1024))%R) (knots_of s)).
  { rewrite K. apply Forall_cons; [|apply Forall_nil]. repeat (apply Forall_cons; [rewrite Rabs_right; lra|]). apply Forall_nil. }
  assert (HW : forall w, ph_wts (sp_ph s) = Some w -> Forall (fun x => Rabs x < IZR (2 ^ 1024))%R w).
  { intros w E. rewrite Wt in E. injection E as <-. repeat (apply Forall_cons; [rewrite Rabs_right; lra|]). apply Forall_nil. }
  assert (Hwt : forall idx, (0 <= weight s idx <= 2)%R).
  { intros idx. unfold weight. rewrite Wt. generalize (Z.to_nat (position (npts_of s) idx)). intros [|[|k]]; cbn [nth]; try lra. destruct k; lra. }
  split; [|split; [|split; [|split]]].
  - apply xml_ready_fixed6; auto; [lia|]. intros idx c Hi Hc. rewrite M in Hc. specialize (C idx c Hi Hc). lra.
  - apply irit_ready_fixed6; auto; [lia|]. intros idx c Hi Hc. rewrite M in Hc. specialize (C idx c Hi Hc).
    assert (Hw2 : (Rabs (weight s idx) <= 2)%R) by (apply Rabs_le; specialize (Hwt idx); lra).
    rewrite Rabs_mult. pose proof (Rabs_pos (coordinate s idx c)). pose proof (Rabs_pos (weight s idx)). nra.
  - split; cbn [object content divisions]; auto.
    + right. destruct Ho as (Ez & [(_ & Hb)|(-> & _)]); [unfold is_bspline in Hb; rewrite Wt in Hb; discriminate|]. rewrite Ez. split; auto.
      exists [1; 2]%R. split; auto. repeat (apply Forall_cons; [lra|]). apply Forall_nil.
    + rewrite D. cbn [List.length]. lia.
    + rewrite D. split; [reflexivity|]. repeat constructor; lia.
  - split; auto; [lia| | |].
    + rewrite K. apply Forall_cons; [|apply Forall_nil]. repeat (apply Forall_cons; [apply short6_prints; rewrite Rabs_right; lra|]). apply Forall_nil.
    + intros idx Hi. apply short6_prints. apply Rabs_def1; specialize (Hwt idx); lra.
    + intros idx c Hi Hc. apply short6_prints. unfold padded. rewrite M. destruct (Z.ltb_spec c 2); [|rewrite Rabs_R0; lra]. specialize (C idx c Hi ltac:(lia)). lra.
  - unfold iges_numbers. rewrite K, N. reflexivity.
Qed.
Lemma conv_example : exists (splines : list (any (spline F))) ss, contains conv_text conv_tree conv_input splines /\ List.length splines = 2%nat /\ Forall is_spline splines /\
  Forall2 (fun o s => is_spline o /\ forall d, spline_dim o d -> ConvertSpec.holds FXml d -> xml_ready fixed6 (1 / 2000000) d o s) splines ss /\
  Forall2 (fun o s => is_spline o /\ forall d, spline_dim o d -> ConvertSpec.holds FIrit d -> irit_ready fixed6 (1 / 2000000) d o s) splines ss /\
  Forall2 (fun o s => is_spline o /\ forall d, spline_dim o d -> ConvertSpec.holds FIges d -> iges_ready short6 (1 / 2000000) 1 o s /\ iges_numbers s <= 22) splines ss /\
  (forall p row, In (p, row) (combine (requested splines [1; 0]) [[3]; [3]]) -> exists j, good_job (dz := dz) j /\ entry_at splines p (object j) /\ divisions j = row).
Proof.
  destruct (xml_document_read dz _ _ xml_source_example) as (os & E & H).
  change (filter _ [xml_src; xml_src]) with [xml_src; xml_src] in H.
  inversion H as [|x1 o1 l1 l2 (f1 & s1 & D1 & Ho1 & Hs1) H1]; subst. inversion H1 as [|x2 o2 l3 l4 (f2 & s2 & D2 & Ho2 & Hs2) H2]; subst. inversion H2; subst.
  change (zlen (so_degs xml_src)) with 1 in *.
  destruct (src_ready f1 o1 s1 Ho1 Hs1) as (A1 & B1 & C1 & G1 & N1). destruct (src_ready f2 o2 s2 Ho2 Hs2) as (A2 & B2 & C2 & G2 & N2).
  assert (G : forall (o : any (spline F)) s, FormatSpec.holds 1 o s -> spline_dim o 1) by (intros o s (_ & [(-> & _)|(-> & _)]); exists s; auto).
  assert (I1 : is_spline o1) by (exists 1; split; [eauto | lia]). assert (I2 : is_spline o2) by (exists 1; split; [eauto | lia]).
  exists [o1; o2], [s1; s2]. split; [|split; [reflexivity|split; [auto|split; [|split; [|split]]]]].
  - eapply contains_xml; [apply conv_names | reflexivity | exact E].
  - constructor; [|constructor; [|constructor]]; (split; [assumption|]); intros d Hd _; [rewrite (spline_dim_unique _ _ _ Hd (G _ _ Ho1)) | rewrite (spline_dim_unique _ _ _ Hd (G _ _ Ho2))]; assumption.
  - constructor; [|constructor; [|constructor]]; (split; [assumption|]); intros d Hd _; [rewrite (spline_dim_unique _ _ _ Hd (G _ _ Ho1)) | rewrite (spline_dim_unique _ _ _ Hd (G _ _ Ho2))]; assumption.
  - constructor; [|constructor; [|constructor]]; (split; [assumption|]); intros d Hd _; (split; [assumption | lia]).
  - cbn [requested combine]. intros p row [X|[X|[]]]; injection X as <- <-; [exists (mkJob o2 s2 [3]) | exists (mkJob o1 s1 [3])]; (split; [assumption|]); (split; [split; [lia | reflexivity] | reflexivity]).
Qed.
End Ex.
