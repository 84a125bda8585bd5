(* Lemmas about the conversion of files. *)
From Coq Require Import ZArith Bool Ascii String List Lia Reals Lra.
From Verif Require Import Base BaseFacts StrSpec StrOps Format FormatFacts FormatSpec Spaces SplineEval SplineSpec Irit IritThms Iges IgesThms Xml XmlThms Vtk VtkSpec VtkThms Convert ConvertSpec ConvertFacts ConvertThms ConvLogEnd ConvertFile ConvertFileSpec.
Import ListNotations.
Open Scope Z_scope.

Section Thms.
Context {dz : R -> R}.
Notation F := (Rops dz).
Notation obj := (any (spline F)).
Variable text : str -> option str.
Variable tree : str -> option (list xml_entry).
Variables irit_fmt iges_fmt xml_fmt : R -> str.
Variables time1 time2 : str.
Notation conv := (convert_file (F := F) toward_zero text tree irit_fmt iges_fmt xml_fmt time1 time2).
Notation rd := (read_input (F := F) toward_zero text tree).
Notation wr := (write_output (F := F) irit_fmt iges_fmt xml_fmt time1 time2).

Lemma extension_format f n : has_extension f n -> get_format n = f.
Proof. intros (H & Hf & He). now apply format_long. Qed.
Lemma no_extension n : long_name n -> (forall f, ~ has_extension f n) -> get_format n = FError.
Proof.
  intros Hl H. destruct (get_format n) eqn:E; auto; exfalso; eapply H; (split; [exact Hl|]); (split; [|apply (format_long n Hl); [|exact E]]); discriminate.
Qed.
Lemma contains_read n os : contains text tree n os -> rd n = Ok os.
Proof.
  intros H. destruct H as [n t os E Ht Hr|n t os E Ht Hr|n d os E Ht Hr]; unfold read_input; rewrite (extension_format _ _ E); cbn [get_reader bind]; rewrite Ht; cbn [or_throw bind]; exact Hr.
Qed.

Lemma file_converts f input name positions scattering (splines : list obj) : has_extension f name -> contains text tree input splines ->
  Forall is_spline splines -> (f = FVtk -> (List.length (requested splines positions) <= List.length scattering)%nat) ->
  exists written chosen sc,
    kept (writable f splines) (requested splines positions) written /\ Forall2 (entry_at splines) written chosen /\
    (f = FVtk -> kept (fun x => writable f splines (fst x)) (combine (requested splines positions) scattering) (combine written sc) /\
                 List.length sc = List.length written) /\
    conv [] input name positions scattering = (written, o <- wr f name (chosen, sc) ;; Ok (written, o)).
Proof.
  intros Hf Hc Hs Hn. pose proof Hf as (_ & Hne & _). destruct (convert_fresh f splines positions scattering Hs Hne Hn) as (w & ch & sc & E & Hk & He & Hv).
  exists w, ch, sc. split; [exact Hk|]. split; [exact He|]. split; [exact Hv|].
  unfold convert_file. rewrite (contains_read _ _ Hc), (extension_format _ _ Hf), E. reflexivity.
Qed.

Lemma readies f (Q : Z -> obj -> spline F -> Prop) splines ss :
  Forall2 (fun o s => is_spline o /\ forall d, spline_dim o d -> ConvertSpec.holds f d -> Q d o s) splines ss -> Forall is_spline splines.
Proof. intros HR; induction HR as [|o s l m (H & _) HR IH]; constructor; auto. Qed.
Lemma fewer f (splines : list obj) positions w ch : kept (writable f splines) (requested splines positions) w -> Forall2 (entry_at splines) w ch ->
  zlen ch <= zlen (requested splines positions).
Proof.
  intros Hk Hc. pose proof (proj2 (kept_all _ _ _ Hk)). assert (List.length w = List.length ch) by (clear - Hc; induction Hc; cbn [List.length]; auto). unfold zlen in *. lia.
Qed.

Lemma file_to_xml tol input name positions scattering (splines : list obj) ss : has_extension FXml name -> contains text tree input splines ->
  Forall2 (fun o s => is_spline o /\ forall d, spline_dim o d -> ConvertSpec.holds FXml d -> xml_ready xml_fmt tol d o s) splines ss ->
  exists written doc os' ss',
    kept (writable FXml splines) (requested splines positions) written /\
    conv [] input name positions scattering = (written, Ok (written, OTree doc)) /\
    read_xml (F := F) doc = Ok os' /\ Forall2 (fun o' s' => exists d, FormatSpec.holds d o' s') os' ss' /\
    Forall2 (fun p s' => exists s, entry_at ss p s /\ plain_back xml_fmt tol s s') written ss'.
Proof.
  intros Hf Hc HR. destruct (file_converts FXml input name positions scattering splines Hf Hc (readies _ _ _ _ HR)) as (w & ch & sc & Hk & He & _ & E); [discriminate|].
  destruct (choose FXml (xml_ready xml_fmt tol) splines ss w ch HR (proj1 (kept_all _ _ _ Hk)) He) as (sch & S1 & S2).
  destruct (xml_round xml_fmt tol ch sch S2) as (doc & os' & ss' & E1 & E2 & H1 & H2).
  exists w, doc, os', ss'. split; [auto|]. split; [rewrite E; cbn [write_output fst bind]; rewrite E1; reflexivity|]. repeat split; auto. eapply pair_back; eauto.
Qed.
Lemma file_to_irit tol input name positions scattering (splines : list obj) ss : has_extension FIrit name -> contains text tree input splines ->
  zlen (requested splines positions) < 2 ^ 31 - 1 ->
  Forall2 (fun o s => is_spline o /\ forall d, spline_dim o d -> ConvertSpec.holds FIrit d -> irit_ready irit_fmt tol d o s) splines ss ->
  exists written t os' ss',
    kept (writable FIrit splines) (requested splines positions) written /\
    conv [] input name positions scattering = (written, Ok (written, OText t)) /\
    read_irit (F := F) toward_zero t = Ok os' /\ Forall2 (fun o' s' => exists d, FormatSpec.holds d o' s') os' ss' /\
    Forall2 (fun p s' => exists s, entry_at ss p s /\ irit_back irit_fmt tol s s') written ss'.
Proof.
  intros Hf Hc Hn HR. destruct (file_converts FIrit input name positions scattering splines Hf Hc (readies _ _ _ _ HR)) as (w & ch & sc & Hk & He & _ & E); [discriminate|].
  destruct (choose FIrit (irit_ready irit_fmt tol) splines ss w ch HR (proj1 (kept_all _ _ _ Hk)) He) as (sch & S1 & S2).
  pose proof (fewer _ _ _ _ _ Hk He) as L.
  destruct (irit_round irit_fmt tol ch sch S2 ltac:(lia)) as (t & os' & ss' & E1 & E2 & H1 & H2).
  exists w, t, os', ss'. split; [auto|]. split; [rewrite E; cbn [write_output fst bind]; rewrite E1; reflexivity|]. repeat split; auto. eapply pair_back; eauto.
Qed.

Lemma kept_sub {B} (P : B -> Prop) l l' : kept P l l' -> forall x, In x l' -> In x l /\ P x.
Proof. induction 1 as [|x l l' Hx H IH|x l l' Hx H IH]; intros y Hy; [destruct Hy| |]; cbn [In] in *; [destruct Hy as [<-|Hy]; [auto|]|]; destruct (IH y Hy); auto. Qed.
Lemma jobs_of (splines : list obj) w : forall ch sc, Forall2 (entry_at splines) w ch -> List.length sc = List.length w ->
  (forall p row, In (p, row) (combine w sc) -> exists j, good_job (dz := dz) j /\ entry_at splines p (object j) /\ divisions j = row) ->
  exists jobs, Forall good_job jobs /\ Forall2 (fun p j => entry_at splines p (object j)) w jobs /\ ch = map object jobs /\ sc = map divisions jobs.
Proof.
  induction w as [|p w IH]; intros ch sc Hc Hl H; inversion Hc; subst.
  - destruct sc; [|discriminate]. exists []. repeat split; constructor.
  - destruct sc as [|row sc]; [discriminate|]. cbn [combine] in H. cbn [List.length] in Hl.
    match goal with A : Forall2 _ w _ |- _ => destruct (IH _ sc A ltac:(lia)) as (jobs & J1 & J2 & J3 & J4) end; [intros q r Hq; apply H; now right|].
    destruct (H p row (or_introl eq_refl)) as (j & G1 & G2 & G3). exists (j :: jobs). cbn [map]. split; [constructor; auto|]. split; [constructor; auto|]. split; [|congruence].
    f_equal; [|exact J3]. match goal with A : entry_at splines p ?y |- _ => destruct A as (_ & A); destruct G2 as (_ & G2); rewrite A in G2; now injection G2 end.
Qed.
Lemma file_to_vtk input name positions scattering (splines : list obj) : has_extension FVtk name -> contains text tree input splines ->
  Forall is_spline splines -> (List.length (requested splines positions) <= List.length scattering)%nat ->
  (forall p row, In (p, row) (combine (requested splines positions) scattering) -> writable FVtk splines p ->
     exists j, good_job (dz := dz) j /\ entry_at splines p (object j) /\ divisions j = row) ->
  exists written jobs v,
    kept (writable FVtk splines) (requested splines positions) written /\
    kept (fun x => writable FVtk splines (fst x)) (combine (requested splines positions) scattering) (combine written (map divisions jobs)) /\
    Forall good_job jobs /\ Forall2 (fun p j => entry_at splines p (object j)) written jobs /\
    conv [] input name positions scattering = (written, Ok (written, OVtk v)) /\
    vf_rows v = flat_map rows_of jobs /\ vf_cells v = all_cells 0 (map divisions jobs).
Proof.
  intros Hf Hc Hs Hn Hj. destruct (file_converts FVtk input name positions scattering splines Hf Hc Hs (fun _ => Hn)) as (w & ch & sc & Hk & He & Hv & E).
  destruct (Hv eq_refl) as [K L]. clear Hv.
  destruct (jobs_of splines w ch sc He L) as (jobs & J1 & J2 & -> & ->).
  { intros p row Hp. destruct (kept_sub _ _ _ K _ Hp) as [A B]. now apply Hj. }
  destruct (vtk_written jobs J1) as (v & E1 & V1 & _ & V2 & _). exists w, jobs, v. repeat (split; [assumption|]). split; [|auto].
  rewrite E. cbn [write_output fst snd bind]. rewrite E1. reflexivity.
Qed.
Lemma file_to_iges tol most input name positions scattering (splines : list obj) ss : has_extension FIges name -> contains text tree input splines ->
  short_text iges_fmt -> header_text name -> header_text time1 -> header_text time2 ->
  Forall2 (fun o s => is_spline o /\ forall d, spline_dim o d -> ConvertSpec.holds FIges d -> iges_ready iges_fmt tol 1 o s /\ iges_numbers s <= most) splines ss ->
  0 <= most -> zlen (requested splines positions) * most < 2000000 ->
  exists written t os' ss',
    kept (writable FIges splines) (requested splines positions) written /\
    conv [] input name positions scattering = (written, Ok (written, OText t)) /\
    read_iges (F := F) toward_zero t = Ok os' /\ Forall2 (FormatSpec.holds 1) os' ss' /\
    Forall2 (fun p s' => exists s, entry_at ss p s /\ iges_back iges_fmt tol s s') written ss'.
Proof.
  intros Hf Hc T1 T2 T3 T4 HR Hm Hn. destruct (file_converts FIges input name positions scattering splines Hf Hc) as (w & ch & sc & Hk & He & _ & E); [|discriminate|].
  { clear - HR. induction HR as [|o s l m (H & _) HR IH]; constructor; auto. }
  destruct (choose FIges (fun d o s => iges_ready iges_fmt tol 1 o s /\ iges_numbers s <= most) splines ss w ch HR (proj1 (kept_all _ _ _ Hk)) He) as (sch & S1 & S2).
  pose proof (fewer _ _ _ _ _ Hk He) as L.
  assert (S3 : Forall2 (iges_ready iges_fmt tol 1) ch sch /\ fold_right Z.add 0 (map iges_numbers sch) <= zlen ch * most).
  { clear - S2. induction S2 as [|o s l m (d & A & B) S2 (IH1 & IH2)]; [split; [constructor | reflexivity]|]. split; [constructor; auto|]. cbn [map fold_right]. assert (Ez : zlen (o :: l) = zlen l + 1) by (unfold zlen; cbn [List.length]; lia). rewrite Ez. lia. }
  destruct S3 as [S3 S4].
  destruct (iges_round iges_fmt tol name time1 time2 ch sch T1 T2 T3 T4 S3) as (t & os' & ss' & E1 & E2 & H1 & H2); [nia|].
  exists w, t, os', ss'. split; [auto|]. split; [rewrite E; cbn [write_output fst bind]; rewrite E1; reflexivity|]. repeat split; auto. eapply pair_back; eauto.
Qed.

(* ---- failures ---- *)
Lemma unreadable written input name positions scattering : long_name input ->
  ~ has_extension FIges input -> ~ has_extension FIrit input -> ~ has_extension FXml input -> conv written input name positions scattering = (written, Throw RuntimeError).
Proof.
  intros Hl H1 H2 H3. unfold convert_file, read_input.
  destruct (get_format input) eqn:E; cbn [get_reader bind]; auto; exfalso; [apply H1 | apply H2 | apply H3]; (split; [exact Hl|]); (split; [|apply (format_long input Hl); [|exact E]]); discriminate.
Qed.
Lemma missing written input name positions scattering : text input = None -> tree input = None -> conv written input name positions scattering = (written, Throw RuntimeError).
Proof.
  intros H1 H2. unfold convert_file, read_input. destruct (get_format input); cbn [get_reader bind]; rewrite ?H1, ?H2; reflexivity.
Qed.
Lemma unwritable written input name positions scattering (splines : list obj) : long_name name -> (forall f, ~ has_extension f name) -> contains text tree input splines ->
  conv written input name positions scattering = (written, Throw RuntimeError).
Proof. intros Hl H Hc. unfold convert_file. rewrite (contains_read _ _ Hc), (no_extension _ Hl H). reflexivity. Qed.
Lemma not_splines written f input name positions scattering (splines : list obj) : has_extension f name -> contains text tree input splines -> ~ Forall is_spline splines ->
  conv written input name positions scattering = (written, Throw RuntimeError).
Proof.
  intros Hf Hc Hs. unfold convert_file. rewrite (contains_read _ _ Hc). rewrite convert_not_spline by auto. reflexivity.
Qed.
End Thms.
