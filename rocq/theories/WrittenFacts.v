(* The XML and IRIT writers write down every number of the splines. *)
From Coq Require Import ZArith Ascii String List Bool Lia Reals Lra.
From Verif Require Import Base BaseFacts MultiIndex MultiIndexSpec MultiIndexFacts TensorSum KnotVec KnotVecSpec Spaces SpacesSpec SpacesFacts SplineEval SplineSpec SplineNew EvalFacts
  StrSpec StrOps StrFacts StrThms StrNum StrDelim Convert ConvertFacts VtkSpec VtkFacts Format FormatSpec FormatFacts Irit IritFacts IritRead IritFile Rebuild Xml XmlFacts
  XmlReadSpec IgesReadSpec IgesReadFacts IritDocSpec IritDocFacts WrittenSpec.
Import ListNotations.
Open Scope Z_scope.

Section Pick.
Variables (fmt : R -> list ascii) (tol : R).
Lemma pick_one x : prints fmt tol x -> exists n, fmt x = show_numeral n /\ near_numeral tol x n.
Proof. intros (n & E & A & B & C). exists n. split; [exact E|]. split; [split; auto | exact C]. Qed.
Lemma pick_list l : Forall (prints fmt tol) l -> exists ns, map fmt l = map show_numeral ns /\ Forall2 (near_numeral tol) l ns.
Proof.
  induction 1 as [|x l Hx _ (ns & E & G)]; [exists []; split; [reflexivity|constructor]|].
  destruct (pick_one x Hx) as (n & En & Gn). exists (n :: ns). cbn [map]. split; [now rewrite En, E | now constructor].
Qed.
Lemma pick_lists {A} (f : A -> list R) (l : list A) : (forall a, In a l -> Forall (prints fmt tol) (f a)) ->
  exists rows, map (fun a => map fmt (f a)) l = map (map show_numeral) rows /\ Forall2 (fun a r => Forall2 (near_numeral tol) (f a) r) l rows.
Proof.
  induction l as [|a l IH]; intros H; [exists []; split; [reflexivity|constructor]|].
  destruct (pick_list (f a) (H a (or_introl eq_refl))) as (r & Er & Gr). destruct IH as (rows & E & G); [intros b Hb; apply H; now right|].
  exists (r :: rows). cbn [map]. split; [now rewrite Er, E | now constructor].
Qed.
End Pick.

Section Xml.
Context {dz : R -> R}.
Notation F := (Rops dz).
Variable fmt : R -> str.
Variable tol : R.
Implicit Types s : spline F.

Lemma names_text dim : 1 <= dim <= 4 -> text_of_words (xml_names dim) (variable_names dim) /\ zlen (variable_names dim) = dim.
Proof.
  intros H. assert (dim = 1 \/ dim = 2 \/ dim = 3 \/ dim = 4) as [-> |[-> |[-> | ->]]] by lia; (split; [|reflexivity]); unfold text_of_words;
    match goal with |- pieces _ ?t ?ws => replace ws with (split t " ") by (vm_compute; reflexivity) end; apply split_pieces.
Qed.
Lemma xml_written d (o : any (spline F)) s : xml_ready fmt tol d o s -> ph_dim (sp_ph s) <= 4 ->
  exists x, writes_down (entry_of fmt d s) x /\ written_as tol s (coordinate s) x /\ so_names x = variable_names (ph_dim (sp_ph s)).
Proof.
  intros H Hd. pose proof (xr_wf _ _ _ _ _ H) as Hwf. pose proof (wf_dim s Hwf) as D. pose proof (xr_prints _ _ _ _ _ H) as [P1 P2 P3].
  destruct (gap_xnl 4) as [G4 G4']. destruct (gap_xnl 6) as [G6 G6']. destruct (gap_xnl 8) as [G8 G8']. destruct gap_two as [G2 G2'].
  destruct (pick_lists fmt tol (fun kv => kv) (knots_of s)) as (kn & Ek & Gk). { intros kv Hk. rewrite Forall_forall in P1. now apply P1. }
  destruct (pick_lists fmt tol (fun idx => map (coordinate s idx) (zseq 0 (Z.to_nat (ph_dim (sp_ph s))))) (grid (npts_of s))) as (rows & Er & Gr).
  { intros idx Hi. apply grid_In in Hi. now apply (xml_coords fmt tol d o). }
  assert (W : exists ws, match ph_wts (sp_ph s), ws with
     | None, None => True
     | Some _, Some ns => map fmt (map (weight s) (grid (npts_of s))) = map show_numeral ns /\ Forall2 (near_numeral tol) (map (weight s) (grid (npts_of s))) ns
     | _, _ => False end).
  { destruct (ph_wts (sp_ph s)) as [w|] eqn:Ew; [|exists None; exact I].
    destruct (pick_list fmt tol (map (weight s) (grid (npts_of s)))) as (ns & E & G); [|exists (Some ns); auto].
    rewrite Forall_map. apply Forall_forall. intros idx Hi. apply grid_In in Hi. now apply (xml_weight fmt tol d o s H idx w). }
  destruct W as (ws & W). destruct (names_text (ph_dim (sp_ph s)) ltac:(lia)) as [N1 N2]. destruct (xml_lengths fmt tol d o s H) as [L1 L2].
  assert (Lr : zlen rows = total (npts_of s)).
  { destruct (wf_grid s Hwf) as [Hg _]. unfold zlen in *. rewrite <- (len2 _ _ _ Gr). exact Hg. }
  exists (mkSource (variable_names (ph_dim (sp_ph s))) (ph_dim (sp_ph s)) rows ws (degs_of s) kn). split; [|split; [|reflexivity]].
  - split; cbn [entry_of xe_spl_dim xe_space_dim xe_vars xe_points xe_names xe_values xe_wght xe_deg xe_knots so_degs so_dim so_names so_rows so_weights so_knots].
    + unfold zlen. rewrite L2. pose proof (xr_dim _ _ _ _ _ H). f_equal. lia.
    + reflexivity.
    + now rewrite N2.
    + now rewrite Lr.
    + exact N1.
    + unfold text_of_numbers, text_of_words, value_text. rewrite concat_map, <- Er, <- flat_map_concat_map. apply pieces_rows; auto.
      intros idx Hi. apply grid_In in Hi. apply (fmt_wordy (dz := dz) fmt tol). now apply (xml_coords fmt tol d o).
    + destruct (ph_wts (sp_ph s)) as [w|] eqn:Ew; destruct ws as [ns|]; try contradiction; [|exact I]. destruct W as [W _].
      unfold text_of_numbers, text_of_words, weight_text. rewrite <- W, map_map, <- flat_map_single. apply pieces_rows; auto.
      intros idx Hi. apply grid_In in Hi. apply (fmt_wordy (dz := dz) fmt tol [weight s idx]). constructor; [|constructor]. now apply (xml_weight fmt tol d o s H idx w).
    + unfold text_of_words, deg_text. apply pieces_before; auto. unfold wordy. rewrite Forall_map. eapply Forall_impl; [|exact (xml_degs fmt tol d o s H)].
      intros q Hq. destruct (int_plain q Hq) as [A B]. split; auto. now apply harmless_no_break.
    + clear Gk L1. revert kn Ek. induction P1 as [|kv l Hk _ IH]; intros kn Ek; destruct kn as [|k kn]; try discriminate; cbn [map]; constructor.
      * unfold text_of_numbers, text_of_words, knot_text. injection Ek as E1 E2. rewrite <- E1. apply pieces_before; auto. now apply (fmt_wordy (dz := dz) fmt tol).
      * apply IH. injection Ek as E1 E2. exact E2.
  - split; cbn [so_degs so_dim so_rows so_weights so_knots]; auto. destruct (ph_wts (sp_ph s)), ws; try contradiction; tauto.
Qed.
Lemma xml_document_written (os : list (any (spline F))) (ss : list (spline F)) : Forall2 (fun o s => exists d, xml_ready fmt tol d o s) os ss ->
  Forall (fun s => ph_dim (sp_ph s) <= 4) ss ->
  exists doc, write_xml (F := F) fmt os = Ok doc /\
    Forall2 (fun s e => exists x, writes_down e x /\ written_as tol s (coordinate s) x /\ so_names x = variable_names (ph_dim (sp_ph s))) ss doc.
Proof.
  intros H Hs.
  assert (G : forall a, exists es, foldM (fun doc spl => d <- get_dimension spl ;; if (1 <=? d) && (d <=? 4) then e <- xml_spline (F := F) fmt d spl ;; Ok (doc ++ [e]) else Ok doc) os a = Ok (a ++ es) /\
     Forall2 (fun s e => exists x, writes_down e x /\ written_as tol s (coordinate s) x /\ so_names x = variable_names (ph_dim (sp_ph s))) ss es).
  { induction H as [|o s os ss (d & Hd) H IH]; intros a.
    - exists []. cbn [foldM]. rewrite !app_nil_r. split; constructor.
    - inversion Hs as [|? ? Hs1 Hs2]; subst. destruct (IH Hs2 (a ++ [entry_of fmt d s])) as (es & E1 & F1).
      exists (entry_of fmt d s :: es). pose proof (xr_dim _ _ _ _ _ Hd) as D.
      assert (Ed : ((1 <=? d) && (d <=? 4))%bool = true) by (apply andb_true_iff; split; apply Z.leb_le; lia).
      split.
      + cbn [foldM]. rewrite (xml_dimension fmt tol d o s Hd). cbn [bind]. rewrite Ed. rewrite (write_entry fmt tol d o s Hd). cbn [bind]. rewrite E1. now rewrite <- app_assoc.
      + constructor; auto. now apply (xml_written d o). }
  destruct (G []) as (es & E1 & F1). exists es. auto.
Qed.
Lemma xml_no_names d (o : any (spline F)) s : xml_ready fmt tol d o s -> 4 < ph_dim (sp_ph s) ->
  exists e, write_xml (F := F) fmt [o] = Ok [e] /\ forall x, ~ writes_down e x.
Proof.
  intros H Hd. exists (entry_of fmt d s). pose proof (xr_dim _ _ _ _ _ H) as D.
  assert (Ed : ((1 <=? d) && (d <=? 4))%bool = true) by (apply andb_true_iff; split; apply Z.leb_le; lia). split.
  - unfold write_xml. cbn [foldM]. rewrite (xml_dimension fmt tol d o s H). cbn [bind]. rewrite Ed. rewrite (write_entry fmt tol d o s H). reflexivity.
  - intros x W. pose proof (wd_names _ _ W) as N. pose proof (wd_vars _ _ W) as V. cbn [entry_of xe_names xe_vars] in N, V.
    unfold xml_names in N. replace (ph_dim (sp_ph s) =? 1) with false in N by (symmetry; apply Z.eqb_neq; lia). replace (ph_dim (sp_ph s) =? 2) with false in N by (symmetry; apply Z.eqb_neq; lia).
    replace (ph_dim (sp_ph s) =? 3) with false in N by (symmetry; apply Z.eqb_neq; lia). replace (ph_dim (sp_ph s) =? 4) with false in N by (symmetry; apply Z.eqb_neq; lia).
    assert (EN : so_names x = []). { apply split_gap in N. symmetry. exact N. }
    rewrite EN in V. change (zlen []) with 0 in V. destruct (xr_size _ _ _ _ _ H) as (_ & _ & Hz).
    pose proof (stoi_int (ph_dim (sp_ph s)) ltac:(lia)) as S1. rewrite V, stoi_int in S1 by lia. injection S1 as S1. lia.
Qed.
End Xml.

(* any text consists of lines, and these of words *)
Lemma lines_exist text : exists ls, text_of_lines text ls.
Proof.
  induction text as [|c t (ls & N & E)]; [exists []; split; [constructor | now left]|]. destruct (ascii_dec c newline) as [-> |Hc].
  - exists ([] :: ls). split; [constructor; auto|]. destruct E as [-> |(ls' & l & -> & Hl & ->)]; [left; reflexivity|]. right. exists ([] :: ls'), l. auto.
  - destruct E as [-> |(ls' & l & -> & Hl & ->)].
    + destruct ls as [|l r].
      * exists [[c]]. split; [repeat constructor; auto|]. right. exists [], [c]. split; [reflexivity|]. split; [discriminate | reflexivity].
      * exists ((c :: l) :: r). inversion N; subst. split; [repeat constructor; auto|]. left. reflexivity.
    + destruct ls' as [|a ls'].
      * exists [c :: l]. inversion N; subst. split; [repeat constructor; auto|]. right. exists [], (c :: l). split; [reflexivity|]. split; [discriminate | reflexivity].
      * exists ((c :: a) :: ls' ++ [l]). inversion N; subst. split; [repeat constructor; auto|]. right. exists ((c :: a) :: ls'), l. auto.
Qed.
Lemma words_exist text : words_of_file text (words [] text).
Proof.
  destruct (lines_exist text) as (ls & T). exists ls. split; [exact T|]. unfold text_of_words. rewrite <- FormatFacts.split_words, (text_lines _ _ T). apply split_pieces.
Qed.
Lemma whole_numeral n : 0 <= n < 2 ^ 31 -> exists m, int_str n = show_numeral m /\ good_numeral m /\ integer m n.
Proof.
  intros H. destruct (int_str_show n H) as (ds & E & A & B & C & D). destruct (int_numeral_ok ds A B D) as (Ho & Hr & Es & Ev).
  exists (int_numeral ds). split; [congruence|]. split; [split; auto|]. unfold integer. now rewrite Ev, C.
Qed.
Lemma whole_numerals l : Forall (fun n => 0 <= n < 2 ^ 31) l -> exists ms, map int_str l = map show_numeral ms /\ Forall good_numeral ms /\ Forall2 integer ms l.
Proof.
  induction 1 as [|n l Hn _ (ms & E & G & I)]; [exists []; repeat split; constructor|]. destruct (whole_numeral n Hn) as (m & Em & Gm & Im).
  exists (m :: ms). cbn [map]. split; [now rewrite Em, E|]. split; now constructor.
Qed.

Section Irit.
Context {dz : R -> R}.
Notation F := (Rops dz).
Variable fmt : R -> str.
Variable tol : R.
Implicit Types s : spline F.

Definition object_texts s : list str :=
  [irit_kind (zlen (degs_of s)); of_string "BSPLINE"] ++ map int_str (npts_of s) ++ map int_str (map (fun q => q + 1) (degs_of s)) ++
  [irit_point_type (is_nurbs s) (ph_dim (sp_ph s))] ++ knot_words fmt s ++ point_words fmt s.
Lemma spline_object s k : spline_words fmt s k = [of_string "[OBJECT"; of_string "SPLINE" ++ int_str (k + 1)] ++ object_texts s ++ [bracket].
Proof. unfold spline_words, header_words, object_texts. repeat rewrite <- app_assoc. reflexivity. Qed.
Lemma last_bracket ss : forall k, ss <> [] -> exists a w, concat (map (fun c => spline_words fmt (snd c) (fst c) ++ [bracket]) (IritFile.numbered k ss)) = a ++ [w] /\
  a ++ [w ++ bracket] = numbered_objects k (map object_texts ss).
Proof.
  induction ss as [|s ss IH]; intros k Hne; [contradiction|]. cbn [IritFile.numbered map concat fst snd]. rewrite spline_object. destruct ss as [|s' ss].
  - cbn [IritFile.numbered map concat numbered_objects]. rewrite app_nil_r. eexists _, bracket. split; [reflexivity|].
    repeat rewrite <- app_assoc. reflexivity.
  - destruct (IH (k + 1) ltac:(discriminate)) as (a & w & E1 & E2).
    match goal with |- context [?p ++ concat _] => exists (p ++ a), w end. rewrite E1. split; [apply app_assoc|].
    transitivity ([of_string "[OBJECT"; of_string "SPLINE" ++ int_str (k + 1)] ++ object_texts s ++ [of_string "]"; of_string "]"] ++ numbered_objects (k + 1) (map object_texts (s' :: ss))); [|reflexivity].
    rewrite <- E2. repeat rewrite <- app_assoc. reflexivity.
Qed.

Lemma irit_written d (o : any (spline F)) s : irit_ready fmt tol d o s -> exists x, object_words x (object_texts s) /\ written_as tol s (weighted s) x.
Proof.
  intros H. pose proof (ir_wf _ _ _ _ _ H) as Hwf. pose proof (wf_dim s Hwf) as D. destruct (ready_ranges fmt tol d o s H) as (R1 & R2 & _). destruct (ready_lengths fmt tol d o s H) as (L1 & L2 & L3).
  pose proof (ir_prints _ _ _ _ _ H) as [P1 P2 P3]. pose proof (ir_dim _ _ _ _ _ H) as Hd.
  destruct (whole_numerals (npts_of s)) as (sizes & E1 & G1 & I1). { eapply Forall_impl; [|exact R1]. cbv beta. lia. }
  destruct (whole_numerals (map (fun q => q + 1) (degs_of s))) as (orders & E2 & G2 & I2). { rewrite Forall_map. eapply Forall_impl; [|exact R2]. cbv beta. lia. }
  destruct (pick_lists fmt tol (fun kv => kv) (knots_of s)) as (kn & Ek & Gk). { intros kv Hk. rewrite Forall_forall in P1. now apply P1. }
  destruct (pick_lists fmt tol (fun idx => map (weighted s idx) (zseq 0 (Z.to_nat (ph_dim (sp_ph s))))) (grid (npts_of s))) as (rows & Er & Gr).
  { intros idx Hi. apply grid_In in Hi. rewrite Forall_map. apply Forall_forall. intros c Hc. apply zseq_In in Hc. apply P3; [now apply all_indices_box | lia]. }
  assert (W : exists ws, match ph_wts (sp_ph s), ws with
     | None, None => True
     | Some _, Some ns => map (fun idx => fmt (weight s idx)) (grid (npts_of s)) = map show_numeral ns /\ Forall2 (near_numeral tol) (map (weight s) (grid (npts_of s))) ns
     | _, _ => False end).
  { destruct (ph_wts (sp_ph s)) as [w|] eqn:Ew; [|exists None; exact I].
    destruct (pick_list fmt tol (map (weight s) (grid (npts_of s)))) as (ns & E & G); [|exists (Some ns); rewrite map_map in E; auto].
    rewrite Forall_map. apply Forall_forall. intros idx Hi. apply grid_In in Hi. pose proof (P2 w eq_refl) as Hw. rewrite Forall_forall in Hw. unfold weight. rewrite Ew. apply Hw. apply nth_In.
    pose proof (wf_wts s Hwf w Ew) as El. rewrite position_get1d. pose proof (get1d_range _ _ Hi). unfold zlen in El. unfold npts_of in *. rnorm. lia. }
  destruct W as (ws & W).
  set (x := mkSource [] (ph_dim (sp_ph s)) rows ws (degs_of s) kn).
  assert (EZ : sizes_of x = npts_of s).
  { unfold sizes_of. subst x. cbn [so_knots so_degs]. rewrite (wf_npts s Hwf). clear - Gk. revert Gk. generalize (degs_of s) as ds. generalize (knots_of s) as ks. intros ks ds Gk. revert ds.
    induction Gk as [|kv k l1 l2 Hk _ IH]; intros ds; destruct ds as [|p ds]; cbn [map2]; auto. rewrite IH. f_equal. unfold zlen. now rewrite (len2 _ _ _ Hk). }
  exists x. split.
  - exists (irit_kind (zlen (degs_of s))), sizes, orders. rewrite EZ. subst x. unfold object_texts, point_type, tuples. cbn [so_knots so_degs so_weights so_dim so_rows].
    split; [|split; [|split; [exact G1 | split; [exact G2 | split; [exact I1 | exact I2]]]]].
    2: { assert (zlen (degs_of s) = 1 \/ zlen (degs_of s) = 2 \/ zlen (degs_of s) = 3) as [-> |[-> | ->]] by (unfold zlen; lia); unfold kind_of; tauto. }
    rewrite E1, E2. f_equal. f_equal. f_equal. f_equal.
    + unfold irit_point_type, is_nurbs. destruct (ph_wts (sp_ph s)), ws; try contradiction; reflexivity.
    + f_equal.
      * unfold knot_words. rewrite flat_map_concat_map. f_equal.
        transitivity (map (fun t => of_string "[KV" :: closed t) (map (fun kv => map fmt kv) (knots_of s))); [now rewrite map_map|].
        transitivity (map (fun t => of_string "[KV" :: closed t) (map (map show_numeral) kn)); [|now rewrite map_map]. exact (f_equal (map (fun t => of_string "[KV" :: closed t)) Ek).
      * unfold point_words. rewrite flat_map_concat_map. f_equal. unfold row_texts.
        destruct (ph_wts (sp_ph s)) as [w|] eqn:Ew; destruct ws as [ns|]; try contradiction.
        -- destruct W as [W _]. clear - W Er. revert ns rows W Er. generalize (grid (npts_of s)) as g. induction g as [|idx g IH]; intros ns rows W Er; destruct ns as [|n ns], rows as [|r rows]; try discriminate; [reflexivity|].
           cbn [map map2] in *. injection W as W1 W2. injection Er as Er1 Er2. rewrite map_map in Er1. cbn [app]. rewrite W1. f_equal; [|now apply IH].
           rewrite <- Er1. reflexivity.
        -- cbn [app]. transitivity (map opened (map (fun idx => map fmt (map (weighted s idx) (zseq 0 (Z.to_nat (ph_dim (sp_ph s)))))) (grid (npts_of s)))).
           { rewrite map_map. apply map_ext. intros idx. now rewrite map_map. }
           transitivity (map opened (map (map show_numeral) rows)); [exact (f_equal (map opened) Er) | now rewrite map_map].
  - subst x. split; cbn [so_degs so_dim so_rows so_weights so_knots]; auto. destruct (ph_wts (sp_ph s)), ws; try contradiction; tauto.
Qed.

Lemma irit_document_written (os : list (any (spline F))) (ss : list (spline F)) : Forall2 (fun o s => exists d, irit_ready fmt tol d o s) os ss -> zlen os < 2 ^ 31 - 1 -> ss <> [] ->
  exists text objects, write_irit (F := F) fmt os = Ok text /\ words_of_file text ([of_string "[OBJECT"; of_string "SPLINES"] ++ numbered_objects 0 objects) /\
    Forall2 (fun s ws => exists x, object_words x ws /\ written_as tol s (weighted s) x) ss objects.
Proof.
  intros H Hb Hne. destruct (file_texts fmt tol os ss H 0 (zlen os) ltac:(lia) ltac:(lia) Hb os) as (ts & E & G).
  { intros i Hi. rewrite Z.add_0_l. apply vget_at; [lia|]. rewrite Nat2Z.id. now apply nth_error_nth'. }
  assert (HW : write_irit (F := F) fmt os = Ok (of_string "[OBJECT SPLINES" ++ nl ++ concat ts ++ of_string "]")).
  { unfold write_irit, concatM.
    exact (f_equal (fun m : Res (list str) => bind (bind m (fun t => Ok (concat t))) (fun text => Ok (of_string "[OBJECT SPLINES" ++ nl ++ text ++ of_string "]"))) E). }
  exists (of_string "[OBJECT SPLINES" ++ nl ++ concat ts ++ of_string "]"), (map object_texts ss). split; [exact HW|]. split.
  - destruct (last_bracket ss 0 Hne) as (a & w & EA & EB).
    assert (Hts : ts <> []). { intros ->. inversion G as [G'|]. destruct ss; [contradiction | discriminate]. }
    assert (GC := emits_concat _ _ Hts G). rewrite EA in GC. destruct GC as (l & w' & El & _ & GW). apply app_inj_tail in El. destruct El as [<- <-].
    rewrite <- EB.
    match goal with |- words_of_file ?t ?ws => replace ws with (words [] t); [apply words_exist|] end.
    change (words [] (of_string "[OBJECT SPLINES" ++ nl ++ concat ts ++ of_string "]")) with (of_string "[OBJECT" :: words (of_string "SPLINES") (concat ts ++ of_string "]")).
    rewrite GW. unfold bracket.
    assert (EWW : words w (of_string "]") = [w ++ of_string "]"]). { change (words w (of_string "]")) with (flush (w ++ of_string "]")). apply flush_some. intros X. apply app_eq_nil in X. destruct X; discriminate. }
    rewrite EWW. reflexivity.
  - clear - H. induction H as [|o s os ss (d & Hd) _ IH]; cbn [map]; constructor; auto. now apply (irit_written d o).
Qed.
End Irit.
