(* Reading XML documents of any origin. *)
From Coq Require Import ZArith Ascii String List Bool Lia Reals Lra.
From Verif Require Import Base BaseFacts MultiIndex MultiIndexSpec MultiIndexFacts TensorSum KnotVec KnotVecSpec Spaces SpacesSpec SpacesFacts SplineEval SplineSpec SplineNew EvalFacts
  StrSpec StrOps StrFacts StrThms StrNum StrDelim Convert ConvertSpec ConvertFacts VtkSpec VtkFacts Format FormatSpec FormatFacts IritFacts IritRead Rebuild Xml XmlFacts XmlReadSpec.
Import ListNotations.
Open Scope Z_scope.

Lemma find_x_skip before rest i : ~ In (of_string "x") before -> find_x i (before ++ of_string "x" :: rest) = i + zlen before.
Proof.
  revert i. induction before as [|v l IH]; intros i H; cbn [app find_x].
  - cbn. lia.
  - assert (E : (zlen v =? 1) && is_prefix (of_string "x") v = false).
    { apply not_true_iff_false. intros E. apply andb_true_iff in E. destruct E as [E1 E2]. apply Z.eqb_eq in E1.
      apply is_prefix_spec in E2. destruct E2 as [r E2]. apply H. left. subst v. unfold zlen in E1. rewrite app_length in E1. cbn in E1.
      destruct r; [reflexivity | cbn in E1; lia]. }
    rewrite E, IH by (intros X; apply H; now right). unfold zlen. cbn [List.length]. lia.
Qed.
Lemma find_x_none vars i : ~ In (of_string "x") vars -> find_x i vars = 0.
Proof.
  revert i. induction vars as [|v l IH]; intros i H; cbn [find_x]; [reflexivity|].
  assert (E : (zlen v =? 1) && is_prefix (of_string "x") v = false).
  { apply not_true_iff_false. intros E. apply andb_true_iff in E. destruct E as [E1 E2]. apply Z.eqb_eq in E1.
    apply is_prefix_spec in E2. destruct E2 as [r E2]. apply H. left. subst v. unfold zlen in E1. rewrite app_length in E1. cbn in E1.
    destruct r; [reflexivity | cbn in E1; lia]. }
  rewrite E. apply IH. intros X; apply H; now right.
Qed.
Lemma find_first names first : first_coordinate names first -> find_x 0 names = first.
Proof.
  intros [(b & a & -> & H & <-)|(H & ->)]; [now rewrite find_x_skip | now apply find_x_none].
Qed.
Lemma split_words t ws : text_of_words t ws -> split t " " = ws.
Proof. apply split_unique. Qed.

Section Real.
Context {dz : R -> R}.
Notation F := (Rops dz).
Implicit Types s : spline F.

Lemma numbers_read t ns : text_of_numbers t ns -> Forall good_numeral ns -> to_numbers (F := F) (split t " ") = Ok (map numeral_value ns).
Proof.
  intros H G. rewrite (split_words _ _ H). unfold to_numbers. clear H. induction G as [|n ns (A & B) G IH]; [reflexivity|].
  cbn [map mapM]. rewrite (read_readable dz n A B). cbn [bind]. exact (f_equal (fun m : Res (list R) => bind m _) IH).
Qed.

Definition point_of (dim first : Z) (r : list numeral) : list R :=
  map (fun c => nth (Z.to_nat c) (map numeral_value r) 0%R) (zseq first (Z.to_nat dim)).

Section One.
Variables (e : xml_entry) (x : source) (first : Z).
Hypotheses (W : writes_down e x) (D : describes x first).

Lemma first_nonneg : 0 <= first.
Proof. destruct (de_first _ _ D) as [(b & a & _ & _ & <-)|(_ & ->)]; unfold zlen; lia. Qed.

Lemma points_read : xml_get_points (F := F) e = Ok (map (point_of (so_dim x) first) (so_rows x)).
Proof.
  pose proof first_nonneg as H0. destruct (de_small _ _ D) as (S1 & S2 & _). pose proof (de_dim _ _ D) as S3. pose proof (de_fits _ _ D) as S4.
  unfold xml_get_points. rewrite (wd_dim _ _ W), (wd_vars _ _ W), (wd_points _ _ W).
  rewrite (split_words _ _ (wd_names _ _ W)), (find_first _ _ (de_first _ _ D)).
  assert (EV : to_numbers (F := F) (split (xe_values e) " ") = Ok (map numeral_value (concat (so_rows x)))).
  { apply numbers_read; [apply W|]. apply Forall_concat, D. }
  rewrite !stoi_int by (unfold zlen in *; lia).
  match goal with |- bind _ ?k = _ => transitivity (bind (Ok (map numeral_value (concat (so_rows x)))) k); [exact (f_equal (fun m : Res (list R) => bind m k) EV)|] end. cbn [bind].
  set (pts := map (map numeral_value) (so_rows x)).
  replace (map numeral_value (concat (so_rows x))) with (concat pts) by (unfold pts; now rewrite concat_map).
  assert (Lr : Forall (fun cp => zlen cp = zlen (so_names x)) pts).
  { unfold pts. rewrite Forall_map. eapply Forall_impl; [|exact (de_rows _ _ D)]. intros r. cbn beta. unfold zlen. now rewrite map_length. }
  assert (Lp : zlen pts = zlen (so_rows x)) by (unfold pts, zlen; now rewrite map_length).
  assert (Lc := concat_zlen pts _ Lr).
  rewrite (mapM_ok _ (fun i => point_of (so_dim x) first (nth (Z.to_nat i) (so_rows x) []))).
  - f_equal. unfold zlen. rewrite Nat2Z.id. exact (map_nth_zseq (point_of (so_dim x) first) (so_rows x) []).
  - intros i Hi. apply zseq_In in Hi. unfold point_of. apply (mapM_ok (B := R)). intros j Hj. apply zseq_In in Hj.
    assert (Ei : map numeral_value (nth (Z.to_nat i) (so_rows x) []) = nth (Z.to_nat i) pts []) by (unfold pts; exact (eq_sym (map_nth (map numeral_value) (so_rows x) [] _))).
    rewrite Ei. rewrite <- (concat_nth pts (zlen (so_names x)) i j Lr) by lia.
    replace (i * zlen (so_names x) + j) with (zlen (so_names x) * i + j) by lia.
    apply (vget_nth (A := R)). rnorm. rewrite Lc, Lp. nia.
Qed.

Lemma degs_range : Forall (fun p => 0 <= p < 2 ^ 31) (so_degs x).
Proof.
  destruct (de_small _ _ D) as (_ & _ & H). pose proof (de_dirs _ _ D) as G. revert H.
  induction G as [|kv p l1 l2 (A & _) G IH]; intros H; constructor; inversion H; subst; auto.
Qed.
Lemma dirs_count : List.length (so_knots x) = List.length (so_degs x).
Proof. exact (len2 _ _ _ (de_dirs _ _ D)). Qed.
Lemma degs_read : xml_get_degrees (zlen (so_degs x)) e = Ok (so_degs x).
Proof.
  pose proof degs_range as G. unfold xml_get_degrees. rewrite (split_words _ _ (wd_degs _ _ W)).
  rewrite (mapM_ok _ (fun i => nth (Z.to_nat i) (so_degs x) 0)).
  - f_equal. unfold zlen. rewrite Nat2Z.id. etransitivity; [exact (map_nth_zseq (fun q => q) (so_degs x) 0) | apply map_id].
  - intros i Hi. apply zseq_In in Hi. unfold zlen in Hi. rewrite (vget_nth (A := str) (map int_str (so_degs x)) i []) by (unfold zlen; rewrite map_length; lia). cbn [bind].
    rewrite (nth_map_in _ _ _ 0) by lia. apply stoi_int. rewrite Forall_forall in G. apply G. apply nth_In. lia.
Qed.
Lemma knots_read : xml_get_knots (F := F) (zlen (so_degs x)) e = Ok (map (map numeral_value) (so_knots x)).
Proof.
  pose proof dirs_count as L. unfold xml_get_knots. rewrite (mapM_ok _ (fun i => map numeral_value (nth (Z.to_nat i) (so_knots x) []))).
  - f_equal. unfold zlen. rewrite Nat2Z.id, <- L. exact (map_nth_zseq (map numeral_value) (so_knots x) []).
  - intros i Hi. apply zseq_In in Hi. unfold zlen in Hi.
    pose proof (wd_knots _ _ W) as K. pose proof (len2 _ _ _ K) as LK.
    apply numbers_read.
    + assert (Hn : (Z.to_nat i < List.length (xe_knots e))%nat) by (eapply Nat.lt_le_trans; [|exact (Nat.eq_le_incl _ _ (eq_sym LK))]; lia). revert Hn. generalize (Z.to_nat i) as n. clear - K.
      induction K as [|a b l1 l2 H K IH]; intros n Hn; [cbn in Hn; lia|]. destruct n; cbn [nth]; auto. apply IH. cbn in Hn. lia.
    + pose proof (de_knots _ _ D) as G. rewrite Forall_forall in G. apply G. apply nth_In. lia.
Qed.

Definition made : spline F :=
  mkSpline (F := F) (mkps dz (map (map numeral_value) (so_knots x)) (so_degs x))
    (mkPhys (F := F) (so_dim x) (map2 (fun kv p => zlen kv - p - 1) (map (map numeral_value) (so_knots x)) (so_degs x))
       (concat (map (point_of (so_dim x) first) (so_rows x))) (option_map (map numeral_value) (so_weights x))).
Definition made_object : any (spline F) := match so_weights x with None => AnyB (zlen (so_degs x)) made | Some _ => AnyN (zlen (so_degs x)) made end.

Lemma count_same : map2 (fun kv p => zlen kv - p - 1) (map (map numeral_value) (so_knots x)) (so_degs x) = map2 (fun ns p => zlen ns - p - 1) (so_knots x) (so_degs x).
Proof.
  generalize (so_knots x) (so_degs x). induction l as [|a l IH]; intros [|b m]; cbn [map map2]; auto. rewrite IH. unfold zlen. now rewrite map_length.
Qed.
Lemma made_ok : spline_new (F := F) (map (map numeral_value) (so_knots x)) (so_degs x) (map (point_of (so_dim x) first) (so_rows x)) (option_map (map numeral_value) (so_weights x)) = Ok made /\ well_formed made.
Proof.
  destruct (de_small _ _ D) as (S1 & S2 & S3).
  apply (spline_new_ok dz).
  - pose proof (de_dirs _ _ D) as G. clear - G. induction G; cbn [map]; constructor; auto.
  - apply D.
  - rewrite Forall_map. apply Forall_forall. intros r _. unfold point_of, zlen. rewrite map_length, zseq_length. pose proof (de_dim _ _ D). lia.
  - rewrite count_same. unfold zlen at 1. rewrite map_length. apply D.
  - unfold zlen. rewrite map_length. unfold zlen in S2. lia.
  - intros w Ew. destruct (so_weights x) as [ns|] eqn:En; [|discriminate]. cbn [option_map] in Ew. injection Ew as <-.
    destruct (de_weights _ _ D ns En) as [L _]. unfold zlen in *. now rewrite !map_length.
Qed.
Lemma made_described : described x first made.
Proof.
  destruct made_ok as [_ Hwf]. split; auto; try reflexivity.
  - intros idx c Hi Hc n0. apply all_indices_box in Hi. pose proof (get1d_range _ _ Hi) as Hr. rewrite <- position_get1d in Hr.
    assert (Et : total (npts_of made) = zlen (so_rows x)) by (unfold made, npts_of; cbn [sp_ph ph_npts]; rewrite count_same; symmetry; apply D).
    unfold coordinate. change (ph_cps (sp_ph made)) with (concat (map (point_of (so_dim x) first) (so_rows x))). change (ph_dim (sp_ph made)) with (so_dim x).
    rewrite (concat_nth (map (point_of (so_dim x) first) (so_rows x)) (so_dim x)); auto.
    + set (k := position (npts_of made) idx) in *. unfold zlen in Et.
      rewrite (nth_map_in _ _ _ []) by lia. set (r := nth (Z.to_nat k) (so_rows x) []).
      assert (Lr : zlen r = zlen (so_names x)) by (pose proof (de_rows _ _ D) as G; rewrite Forall_forall in G; apply G; apply nth_In; lia).
      pose proof first_nonneg as H0. pose proof (de_fits _ _ D) as S4. unfold zlen in *.
      unfold point_of. rewrite (nth_map_in _ _ _ 0) by (rewrite zseq_length; lia). rewrite zseq_nth by lia.
      rewrite (nth_map_in _ _ _ n0) by lia. do 2 f_equal. lia.
    + rewrite Forall_map. apply Forall_forall. intros r _. unfold point_of, zlen. rewrite map_length, zseq_length. pose proof (de_dim _ _ D). lia.
    + rewrite Et in Hr. unfold zlen in *. rewrite map_length. exact Hr.
  - unfold made. cbn [sp_ph ph_wts]. now destruct (so_weights x).
Qed.
Lemma made_holds : holds (zlen (so_degs x)) made_object made.
Proof.
  split; [reflexivity|]. unfold made_object, is_bspline, made. cbn [sp_ph ph_wts]. destruct (so_weights x) as [ns|]; cbn [option_map]; [right | left]; split; eauto.
Qed.
Lemma spline_read : xml_get_spline (F := F) (zlen (so_degs x)) e (map (point_of (so_dim x) first) (so_rows x)) = Ok made_object.
Proof.
  destruct made_ok as [E _]. unfold xml_get_spline. rewrite knots_read. cbn [bind]. rewrite degs_read. cbn [bind].
  pose proof (wd_weights _ _ W) as Hw. unfold made_object. destruct (so_weights x) as [ns|] eqn:En, (xe_wght e) as [t|]; try contradiction.
  - destruct (de_weights _ _ D ns En) as [_ G].
    match goal with |- bind _ ?k = _ => transitivity (bind (Ok (map numeral_value ns)) k); [exact (f_equal (fun m : Res (list R) => bind m k) (numbers_read t ns Hw G))|] end.
    cbn [bind]. exact (f_equal (fun m : Res (spline F) => bind m _) E).
  - exact (f_equal (fun m : Res (spline F) => bind m _) E).
Qed.
End One.

Lemma document_read es xs : Forall2 (fun e x => writes_down e x /\ zlen (so_degs x) < 2 ^ 31 /\ exists first, describes x first) es xs ->
  exists os, read_xml (F := F) es = Ok os /\
    Forall2 (fun x o => exists first s, describes x first /\ holds (zlen (so_degs x)) o s /\ described x first s)
      (filter (fun x => (1 <=? zlen (so_degs x)) && (zlen (so_degs x) <=? 4)) xs) os.
Proof.
  intros H.
  assert (G : forall acc, exists os, foldM (fun acc e => points <- xml_get_points e ;; d <- stoi (xe_spl_dim e) ;; if (1 <=? d) && (d <=? 4) then s <- xml_get_spline (F := F) d e points ;; Ok (acc ++ [s]) else Ok acc) es acc = Ok (acc ++ os) /\
    Forall2 (fun x o => exists first s, describes x first /\ holds (zlen (so_degs x)) o s /\ described x first s)
      (filter (fun x => (1 <=? zlen (so_degs x)) && (zlen (so_degs x) <=? 4)) xs) os).
  { induction H as [|e x es xs (W & Z & first & D) H IH]; intros acc.
    - exists []. cbn [foldM]. rewrite app_nil_r. split; auto. constructor.
    - cbn [foldM filter]. rewrite (points_read e x first W D). cbn [bind]. rewrite (wd_dirs _ _ W), stoi_int by (unfold zlen in *; lia). cbn [bind].
      destruct ((1 <=? zlen (so_degs x)) && (zlen (so_degs x) <=? 4)).
      + rewrite (spline_read e x first W D). cbn [bind]. destruct (IH (acc ++ [made_object x first])) as (os & E & R). exists (made_object x first :: os).
        split; [rewrite E, <- app_assoc; reflexivity|]. constructor; auto. exists first, (made x first). split; auto. split; [apply made_holds | now apply made_described].
      + apply IH. }
  apply (G []).
Qed.
End Real.
