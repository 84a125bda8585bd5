(* Reading IGES files of any origin. *)
From Coq Require Import ZArith Ascii String List Bool Lia Reals Lra.
From Verif Require Import Base BaseFacts MultiIndex MultiIndexSpec MultiIndexFacts TensorSum KnotVec KnotVecSpec Spaces SpacesSpec SpacesFacts SplineEval SplineSpec SplineNew EvalFacts
  StrSpec StrOps StrFacts StrThms StrNum StrDelim Convert ConvertSpec ConvertFacts VtkSpec VtkFacts Format FormatSpec FormatFacts IritFacts IritRead Rebuild XmlFacts XmlReadSpec XmlReadFacts
  Iges IgesFacts IgesData IgesFile IgesReadSpec.
Import ListNotations.
Open Scope Z_scope.

Lemma mapM_ub {A B} (f : A -> Res B) l : (forall x e, f x <> Throw e) -> Exists (fun x => f x = UB) l -> mapM f l = UB.
Proof.
  intros Hf H. induction l as [|a l IH]; [inversion H|]. cbn [mapM]. destruct (f a) as [b|e|] eqn:E; cbn [bind]; auto.
  - inversion H; subst; [congruence|]. now rewrite IH.
  - exfalso. now apply (Hf a e).
Qed.

(* ---- lines ---- *)
Lemma getlines_last (ls : list str) l : Forall (Forall no_line) ls -> Forall no_line l -> l <> [] -> forall fuel, (List.length ls < fuel)%nat ->
  getlines fuel newline (flat_map (fun l => l ++ [newline]) ls ++ l) = ls ++ [l].
Proof.
  intros H Hl Hne. induction H as [|a ls Ha H IH]; intros fuel Hf; cbn [flat_map List.length app] in *; (destruct fuel as [|f]; [lia|]); rewrite getlines_step.
  - assert (E : until newline l = (l, [])). { clear - Hl. induction Hl as [|c l Hc H IH]; [reflexivity|]. cbn [until]. destruct (Ascii.eqb_spec c newline) as [->|_]; [now destruct Hc|]. now rewrite IH. }
    rewrite E. destruct l; [congruence|]. destruct f; reflexivity.
  - rewrite <- !app_assoc. cbn [app]. rewrite until_line by auto. destruct a as [|c a]; cbn [app]; rewrite IH by lia; reflexivity.
Qed.
Lemma text_lines text ls : text_of_lines text ls -> getlines (List.length text) newline text = ls.
Proof.
  intros (H & [->|(ls' & l & -> & Hne & ->)]).
  - apply getlines_lines; [exact H | apply lines_fuel].
  - apply Forall_app in H as [H1 H2]. inversion H2; subst. apply getlines_last; auto. pose proof (lines_fuel ls') as LF. unfold str in *. rewrite app_length. destruct l; [congruence|]. cbn [List.length]. lia.
Qed.
Lemma step_lines ls : Forall (fun l => 72 <= zlen l) ls -> forall a b, foldM line_step ls (a, b) = Ok (a ++ map (firstn (Z.to_nat 72)) (lines_in "D" ls), b ++ map (firstn (Z.to_nat 64)) (lines_in "P" ls)).
Proof.
  induction 1 as [|l ls Hl H IH]; intros a b; cbn [foldM]; [now rewrite !app_nil_r|]. unfold line_step at 1. unfold char_at. replace ((0 <=? 72) && (72 <=? zlen l)) with true by (symmetry; apply andb_true_iff; rewrite !Z.leb_le; lia).
  cbn [bind]. unfold lines_in. cbn [filter]. change (Z.to_nat 72) with 72%nat at 1. change (Z.to_nat 72) with 72%nat at 1.
  destruct (Ascii.eqb_spec (nth 72 l "000"%char) "D"%char) as [E|E].
  - rewrite E, substr_ok by (unfold zlen; lia). cbn [bind fst snd]. rewrite IH. unfold lines_in. change (Ascii.eqb "D" "P") with false. cbv iota. cbn [map]. rewrite <- app_assoc. reflexivity.
  - destruct (Ascii.eqb_spec (nth 72 l "000"%char) "P"%char) as [E'|E'].
    + rewrite substr_ok by (unfold zlen; lia). cbn [bind fst snd]. rewrite IH. unfold lines_in. cbn [map]. rewrite <- (app_assoc b). reflexivity.
    + apply IH.
Qed.
Lemma lines_read text ls : text_of_lines text ls -> Forall (fun l => 72 <= zlen l) ls ->
  iges_lines text = Ok (map (firstn (Z.to_nat 72)) (lines_in "D" ls), map (firstn (Z.to_nat 64)) (lines_in "P" ls)).
Proof. intros T H. unfold iges_lines. rewrite (text_lines _ _ T). exact (step_lines ls H [] []). Qed.
Lemma step_short ls : Exists (fun l => zlen l < 72) ls -> forall st, foldM line_step ls st = UB.
Proof.
  induction ls as [|l ls IH]; intros H st; [inversion H|]. cbn [foldM]. unfold line_step at 1. unfold char_at.
  destruct (Z.leb_spec 72 (zlen l)) as [L|L]; [|reflexivity]. change (0 <=? 72) with true. cbn [andb bind]. rewrite !substr_ok by (unfold zlen; lia).
  assert (H' : Exists (fun l => zlen l < 72) ls) by (inversion H; subst; auto; lia).
  destruct (Ascii.eqb _ "D"); cbn [bind]; auto. destruct (Ascii.eqb _ "P"); cbn [bind]; auto.
Qed.
Lemma short_line dz text ls : text_of_lines text ls -> Exists (fun l => zlen l < 72) ls -> read_iges (F := Rops dz) toward_zero text = UB.
Proof.
  intros T H. unfold read_iges. assert (E : iges_lines text = UB); [|now rewrite E]. unfold iges_lines. rewrite (text_lines _ _ T). exact (step_short ls H ([], [])).
Qed.

(* ---- fields ---- *)
Lemma columns_cut l a w m : (a + w <= m)%nat -> columns (firstn m l) a w = columns l a w.
Proof. intros H. unfold columns. rewrite skipn_firstn_comm, firstn_firstn. f_equal. lia. Qed.
Lemma shows_trim t n : shows t n -> trim t = int_str n.
Proof.
  intros (Hn & a & b & ->). destruct (int_plain n Hn) as [H Hne]. apply trim_around; auto; apply Forall_forall; intros c Hc; apply repeat_spec in Hc; left; left; exact Hc.
Qed.
Lemma shows_read t n : shows t n -> stoi (trim t) = Ok n /\ stoi (trim (trim t)) = Ok n.
Proof. intros H. rewrite (shows_trim t n H). destruct H as [Hn _]. rewrite trim_int by auto. split; now apply stoi_int. Qed.
Lemma column_substr l a w n : shows (columns l a w) n -> substr l (Z.of_nat a) (Z.of_nat w) = Ok (columns l a w).
Proof.
  intros (Hn & x & y & E). rewrite substr_ok; [unfold columns; now rewrite !Nat2Z.id|].
  destruct (Z_le_gt_dec (Z.of_nat a) (zlen l)) as [L|L]; auto. exfalso. unfold columns in E. rewrite skipn_all2 in E by (unfold zlen in L; lia). rewrite firstn_nil in E.
  destruct (int_plain n Hn) as [_ Hne]. symmetry in E. apply app_eq_nil in E as [_ E]. apply app_eq_nil in E as [E _]. contradiction.
Qed.

Section Real.
Context {dz : R -> R}.
Notation F := (Rops dz).

Lemma data_numbers_read t ns : text_of_data t ns -> zlen t < 2 ^ 63 -> delimited_to_vector (F := F) t = Ok (map numeral_value ns).
Proof.
  intros (es & rest & -> & H & <- & Hr) Hl. rewrite map_map. now apply read_entries.
Qed.

Lemma slice_ub (l : list R) a b : 0 <= a <= b -> zlen l <= b -> slice (F := F) l a b = UB.
Proof.
  intros Ha Hb. unfold slice. apply mapM_ub; [intros i e; apply vget_not_throw|]. apply Exists_exists. exists b. split; [apply zseq_In; lia|]. apply vget_out. unfold zlen in *. rnorm. lia.
Qed.
Lemma slice_cases (l : list R) a b : slice (F := F) l a b = UB \/ exists r, slice (F := F) l a b = Ok r.
Proof.
  unfold slice. generalize (zseq a (Z.to_nat (b + 1 - a))). induction l0 as [|i l' IH]; cbn [mapM]; [eauto|].
  destruct (vget l i) eqn:E; rnorm; rewrite ?E; cbn [bind]; auto; [|now apply vget_not_throw in E]. destruct IH as [E'|(r & E')]; rewrite E'; cbn [bind]; eauto.
Qed.
Lemma triples_more (rows : list (list R)) more b : Forall (fun r => zlen r = 3) rows -> b = 3 * zlen rows -> triples (F := F) (concat rows ++ more) b = Ok rows.
Proof.
  intros H ->. unfold triples. replace (Z.to_nat ((3 * zlen rows + 2) / 3)) with (List.length rows).
  2:{ replace (3 * zlen rows + 2) with (2 + zlen rows * 3) by lia. rewrite Z.div_add by lia. change (2 / 3) with 0. unfold zlen. lia. }
  rewrite (mapM_ok _ (fun k => nth (Z.to_nat k) rows [])).
  - f_equal. etransitivity; [exact (map_nth_zseq (fun q => q) rows []) | apply map_id].
  - intros k Hk. apply zseq_In in Hk.
    assert (E : exists l1 l2, rows = l1 ++ nth (Z.to_nat k) rows [] :: l2 /\ List.length l1 = Z.to_nat k) by (apply nth_split; lia).
    destruct E as (l1 & l2 & E & L). set (r := nth (Z.to_nat k) rows []) in *. rewrite E. rewrite concat_app. cbn [concat].
    rewrite E in H. apply Forall_app in H as [H1 H2]. pose proof (Forall_inv H2) as Hr. cbv beta in Hr. rewrite <- !app_assoc. apply slice_mid.
    + rewrite (concat_zlen _ _ H1). unfold zlen. lia.
    + rnorm. lia.
Qed.

(* ---- the numbers of one entity ---- *)
Lemma points_same (x : source) : so_dim x = 3 -> Forall (fun r => zlen r = 3) (so_rows x) -> map (point_of (so_dim x) 0) (so_rows x) = map (map numeral_value) (so_rows x).
Proof.
  intros E H. apply map_ext_in. intros r Hr. rewrite Forall_forall in H. specialize (H r Hr). rewrite E. unfold point_of. change (Z.to_nat 3) with 3%nat.
  destruct r as [|a [|b [|c [|? ?]]]]; try (unfold zlen in H; cbn in H; lia). reflexivity.
Qed.
Lemma flag_test (p : numeral) : neqb (n := F) (numeral_value p) n1 = true /\ numeral_value p = 1%R \/ neqb (n := F) (numeral_value p) n1 = false /\ numeral_value p <> 1%R.
Proof. cbn. unfold Reqb. destruct (Req_EM_T (numeral_value p) 1); auto. Qed.

Lemma curve_read ns x : curve_data ns x -> describes x 0 -> iges_create1 (F := F) toward_zero (map numeral_value ns) = Ok (made_object x 0).
Proof.
  intros (type & k & m & p1 & p2 & p3 & p4 & kv & ws & rows & o & q & rest & -> & -> & Hk & Hm & Hw & Hf) D.
  pose proof (made_ok (dz := dz) _ _ D) as (EM & _). pose proof (de_rows _ _ D) as HR. pose proof (points_same (spatial rows o [q] [kv]) eq_refl HR) as EP. rewrite EP in EM. clear EP.
  pose proof (de_count _ _ D) as HC. pose proof (de_dirs _ _ D) as HD. pose proof (XmlReadFacts.degs_range _ _ D) as DR. destruct (de_small _ _ D) as (_ & S2 & _).
  cbn [spatial so_names so_rows so_knots so_degs so_weights so_dim map2] in *.
  assert (ET : total [zlen kv - q - 1] = zlen kv - q - 1) by (unfold total; cbn [fold_right fold_left]; lia). rewrite ET in HC. clear ET.
  pose proof (Forall_inv DR) as Dq. cbv beta in Dq.
  assert (Pos : 1 <= zlen rows).
  { inversion HD as [|a b la lb (G1 & G2 & _) _]; subst. rewrite HC. destruct G2 as (G2 & _). unfold zlen in *. rewrite map_length in G2. lia. }
  unfold iges_create1. rewrite !map_app.
  change (zlen [of_string "x"; of_string "y"; of_string "z"]) with 3 in HR.
  set (K := map numeral_value kv) in *. set (W := map numeral_value ws). set (Rr := map numeral_value rest).
  rewrite concat_map. set (rws := map (map numeral_value) rows) in *.
  set (hd := map numeral_value [type; k; m; p1; p2; p3; p4]).
  assert (HL : zlen hd = 7) by reflexivity.
  assert (LK : zlen K = zlen rows + q + 1) by (unfold K, zlen in *; rewrite map_length; lia).
  assert (LW : zlen W = zlen rows) by (unfold W, zlen in *; rewrite map_length; lia).
  assert (LR : zlen rws = zlen rows) by (unfold rws, zlen; now rewrite map_length).
  assert (HR' : Forall (fun r => zlen r = 3) rws) by (unfold rws; rewrite Forall_map; eapply Forall_impl; [|exact HR]; intros r E; unfold zlen in *; now rewrite map_length).
  assert (LC : zlen (concat rws) = 3 * zlen rows) by (rewrite (concat_zlen _ 3 HR'); lia).
  set (n := zlen rows) in *.
  assert (V1 : vget (hd ++ K ++ W ++ concat rws ++ Rr) 1 = Ok (IZR (n - 1))) by (apply vget_head; [lia | cbn; now rewrite Hk]).
  assert (V2 : vget (hd ++ K ++ W ++ concat rws ++ Rr) 2 = Ok (IZR q)) by (apply vget_head; [lia | cbn; now rewrite Hm]).
  assert (V5 : vget (hd ++ K ++ W ++ concat rws ++ Rr) 5 = Ok (numeral_value p3)) by (apply vget_head; [lia | reflexivity]).
  gstep V1. gstep (int_cell (dz := dz) (n - 1) ltac:(lia)). gstep V2. gstep (int_cell (dz := dz) q Dq).
  assert (SK : slice (F := F) (hd ++ K ++ W ++ concat rws ++ Rr) 7 (7 + (n - 1) + q + 1) = Ok K) by (apply slice_mid; [exact HL | lia]).
  gstep SK. clear SK.
  assert (SW : slice (F := F) (hd ++ K ++ W ++ concat rws ++ Rr) (7 + (n - 1) + q + 1 + 1) (7 + (n - 1) + q + 1 + 1 + (n - 1)) = Ok W).
  { rewrite (app_assoc hd K). apply slice_mid; [rewrite zlen_app; lia | lia]. }
  gstep SW. clear SW.
  assert (SC : slice (F := F) (hd ++ K ++ W ++ concat rws ++ Rr) (7 + (n - 1) + q + 1 + 1 + (n - 1) + 1) (7 + (n - 1) + q + 1 + 1 + (n - 1) + 1 + 3 * (n - 1) + 2) = Ok (concat rws)).
  { rewrite (app_assoc hd K), (app_assoc (hd ++ K) W). apply slice_mid; [rewrite !zlen_app; lia | lia]. }
  gstep SC. clear SC.
  assert (ST : triples (F := F) (concat rws) (zlen (concat rws)) = Ok rws) by (apply triples_ok; [exact HR' | lia]).
  gstep ST. gstep V5. unfold made_object. cbn [spatial so_weights so_degs].
  destruct Hf as [(E & ->)|(E & ->)]; (destruct (flag_test p3) as [[-> E']|[-> E']]; [try congruence|try congruence]); cbn [option_map] in *; exact (f_equal (fun m : Res (spline F) => bind m _) EM).
Qed.

Lemma surface_read ns x : surface_data ns x -> describes x 0 -> iges_create2 (F := F) toward_zero (map numeral_value ns) = Ok (made_object x 0).
Proof.
  intros (type & k1 & k2 & m1 & m2 & p1 & p2 & p3 & p4 & p5 & kv1 & kv2 & ws & rows & o & q1 & q2 & rest & -> & -> & Hk1 & Hk2 & Hm1 & Hm2 & Hw & Hf & H2) D.
  pose proof (made_ok (dz := dz) _ _ D) as (EM & _). pose proof (de_rows _ _ D) as HR. pose proof (points_same (spatial rows o [q1; q2] [kv1; kv2]) eq_refl HR) as EP. rewrite EP in EM. clear EP.
  pose proof (de_count _ _ D) as HC. pose proof (de_dirs _ _ D) as HD. pose proof (XmlReadFacts.degs_range _ _ D) as DR. destruct (de_small _ _ D) as (_ & S2 & _).
  cbn [spatial so_names so_rows so_knots so_degs so_weights so_dim map2] in *.
  set (n1 := zlen kv1 - q1 - 1) in *. set (n2 := zlen kv2 - q2 - 1) in *.
  assert (ET : total [n1; n2] = n1 * n2) by (unfold total; cbn [fold_right fold_left]; lia). rewrite ET in HC. clear ET.
  pose proof (Forall_inv DR) as Dq1. pose proof (Forall_inv (Forall_inv_tail DR)) as Dq2. cbv beta in Dq1, Dq2.
  assert (Pos : 1 <= n1 /\ 1 <= n2).
  { inversion HD as [|a b la lb (G1 & G2 & _) HD']; subst. inversion HD' as [|a b la lb (G3 & G4 & _) _]; subst.
    destruct G2 as (G2 & _), G4 as (G4 & _). unfold n1, n2, zlen in *. rewrite map_length in G2, G4. lia. }
  assert (Bn : n1 < 2 ^ 31 /\ n2 < 2 ^ 31) by nia.
  unfold iges_create2. rewrite !map_app.
  change (zlen [of_string "x"; of_string "y"; of_string "z"]) with 3 in HR.
  set (K := map numeral_value kv1) in *. set (K' := map numeral_value kv2) in *. set (W := map numeral_value ws).
  destruct rest as [|ra [|rb rest]]; try (unfold zlen in H2; cbn in H2; lia). change (map numeral_value (ra :: rb :: rest)) with ([numeral_value ra; numeral_value rb] ++ map numeral_value rest).
  set (More := [numeral_value ra; numeral_value rb]). set (Rr := map numeral_value rest).
  rewrite concat_map. set (rws := map (map numeral_value) rows) in *.
  set (hd := map numeral_value [type; k1; k2; m1; m2; p1; p2; p3; p4; p5]).
  assert (HL : zlen hd = 10) by reflexivity. assert (HM : zlen More = 2) by reflexivity.
  assert (LK : zlen K = n1 + q1 + 1) by (unfold K, n1, zlen in *; rewrite map_length; lia).
  assert (LK' : zlen K' = n2 + q2 + 1) by (unfold K', n2, zlen in *; rewrite map_length; lia).
  assert (LW : zlen W = n1 * n2) by (unfold W, zlen in *; rewrite map_length; lia).
  assert (LR : zlen rws = zlen rows) by (unfold rws, zlen; now rewrite map_length).
  assert (HR' : Forall (fun r => zlen r = 3) rws) by (unfold rws; rewrite Forall_map; eapply Forall_impl; [|exact HR]; intros r E; unfold zlen in *; now rewrite map_length).
  assert (LC : zlen (concat rws) = 3 * (n1 * n2)) by (rewrite (concat_zlen _ 3 HR'); lia).
  replace (zlen kv1 - q1 - 2) with (n1 - 1) in Hk1 by (unfold n1; lia). replace (zlen kv2 - q2 - 2) with (n2 - 1) in Hk2 by (unfold n2; lia).
  set (all := hd ++ K ++ K' ++ W ++ concat rws ++ More ++ Rr).
  assert (V1 : vget all 1 = Ok (IZR (n1 - 1))) by (apply vget_head; [lia | cbn; now rewrite Hk1]).
  assert (V2 : vget all 2 = Ok (IZR (n2 - 1))) by (apply vget_head; [lia | cbn; now rewrite Hk2]).
  assert (V3 : vget all 3 = Ok (IZR q1)) by (apply vget_head; [lia | cbn; now rewrite Hm1]).
  assert (V4 : vget all 4 = Ok (IZR q2)) by (apply vget_head; [lia | cbn; now rewrite Hm2]).
  assert (V7 : vget all 7 = Ok (numeral_value p3)) by (apply vget_head; [lia | reflexivity]).
  gstep V1. gstep (int_cell (dz := dz) (n1 - 1) ltac:(lia)). gstep V2. gstep (int_cell (dz := dz) (n2 - 1) ltac:(lia)). gstep V3. gstep (int_cell (dz := dz) q1 Dq1). gstep V4. gstep (int_cell (dz := dz) q2 Dq2).
  assert (EP : (1 + (n1 - 1)) * (1 + (n2 - 1)) = n1 * n2) by (f_equal; lia).
  replace (3 * (1 + (n1 - 1)) * (1 + (n2 - 1))) with (3 * (n1 * n2)) by (rewrite <- EP; ring). rewrite EP.
  set (k01 := 10 + (n1 - 1) + q1 + 1). set (k11 := k01 + 1 + (n2 - 1) + q2 + 1).
  assert (SK : slice (F := F) all 10 k01 = Ok K) by (apply slice_mid; [exact HL | lia]).
  gstep SK. clear SK.
  assert (SK : slice (F := F) all (k01 + 1) k11 = Ok K') by (unfold all; rewrite (app_assoc hd K); apply slice_mid; [rewrite zlen_app; lia | lia]).
  gstep SK. clear SK.
  assert (SW : slice (F := F) all (k11 + 1) (k11 + 1 - 1 + n1 * n2) = Ok W).
  { unfold all. rewrite (app_assoc hd K), (app_assoc (hd ++ K) K'). apply slice_mid; [rewrite !zlen_app; lia | lia]. }
  gstep SW. clear SW.
  assert (SC : slice (F := F) all (k11 + 1 - 1 + n1 * n2 + 1) (k11 + 1 - 1 + n1 * n2 + 1 - 1 + 3 * (n1 * n2) + 2) = Ok (concat rws ++ More)).
  { unfold all. rewrite (app_assoc hd K), (app_assoc (hd ++ K) K'), (app_assoc ((hd ++ K) ++ K') W), (app_assoc (concat rws) More). apply slice_mid; [rewrite !zlen_app; lia | rewrite zlen_app; lia]. }
  gstep SC. clear SC.
  assert (ST : triples (F := F) (concat rws ++ More) (u64 (zlen (concat rws ++ More) - 2)) = Ok rws).
  { apply triples_more; [exact HR'|]. rewrite zlen_app, LC, HM. unfold u64. rewrite Z.mod_small; lia. }
  gstep ST. gstep V7. unfold made_object. cbn [spatial so_weights so_degs].
  destruct Hf as [(E & ->)|(E & ->)]; (destruct (flag_test p3) as [[-> E']|[-> E']]; [try congruence|try congruence]); cbn [option_map] in *; exact (f_equal (fun m : Res (spline F) => bind m _) EM).
Qed.

Lemma curve_few ns : curve_short ns -> iges_create1 (F := F) toward_zero (map numeral_value ns) = UB.
Proof.
  intros (type & k & m & rest & K & M & -> & Hk & Hm & BK & BM & Hs). unfold curve_numbers in Hs.
  unfold iges_create1. set (all := map numeral_value (type :: k :: m :: rest)).
  assert (LA : zlen all = zlen (type :: k :: m :: rest)) by (unfold all, zlen; now rewrite map_length). rewrite <- LA in Hs.
  assert (V1 : vget all 1 = Ok (IZR K)) by (apply (vget_head [numeral_value type; numeral_value k; numeral_value m]); [lia | cbn; now rewrite ?Hk, ?Hm]).
  assert (V2 : vget all 2 = Ok (IZR M)) by (apply (vget_head [numeral_value type; numeral_value k; numeral_value m]); [lia | cbn; now rewrite ?Hk, ?Hm]).
  gstep V1. gstep (int_cell (dz := dz) K BK). gstep V2. gstep (int_cell (dz := dz) M BM).
  destruct (slice_cases all 7 (7 + K + M + 1)) as [E|(r1 & E)]; [exact (f_equal (fun m : Res (list R) => bind m _) E)|]. gstep E.
  destruct (slice_cases all (7 + K + M + 1 + 1) (7 + K + M + 1 + 1 + K)) as [E'|(r2 & E')]; [exact (f_equal (fun m : Res (list R) => bind m _) E')|]. gstep E'.
  assert (E2 : slice (F := F) all (7 + K + M + 1 + 1 + K + 1) (7 + K + M + 1 + 1 + K + 1 + 3 * K + 2) = UB) by (apply slice_ub; lia).
  exact (f_equal (fun m : Res (list R) => bind m _) E2).
Qed.
Lemma surface_few ns : surface_short ns -> iges_create2 (F := F) toward_zero (map numeral_value ns) = UB.
Proof.
  intros (type & k1 & k2 & m1 & m2 & rest & K1 & K2 & M1 & M2 & -> & Hk1 & Hk2 & Hm1 & Hm2 & B1 & B2 & B3 & B4 & Hs). unfold surface_numbers in Hs.
  unfold iges_create2. set (all := map numeral_value (type :: k1 :: k2 :: m1 :: m2 :: rest)).
  assert (LA : zlen all = zlen (type :: k1 :: k2 :: m1 :: m2 :: rest)) by (unfold all, zlen; now rewrite map_length). rewrite <- LA in Hs.
  assert (V1 : vget all 1 = Ok (IZR K1)) by (apply (vget_head [numeral_value type; numeral_value k1; numeral_value k2; numeral_value m1; numeral_value m2]); [lia | cbn; now rewrite ?Hk1, ?Hk2, ?Hm1, ?Hm2]).
  assert (V2 : vget all 2 = Ok (IZR K2)) by (apply (vget_head [numeral_value type; numeral_value k1; numeral_value k2; numeral_value m1; numeral_value m2]); [lia | cbn; now rewrite ?Hk1, ?Hk2, ?Hm1, ?Hm2]).
  assert (V3 : vget all 3 = Ok (IZR M1)) by (apply (vget_head [numeral_value type; numeral_value k1; numeral_value k2; numeral_value m1; numeral_value m2]); [lia | cbn; now rewrite ?Hk1, ?Hk2, ?Hm1, ?Hm2]).
  assert (V4 : vget all 4 = Ok (IZR M2)) by (apply (vget_head [numeral_value type; numeral_value k1; numeral_value k2; numeral_value m1; numeral_value m2]); [lia | cbn; now rewrite ?Hk1, ?Hk2, ?Hm1, ?Hm2]).
  gstep V1. gstep (int_cell (dz := dz) K1 B1). gstep V2. gstep (int_cell (dz := dz) K2 B2). gstep V3. gstep (int_cell (dz := dz) M1 B3). gstep V4. gstep (int_cell (dz := dz) M2 B4).
  set (k01 := 10 + K1 + M1 + 1). set (k11 := k01 + 1 + K2 + M2 + 1). set (w1 := k11 + 1 - 1 + (1 + K1) * (1 + K2)).
  destruct (slice_cases all 10 k01) as [E|(r1 & E)]; [exact (f_equal (fun m : Res (list R) => bind m _) E)|]. gstep E.
  destruct (slice_cases all (k01 + 1) k11) as [E'|(r2 & E')]; [exact (f_equal (fun m : Res (list R) => bind m _) E')|]. gstep E'.
  destruct (slice_cases all (k11 + 1) w1) as [E2|(r3 & E2)]; [exact (f_equal (fun m : Res (list R) => bind m _) E2)|]. gstep E2.
  assert (0 <= K1 * K2) by nia.
  assert (E3 : slice (F := F) all (w1 + 1) (w1 + 1 - 1 + 3 * (1 + K1) * (1 + K2) + 2) = UB) by (apply slice_ub; unfold w1, k11, k01; lia).
  exact (f_equal (fun m : Res (list R) => bind m _) E3).
Qed.

(* ---- the directory ---- *)
Section File.
Variable par : list str.
Hypothesis small : zlen (flat_map (firstn 64) par) < 2 ^ 63.
Notation cut := (map (firstn (Z.to_nat 72))).
Notation pcut := (map (firstn (Z.to_nat 64)) par).
Lemma part_bound {A} (f : A -> str) a n (l : list A) : zlen (flat_map f (firstn n (skipn a l))) <= zlen (flat_map f l).
Proof.
  rewrite <- (firstn_skipn a l) at 2. rewrite <- (firstn_skipn n (skipn a l)) at 2. rewrite !flat_map_app, !zlen_app. unfold zlen. lia.
Qed.
Lemma entity_numbers e ns : points_into par e -> text_of_data (data_of par e) ns ->
  iges_vector (F := F) pcut (ey_start e, ey_start e + ey_count e - 1) = Ok (map numeral_value ns).
Proof.
  intros (_ & (Hc & _) & H1 & H2) T.
  assert (EP : pcut = map (firstn (Z.to_nat 64)) (firstn (Z.to_nat (ey_start e - 1)) par) ++ map (firstn (Z.to_nat 64)) (firstn (Z.to_nat (ey_count e)) (skipn (Z.to_nat (ey_start e - 1)) par))
    ++ map (firstn (Z.to_nat 64)) (skipn (Z.to_nat (ey_count e)) (skipn (Z.to_nat (ey_start e - 1)) par))) by (rewrite <- !map_app, firstn_skipn, firstn_skipn; reflexivity).
  rewrite EP. rewrite vector_ok; [|unfold str, zlen in *; rewrite map_length, firstn_length; lia | unfold str, zlen in *; rewrite map_length, firstn_length, skipn_length; lia].
  rewrite <- flat_map_concat_map. apply data_numbers_read; [exact T|]. pose proof (part_bound (firstn 64) (Z.to_nat (ey_start e - 1)) (Z.to_nat (ey_count e)) par) as B. exact (Z.le_lt_trans _ _ _ B small).
Qed.
Definition body dir i acc := reader_body (dz := dz) dir pcut i acc.
Lemma entity_parts preD postD e k : zlen preD = 2 * k -> 0 <= k ->
  vget (preD ++ [firstn (Z.to_nat 72) (ey_one e); firstn (Z.to_nat 72) (ey_two e)] ++ postD) (k * 2) = Ok (firstn (Z.to_nat 72) (ey_one e)) /\
  vget (preD ++ [firstn (Z.to_nat 72) (ey_one e); firstn (Z.to_nat 72) (ey_two e)] ++ postD) (k * 2 + 1) = Ok (firstn (Z.to_nat 72) (ey_two e)).
Proof.
  intros HD Hk. split.
  - rewrite (vget_nth (A := str) _ _ []) by (unfold zlen in *; rewrite !app_length; cbn [List.length]; lia). f_equal. rewrite app_nth2 by (unfold zlen in HD; lia).
    replace (Z.to_nat (k * 2) - List.length preD)%nat with 0%nat by (unfold zlen in HD; lia). reflexivity.
  - rewrite (vget_nth (A := str) _ _ []) by (unfold zlen in *; rewrite !app_length; cbn [List.length]; lia). f_equal. rewrite app_nth2 by (unfold zlen in HD; lia).
    replace (Z.to_nat (k * 2 + 1) - List.length preD)%nat with 1%nat by (unfold zlen in HD; lia). reflexivity.
Qed.
Lemma entity_type preD postD e k acc : zlen preD = 2 * k -> 0 <= k -> shows_type e ->
  let dir := preD ++ [firstn (Z.to_nat 72) (ey_one e); firstn (Z.to_nat 72) (ey_two e)] ++ postD in
  body dir k acc = if (ey_type e =? 126) || (ey_type e =? 128) then
      ptr <- iges_pointers dir k ;; data <- iges_vector (F := F) pcut ptr ;;
      s <- (if ey_type e =? 126 then iges_create1 (F := F) toward_zero data else iges_create2 (F := F) toward_zero data) ;; Ok (acc ++ [s])
    else Ok acc.
Proof.
  intros HD Hk HT dir. destruct (entity_parts preD postD e k HD Hk) as [V0 _]. fold dir in V0. unfold body, reader_body. gstep V0.
  unfold shows_type in HT. rewrite <- (columns_cut (ey_one e) 5 3 (Z.to_nat 72)) in HT by lia.
  gstep (column_substr _ 5 3 _ HT). gstep (proj1 (shows_read _ _ HT)). reflexivity.
Qed.
Lemma entity_pointers preD postD e k : zlen preD = 2 * k -> 0 <= k -> points_into par e ->
  iges_pointers (preD ++ [firstn (Z.to_nat 72) (ey_one e); firstn (Z.to_nat 72) (ey_two e)] ++ postD) k = Ok (ey_start e, ey_start e + ey_count e - 1).
Proof.
  intros HD Hk (P1 & P2 & _). destruct (entity_parts preD postD e k HD Hk) as [V0 V1]. unfold iges_pointers.
  rewrite <- (columns_cut (ey_one e) 8 8 (Z.to_nat 72)) in P1 by lia. rewrite <- (columns_cut (ey_two e) 24 8 (Z.to_nat 72)) in P2 by lia.
  gstep V0. gstep (column_substr _ 8 8 _ P1). gstep V1. gstep (column_substr _ 24 8 _ P2). gstep (proj2 (shows_read _ _ P1)). gstep (proj2 (shows_read _ _ P2)). reflexivity.
Qed.
Lemma entity_read preD postD e x k acc : zlen preD = 2 * k -> 0 <= k -> says par e x ->
  body (preD ++ [firstn (Z.to_nat 72) (ey_one e); firstn (Z.to_nat 72) (ey_two e)] ++ postD) k acc
  = Ok (acc ++ match x with None => [] | Some x => [made_object x 0] end).
Proof.
  intros HD Hk (HT & HX). etransitivity; [exact (entity_type preD postD e k acc HD Hk HT)|]. destruct x as [x|].
  - destruct HX as (P & De & ns & T & C).
    assert (ET : (ey_type e =? 126) || (ey_type e =? 128) = true) by (destruct C as [(-> & _)|(-> & _)]; reflexivity). rewrite ET. clear ET.
    gstep (entity_pointers preD postD e k HD Hk P). gstep (entity_numbers e ns P T).
    destruct C as [(-> & C)|(-> & C)]; [gstep (curve_read ns x C De) | gstep (surface_read ns x C De)]; reflexivity.
  - destruct HX as [H1 H2]. apply Z.eqb_neq in H1, H2. rewrite H1, H2. cbn [orb]. now rewrite app_nil_r.
Qed.
Lemma entity_ub preD postD e k acc : zlen preD = 2 * k -> 0 <= k -> says_too_little par e ->
  body (preD ++ [firstn (Z.to_nat 72) (ey_one e); firstn (Z.to_nat 72) (ey_two e)] ++ postD) k acc = UB.
Proof.
  intros HD Hk (HT & P & ns & T & C). etransitivity; [exact (entity_type preD postD e k acc HD Hk HT)|].
  assert (ET : (ey_type e =? 126) || (ey_type e =? 128) = true) by (destruct C as [(-> & _)|(-> & _)]; reflexivity). rewrite ET. clear ET.
  gstep (entity_pointers preD postD e k HD Hk P). gstep (entity_numbers e ns P T).
  destruct C as [(-> & C)|(-> & C)]; [gstep (curve_few ns C) | gstep (surface_few ns C)]; reflexivity.
Qed.
Lemma entities_read es xs : Forall2 (says par) es xs -> forall k preD postD acc, zlen preD = 2 * k -> 0 <= k ->
  foldM (fun acc i => body (preD ++ cut (directory es) ++ postD) i acc) (zseq k (List.length es)) acc = Ok (acc ++ map (fun x => made_object (dz := dz) x 0) (sources xs)).
Proof.
  induction 1 as [|e x es xs H Hs IH]; intros k preD postD acc HD Hk; cbn [List.length zseq foldM]; [now rewrite app_nil_r|].
  unfold directory. cbn [flat_map app map]. fold (directory es).
  pose proof (entity_read preD (cut (directory es) ++ postD) e x k acc HD Hk H) as E. cbn [app] in E. rewrite E. cbn [bind]. clear E.
  specialize (IH (k + 1) (preD ++ [firstn (Z.to_nat 72) (ey_one e); firstn (Z.to_nat 72) (ey_two e)]) postD (acc ++ match x with None => [] | Some x => [made_object x 0] end)).
  rewrite <- app_assoc in IH. cbn [app] in IH. rewrite IH; [|rewrite zlen_app; change (zlen [firstn (Z.to_nat 72) (ey_one e); firstn (Z.to_nat 72) (ey_two e)]) with 2; lia | lia].
  unfold sources. cbn [flat_map]. fold (sources xs). rewrite map_app, app_assoc. destruct x; reflexivity.
Qed.
End File.

Lemma directory_length es : zlen (directory es) = 2 * zlen es.
Proof. induction es as [|e es IH]; [reflexivity|]. unfold directory in *. cbn [flat_map app]. unfold zlen in *. cbn [List.length]. lia. Qed.
Lemma flat_sub {A} (f : list A -> list A) (g : list A -> bool) (ls : list (list A)) : (forall l, zlen (f l) <= zlen l) -> zlen (flat_map f (filter g ls)) <= zlen (concat ls).
Proof.
  intros H. induction ls as [|l ls IH]; [cbn; lia|]. cbn [filter concat]. specialize (H l). destruct (g l); cbn [flat_map]; rewrite ?zlen_app; unfold zlen in *; lia.
Qed.
Lemma text_bound text ls : text_of_lines text ls -> zlen (concat ls) <= zlen text.
Proof.
  assert (G : forall ls : list str, zlen (concat ls) <= zlen (flat_map (fun l => l ++ [newline]) ls)).
  { clear. induction ls as [|l ls IH]; [cbn; lia|]. cbn [concat flat_map]. rewrite !zlen_app. unfold zlen in *. cbn [List.length]. lia. }
  intros (_ & [->|(ls' & l & -> & _ & ->)]); [apply G|]. rewrite concat_app. cbn [concat]. rewrite app_nil_r, !zlen_app. specialize (G ls'). lia.
Qed.
Lemma par_bound text ls : text_of_lines text ls -> zlen text < 2 ^ 63 -> zlen (flat_map (firstn 64) (lines_in "P" ls)) < 2 ^ 63.
Proof.
  intros T H. pose proof (text_bound text ls T). pose proof (flat_sub (firstn 64) (fun l => Ascii.eqb (nth 72 l "000"%char) "P"%char) ls) as B.
  unfold lines_in. specialize (B ltac:(intros l; unfold zlen; rewrite firstn_length; lia)). unfold str in *. lia.
Qed.

Lemma file_read text ls es xs : text_of_lines text ls -> Forall (fun l => 72 <= zlen l) ls -> zlen text < 2 ^ 63 ->
  lines_in "D" ls = directory es -> Forall2 (says (lines_in "P" ls)) es xs ->
  read_iges (F := F) toward_zero text = Ok (map (fun x => made_object (dz := dz) x 0) (sources xs)).
Proof.
  intros T H Hs HD HX. unfold read_iges. rewrite (lines_read text ls T H). cbn [bind]. rewrite HD.
  assert (EL : (zlen (map (firstn (Z.to_nat 72)) (directory es)) + 1) / 2 = zlen es).
  { rewrite zlen_map, directory_length. replace (2 * zlen es + 1) with (1 + zlen es * 2) by lia. rewrite Z.div_add by lia. reflexivity. }
  match goal with |- for_up 0 ?n _ _ = _ => replace n with (zlen es) by (symmetry; exact EL) end. rewrite for_up_foldM. rewrite Z.sub_0_r. unfold zlen at 1. rewrite Nat2Z.id.
  pose proof (entities_read (lines_in "P" ls) (par_bound text ls T Hs) es xs HX 0 [] [] [] eq_refl ltac:(lia)) as E.
  rewrite app_nil_r in E. exact E.
Qed.
Lemma file_short text ls es e more xs : text_of_lines text ls -> Forall (fun l => 72 <= zlen l) ls -> zlen text < 2 ^ 63 ->
  lines_in "D" ls = directory (es ++ e :: more) -> Forall2 (says (lines_in "P" ls)) es xs -> says_too_little (lines_in "P" ls) e ->
  read_iges (F := F) toward_zero text = UB.
Proof.
  intros T H Hs HD HX HE. unfold read_iges. rewrite (lines_read text ls T H). cbn [bind]. rewrite HD.
  assert (EL : (zlen (map (firstn (Z.to_nat 72)) (directory (es ++ e :: more))) + 1) / 2 = zlen (es ++ e :: more)).
  { rewrite zlen_map, directory_length. replace (2 * zlen (es ++ e :: more) + 1) with (1 + zlen (es ++ e :: more) * 2) by lia. rewrite Z.div_add by lia. reflexivity. }
  match goal with |- for_up 0 ?n _ _ = _ => replace n with (zlen (es ++ e :: more)) by (symmetry; exact EL) end. rewrite for_up_foldM. rewrite Z.sub_0_r. unfold zlen at 1. rewrite Nat2Z.id, app_length. cbn [List.length].
  rewrite zseq_app, foldM_app. unfold directory. rewrite flat_map_app. fold (directory es). cbn [flat_map]. fold (directory more). rewrite map_app. cbn [app map].
  pose proof (entities_read (lines_in "P" ls) (par_bound text ls T Hs) es xs HX 0 [] (firstn (Z.to_nat 72) (ey_one e) :: firstn (Z.to_nat 72) (ey_two e) :: map (firstn (Z.to_nat 72)) (directory more)) [] eq_refl ltac:(lia)) as E.
  unfold body, reader_body in E. cbn [app] in E. gstep E. cbn [zseq foldM].
  pose proof (entity_ub (lines_in "P" ls) (par_bound text ls T Hs) (map (firstn (Z.to_nat 72)) (directory es)) (map (firstn (Z.to_nat 72)) (directory more)) e (zlen es) (map (fun x => made_object (dz := dz) x 0) (sources xs))) as E2.
  rewrite zlen_map, directory_length in E2. specialize (E2 eq_refl ltac:(unfold zlen; lia) HE). unfold body, reader_body in E2. cbn [app] in E2.
  rewrite Z.add_0_l. exact (f_equal (fun m => bind m _) E2).
Qed.
End Real.
