(* The parameter data of one spline: its text, and what is made of it. *)
From Coq Require Import ZArith Ascii String List Bool Lia Reals Lra.
From Verif Require Import Base BaseFacts MultiIndex MultiIndexSpec MultiIndexFacts TensorSum KnotVec KnotVecSpec Spaces SpacesSpec SpacesFacts SplineEval SplineSpec SplineNew EvalFacts
  StrSpec StrOps StrFacts StrThms StrNum StrDelim Convert ConvertSpec ConvertFacts VtkSpec VtkFacts Format FormatSpec FormatFacts IritFacts IritRead Rebuild XmlFacts Iges IgesFacts.
Import ListNotations.
Open Scope Z_scope.

(* ---- separators ---- *)
Definition sep_word (t : str) : Prop := t <> [] /\ Forall harmless t.
Lemma closed_commas : forall ts rest ps, Forall sep_word ts -> closed_pieces delim rest ps ->
  closed_pieces delim (flat_map (fun t => t ++ of_string ",") ts ++ rest) (ts ++ ps).
Proof.
  intros ts rest ps H Hr. induction H as [|t ts (A & B) H IH]; cbn [flat_map app]; [exact Hr|].
  repeat rewrite <- app_assoc. cbn [app of_string list_ascii_of_string]. apply closed_cons; auto; [|now left]. eapply Forall_impl; [|exact B]. intros c Hc. apply Hc.
Qed.
Lemma join_commas ts t : join ","%char (ts ++ [t]) = flat_map (fun t => t ++ of_string ",") ts ++ t.
Proof.
  induction ts as [|a ts IH]; [reflexivity|]. cbn [app flat_map]. rewrite <- app_assoc. cbn [app]. change (of_string "," ++ ?x) with (","%char :: x).
  transitivity (a ++ ","%char :: join ","%char (ts ++ [t])); [|rewrite IH; rewrite <- app_assoc; reflexivity]. destruct ts; reflexivity.
Qed.
Lemma closed_join ts k : ts <> [] -> Forall sep_word ts -> closed_pieces delim (join ","%char ts ++ of_string ";" ++ blanks k) ts.
Proof.
  intros Hne H. destruct (exists_last Hne) as (l & t & ->). apply Forall_app in H as [H1 H2]. inversion H2 as [|? ? (A & B) _]; subst.
  rewrite join_commas. repeat rewrite <- app_assoc. apply closed_commas; auto.
  change (of_string ";" ++ blanks k) with (";"%char :: blanks k). apply closed_cons; auto; [eapply Forall_impl; [|exact B]; intros c Hc; apply Hc | now right|].
  apply closed_rest. apply Forall_forall. intros c Hc. apply blanks_in in Hc. subst. intros [E|E]; discriminate.
Qed.

(* the loop with a separator behind all but the very last text *)
Lemma point_loop (f : Z -> Z -> str) n : forall m lo, lo + Z.of_nat (S m) = n ->
  concat (map (fun i => concat (map (fun j => f i j ++ (if negb (i =? n - 1) || negb (j =? 2) then of_string "," else [])) (zseq 0 3))) (zseq lo (S m)))
  = join ","%char (flat_map (fun i => map (f i) (zseq 0 3)) (zseq lo (S m))).
Proof.
  induction m as [|m IH]; intros lo Hn.
  - cbn [zseq map concat flat_map app]. replace (lo =? n - 1) with true by (symmetry; apply Z.eqb_eq; lia). cbn [negb orb Z.eqb Z.add].
    change (2 =? 2) with true. cbn [join negb]. rewrite !app_nil_r. repeat rewrite <- app_assoc. reflexivity.
  - specialize (IH (lo + 1) ltac:(lia)). cbn [zseq] in *. cbn [map concat flat_map] in *. rewrite IH. clear IH.
    replace (lo =? n - 1) with false by (symmetry; apply Z.eqb_neq; lia). cbn [negb orb app join].
    rewrite !app_nil_r. repeat rewrite <- app_assoc. reflexivity.
Qed.
Lemma flat_concat {A B} (f : A -> list B) l : flat_map f l = concat (map f l).
Proof. apply flat_map_concat_map. Qed.

Lemma get1d_first n ns i z : get1d (n :: ns) (i :: repeat 0 z) = i.
Proof.
  rewrite get1d_cons. assert (E : get1d ns (repeat 0 z) = 0); [|rewrite E; lia].
  revert z; induction ns as [|m ns IH]; intros [|z]; cbn [repeat]; rewrite ?get1d_nil_r; try reflexivity. rewrite get1d_cons, IH. lia.
Qed.

(* ---- slices ---- *)
Lemma vget_head {A} (l r : list A) i a : 0 <= i -> nth_error l (Z.to_nat i) = Some a -> vget (l ++ r) i = Ok a.
Proof.
  intros Hi E. assert (L : (Z.to_nat i < List.length l)%nat) by (apply nth_error_Some; congruence).
  rewrite (vget_nth _ i a) by (unfold zlen; rewrite app_length; lia). f_equal. rewrite app_nth1 by lia. now apply nth_error_nth.
Qed.
Lemma slice_mid {dz} (A B C : list R) a b : zlen A = a -> b = a + zlen B - 1 -> slice (F := Rops dz) (A ++ B ++ C) a b = Ok B.
Proof.
  intros Ha Hb. unfold slice. replace (Z.to_nat (b + 1 - a)) with (List.length B) by (unfold zlen in *; lia). clear Hb.
  rewrite (mapM_ok _ (fun i => nth (Z.to_nat (i - a)) B 0%R)).
  - f_equal. transitivity (map (fun i => nth (Z.to_nat i) B 0%R) (zseq 0 (List.length B))).
    + rewrite !zseq_map, !map_map. apply map_ext. intros k. f_equal. lia.
    + etransitivity; [exact (map_nth_zseq (fun q => q) B 0%R) | apply map_id].
  - intros i Hi. apply zseq_In in Hi. rewrite (vget_nth (A := R) _ i 0%R) by (rnorm; unfold zlen in *; rewrite !app_length; lia). f_equal.
    rewrite app_nth2 by (unfold zlen in Ha; lia). rewrite app_nth1 by (unfold zlen in Ha; lia). f_equal. unfold zlen in Ha. lia.
Qed.
Lemma slice_end {dz} (A B : list R) a b : zlen A = a -> b = a + zlen B - 1 -> slice (F := Rops dz) (A ++ B) a b = Ok B.
Proof. intros Ha Hb. pose proof (slice_mid (dz := dz) A B [] a b Ha Hb) as E. now rewrite app_nil_r in E. Qed.
Lemma slice_past {dz} (l : list R) a b : 0 <= a <= zlen l -> zlen l <= b -> slice (F := Rops dz) l a b = UB.
Proof.
  intros Ha Hb. unfold slice. remember (Z.to_nat (zlen l - a)) as m eqn:Em.
  replace (Z.to_nat (b + 1 - a)) with (m + S (Z.to_nat (b - zlen l)))%nat by lia. revert a Ha Em. induction m as [|m IH]; intros a Ha Em.
  - cbn [Nat.add zseq mapM]. assert (a = zlen l) as -> by lia.
    assert (E : vget l (zlen l) = UB) by (unfold vget; replace (zlen l <? Z.of_nat (List.length l)) with false by (symmetry; apply Z.ltb_ge; unfold zlen; lia); now rewrite andb_false_r).
    exact (f_equal (fun m : Res R => bind m _) E).
  - cbn [Nat.add zseq mapM]. assert (E : vget l a = Ok (nth (Z.to_nat a) l 0%R)) by (apply vget_nth; lia).
    match goal with |- bind _ ?k = _ => transitivity (bind (Ok (nth (Z.to_nat a) l 0%R)) k); [exact (f_equal (fun m : Res R => bind m k) E)|] end. cbn [bind].
    rewrite IH by lia. reflexivity.
Qed.
Lemma triples_ok {dz} (rows : list (list R)) b : Forall (fun r => zlen r = 3) rows -> 3 * zlen rows <= b <= 3 * zlen rows -> triples (F := Rops dz) (concat rows) b = Ok rows.
Proof.
  intros H Hb. unfold triples. replace (Z.to_nat ((b + 2) / 3)) with (List.length rows).
  2:{ assert (b = 3 * zlen rows) as -> by lia. replace (3 * zlen rows + 2) with (2 + zlen rows * 3) by lia. rewrite Z.div_add by lia. change (2 / 3) with 0. unfold zlen. lia. }
  clear Hb b. rewrite (mapM_ok _ (fun k => nth (Z.to_nat k) rows [])).
  - f_equal. etransitivity; [exact (map_nth_zseq (fun q => q) rows []) | apply map_id].
  - intros k Hk. apply zseq_In in Hk.
    assert (E : exists l1 l2, rows = l1 ++ nth (Z.to_nat k) rows [] :: l2 /\ List.length l1 = Z.to_nat k) by (apply nth_split; lia).
    destruct E as (l1 & l2 & E & L). set (r := nth (Z.to_nat k) rows []) in *. rewrite E. rewrite concat_app. cbn [concat].
    rewrite E in H. apply Forall_app in H as [H1 H2]. pose proof (Forall_inv H2) as Hr. cbv beta in Hr. apply slice_mid.
    + rewrite (concat_zlen _ _ H1). unfold zlen. lia.
    + rnorm. lia.
Qed.

Ltac gstep E := match goal with |- bind _ ?k = _ => etransitivity; [exact (f_equal (fun m => bind m k) E)|]; cbn [bind] end.
Section Data.
Context {dz : R -> R}.
Notation F := (Rops dz).
Variable fmt : R -> str.
Definition Q (x : R) : Prop := sep_word (fmt x) /\ exists v, string_to_double (F := F) (fmt x) = Ok v.
Notation rv := (rval (dz := dz) fmt).
Implicit Types s : spline F.
Lemma Q_read x : Q x -> string_to_double (F := F) (fmt x) = Ok (rv x).
Proof. intros (_ & v & E). unfold rval. now rewrite E. Qed.
Lemma Q_prints tol x : prints fmt tol x -> Q x.
Proof.
  intros H. destruct (fmt_chars (dz := dz) fmt tol x H) as (A & B & _). split; [split; auto|]. eexists. apply (rval_ok fmt tol x H).
Qed.

Record raw_ready (d : Z) (o : any (spline F)) s : Prop := {
  rr_holds : holds d o s; rr_wf : well_formed s; rr_dim : 1 <= d <= 2; rr_size : int_sized s;
  rr_knots : Forall (Forall Q) (knots_of s);
  rr_weights : forall idx, In idx (all_indices (npts_of s)) -> Q (weight s idx);
  rr_points : forall idx c, In idx (all_indices (npts_of s)) -> 0 <= c < 3 -> Q (padded s idx c)
}.

Lemma knot_texts (l : list (list R)) : concat (map (flat_map (fun x => fmt x ++ of_string ",")) l) = flat_map (fun t => t ++ of_string ",") (map fmt (concat l)).
Proof.
  induction l as [|kv l IH]; cbn [map concat]; [reflexivity|]. rewrite map_app, flat_map_app.
  apply (f_equal2 (@app ascii)); [rewrite !flat_concat, map_map; reflexivity | exact IH].
Qed.
Section One.
Variables (d : Z) (o : any (spline F)) (s : spline F).
Hypothesis H : raw_ready d o s.
Let Hwf : well_formed s := rr_wf _ _ _ H.
Lemma data_lengths : List.length (knots_of s) = Z.to_nat d /\ List.length (degs_of s) = Z.to_nat d /\ List.length (npts_of s) = Z.to_nat d.
Proof.
  pose proof H as H0. destruct H0 as [(Hd & _) Hw _ _ _ _ _]. pose proof (len2 _ _ _ (wf_directions s Hw)) as E. unfold zlen in Hd.
  rewrite (wf_npts s Hw). rewrite map2_length by exact E. lia.
Qed.
Lemma grid_index i : 0 <= i < total (npts_of s) ->
  in_box (npts_of s) (nth (Z.to_nat i) (grid (npts_of s)) []) /\ position (npts_of s) (nth (Z.to_nat i) (grid (npts_of s)) []) = i /\ get1d (npts_of s) (i :: repeat 0 (Z.to_nat (d - 1))) = i.
Proof.
  intros Hi. destruct (wf_grid s Hwf) as [Hg _]. assert (Hb : in_box (npts_of s) (nth (Z.to_nat i) (grid (npts_of s)) [])) by (apply grid_In, nth_In; unfold zlen in Hg; lia).
  split; [exact Hb|]. split.
  - rewrite position_get1d. rewrite <- (nth_map_in (get1d (npts_of s)) _ _ [] 0) by (unfold zlen in Hg; lia).
    rewrite grid_numbers by (eapply Forall_impl; [|exact (wf_pos s Hwf)]; cbv beta; lia). apply nth_zseq. lia.
  - destruct data_lengths as (_ & _ & L). pose proof (rr_dim _ _ _ H). destruct (npts_of s) as [|n ns]; [cbn in L; lia|]. apply get1d_first.
Qed.
Lemma data_coordinate i j : 0 <= i < total (npts_of s) -> 0 <= j -> iges_coordinate (F := F) d s i j = Ok (padded s (nth (Z.to_nat i) (grid (npts_of s)) []) j).
Proof.
  intros Hi Hj. destruct (grid_index i Hi) as (Hb & Hp & Hg). unfold iges_coordinate, padded, sp_pdim. destruct (Z.ltb_spec j (ph_dim (sp_ph s))) as [L|L]; [|reflexivity].
  pose proof (wf_dim s Hwf) as D. rewrite <- (cp_value_ok dz s _ j D Hb (wf_cps s Hwf)) by lia.
  unfold cp_value, get_control_point. unfold npts_of in *. rewrite Hg. rewrite <- position_get1d. rewrite Hp. reflexivity.
Qed.
Lemma data_weight i : 0 <= i < total (npts_of s) -> get_weight (sp_ph s) (i :: repeat 0 (Z.to_nat (d - 1))) = Ok (weight s (nth (Z.to_nat i) (grid (npts_of s)) [])).
Proof.
  intros Hi. destruct (grid_index i Hi) as (Hb & Hp & Hg). rewrite <- (weight_ok dz s _ Hb (wf_wts s Hwf)). unfold get_weight. unfold npts_of in *.
  rewrite Hg. rewrite <- position_get1d. rewrite Hp. reflexivity.
Qed.

Definition flag : Z := match ph_wts (sp_ph s) with None => 1 | Some _ => 0 end.
Definition head_ints : list Z :=
  if d =? 1 then 126 :: map (fun n => n - 1) (npts_of s) ++ degs_of s ++ [0; 0; flag; 0]
  else 128 :: map (fun n => n - 1) (npts_of s) ++ degs_of s ++ [0; 0; flag; 0; 0].
Definition row3 (f : list Z -> Z -> R) (idx : list Z) : list R := map (f idx) (zseq 0 3).
Definition data_numbers : list R := concat (knots_of s) ++ map (weight s) (grid (npts_of s)) ++ flat_map (row3 (padded s)) (grid (npts_of s)).
Definition data_texts : list str := map int_str head_ints ++ map fmt data_numbers.
Definition data_text : str := join ","%char data_texts.

Lemma npts_range : Forall (fun n => 1 <= n < 2 ^ 31) (npts_of s).
Proof.
  rewrite (wf_npts s Hwf). pose proof (wf_directions s Hwf) as W. destruct (rr_size _ _ _ H) as (Hs & _). revert Hs.
  induction W as [|kv p l1 l2 (A & (B & _) & _) _ IH]; intros Hs; cbn [map2]; constructor; inversion Hs; subst; auto. unfold zlen in *. lia.
Qed.
Lemma degs_range : Forall (fun q => 0 <= q < 2 ^ 31) (degs_of s).
Proof.
  pose proof (wf_directions s Hwf) as W. destruct (rr_size _ _ _ H) as (Hs & _). revert Hs.
  induction W as [|kv p l1 l2 (A & (B & _) & _) _ IH]; intros Hs; constructor; inversion Hs; subst; auto. unfold zlen in *. lia.
Qed.
Lemma head_range : Forall (fun n => 0 <= n < 2 ^ 31) head_ints.
Proof.
  assert (0 <= flag < 2 ^ 31) by (unfold flag; destruct (ph_wts (sp_ph s)); lia).
  unfold head_ints. destruct (d =? 1); (constructor; [lia|]); (apply Forall_app; split; [rewrite Forall_map; eapply Forall_impl; [|exact npts_range]; cbv beta; lia|]);
    (apply Forall_app; split; [exact degs_range|]); repeat constructor; lia.
Qed.
Lemma data_Q : Forall Q data_numbers.
Proof.
  assert (B : forall idx, In idx (grid (npts_of s)) -> In idx (all_indices (npts_of s))) by (intros idx Hi; apply all_indices_box; now apply grid_In).
  unfold data_numbers. apply Forall_app. split; [|apply Forall_app; split].
  - pose proof (rr_knots _ _ _ H) as K. induction K; cbn [concat]; [constructor|]. apply Forall_app; auto.
  - rewrite Forall_map. apply Forall_forall. intros idx Hi. apply (rr_weights _ _ _ H); auto.
  - apply Forall_flat_map. apply Forall_forall. intros idx Hi. unfold row3. rewrite Forall_map. apply Forall_forall. intros c Hc. apply zseq_In in Hc. apply (rr_points _ _ _ H); auto.
Qed.
Lemma texts_words : Forall sep_word data_texts.
Proof.
  unfold data_texts. apply Forall_app. split; rewrite Forall_map.
  - eapply Forall_impl; [|exact head_range]. intros n Hn. destruct (int_plain n Hn). split; auto.
  - eapply Forall_impl; [|exact data_Q]. intros x Hx. apply Hx.
Qed.
Lemma data_read k : zlen (data_text ++ of_string ";" ++ blanks k) < 2 ^ 63 ->
  delimited_to_vector (F := F) (data_text ++ of_string ";" ++ blanks k) = Ok (map IZR head_ints ++ map rv data_numbers).
Proof.
  intros Hl. unfold data_text in *. assert (Hne : data_texts <> []) by (unfold data_texts, head_ints; destruct (d =? 1); discriminate).
  rewrite (delimited_pieces dz _ _ (closed_join data_texts k Hne texts_words) Hl). clear Hl.
  assert (T : forall t, sep_word t -> trim t = t).
  { intros t (A & B). pose proof (trim_around [] t [] A B ltac:(constructor) ltac:(constructor)) as X. cbn [app] in X. now rewrite app_nil_r in X. }
  rewrite (mapM_ext _ (fun t => string_to_double (F := F) t)).
  2:{ intros t Ht. pose proof texts_words as W. rewrite Forall_forall in W. now rewrite T by now apply W. }
  unfold data_texts. pose proof head_range as HR. pose proof data_Q as HQ. induction HR as [|n ns Hn HR IH]; cbn [map app].
  - induction HQ as [|x xs Hx HQ IHx]; [reflexivity|]. cbn [map mapM]. rewrite (Q_read x Hx). cbn [bind]. exact (f_equal (fun m : Res (list R) => bind m _) IHx).
  - cbn [mapM]. assert (E := read_int dz n Hn).
    match goal with |- bind _ ?k = _ => transitivity (bind (Ok (IZR n)) k); [exact (f_equal (fun m : Res R => bind m k) E)|] end. cbn [bind].
    exact (f_equal (fun m : Res (list R) => bind m _) IH).
Qed.

(* ---- the writer ---- *)
Lemma data_rational : iges_rational (F := F) o = match ph_wts (sp_ph s) with None => false | Some _ => true end.
Proof.
  pose proof (rr_holds _ _ _ H) as (Hz & Ho). pose proof (rr_dim _ _ _ H) as Hd. destruct Ho as [(-> & E)|(-> & w & E)]; cbn [iges_rational].
  - unfold is_bspline in E. now rewrite E.
  - rewrite E. apply orb_true_iff. rewrite !Z.eqb_eq. lia.
Qed.
Lemma data_get : get_spline d o = Ok s.
Proof. pose proof (rr_holds _ _ _ H) as (Hz & Ho). destruct Ho as [(-> & _)|(-> & _)]; cbn [get_spline]; now rewrite Z.eqb_refl. Qed.
Lemma data_type : iges_dimension (F := F) o = Ok (if d =? 1 then 126 else 128) /\ (if (if d =? 1 then 126 else 128) =? 126 then 1 else 2) = d.
Proof.
  pose proof (rr_holds _ _ _ H) as (Hz & Ho). pose proof (rr_dim _ _ _ H) as Hd.
  assert (E : get_dimension o = Ok d) by (apply dimension_ok; [|lia]; destruct Ho as [(-> & _)|(-> & _)]; exists s; auto).
  unfold iges_dimension. rewrite E. cbn [bind]. destruct (Z.eqb_spec d 1) as [->|]; [auto|]. assert (d = 2) as -> by lia. auto.
Qed.
Lemma data_sizes : mapM (fun i => kv <- sp_knots s (Z.to_nat i) ;; q <- sp_deg s (Z.to_nat i) ;; Ok (int_str (u64 (zlen kv - q - 2)))) (zseq 0 (Z.to_nat d))
  = Ok (map int_str (map (fun n => n - 1) (npts_of s))).
Proof.
  destruct data_lengths as (L1 & L2 & L3). rewrite (mapM_ok _ (fun i => int_str (nth (Z.to_nat i) (npts_of s) 0 - 1))).
  - f_equal. rewrite <- L3, map_map. exact (map_nth_zseq (fun n => int_str (n - 1)) (npts_of s) 0).
  - intros i Hi. apply zseq_In in Hi. unfold sp_knots, sp_deg.
    assert (ED : dget (ps_knots (sp_ps s)) (Z.to_nat i) = Ok (nth (Z.to_nat i) (knots_of s) [])) by (apply (dget_nth (A := list R) (knots_of s)); lia).
    rewrite ED. cbn [bind]. fold (degs_of s). rewrite (dget_nth (degs_of s) _ 0) by lia. cbn [bind]. f_equal. f_equal.
    assert (EN : nth (Z.to_nat i) (npts_of s) 0 = zlen (nth (Z.to_nat i) (knots_of s) []) - nth (Z.to_nat i) (degs_of s) 0 - 1).
    { rewrite (wf_npts s Hwf). apply (nth_map2 (fun (kv : list R) p => zlen kv - p - 1)); lia. }
    pose proof npts_range as NR. rewrite Forall_forall in NR. specialize (NR (nth (Z.to_nat i) (npts_of s) 0) ltac:(apply nth_In; lia)). cbv beta in NR.
    rnorm. unfold u64. rewrite Z.mod_small by lia. lia.
Qed.
Lemma data_degs : mapM (fun i => q <- sp_deg s (Z.to_nat i) ;; Ok (int_str q)) (zseq 0 (Z.to_nat d)) = Ok (map int_str (degs_of s)).
Proof.
  destruct data_lengths as (L1 & L2 & L3). rewrite (mapM_ok _ (fun i => int_str (nth (Z.to_nat i) (degs_of s) 0))).
  - f_equal. rewrite <- L2. exact (map_nth_zseq int_str (degs_of s) 0).
  - intros i Hi. apply zseq_In in Hi. unfold sp_deg. fold (degs_of s). rewrite (dget_nth (degs_of s) _ 0) by lia. reflexivity.
Qed.
Lemma data_knots : concatM (fun i => kv <- sp_knots s (Z.to_nat i) ;; Ok (flat_map (fun x => fmt x ++ of_string ",") kv)) (zseq 0 (Z.to_nat d))
  = Ok (flat_map (fun t => t ++ of_string ",") (map fmt (concat (knots_of s)))).
Proof.
  destruct data_lengths as (L1 & L2 & L3). rewrite (concatM_ok _ (fun i => flat_map (fun x => fmt x ++ of_string ",") (nth (Z.to_nat i) (knots_of s) []))).
  - f_equal. rewrite <- L1.
    transitivity (concat (map (flat_map (fun x => fmt x ++ of_string ",")) (knots_of s))).
    + f_equal. exact (map_nth_zseq (flat_map (fun x => fmt x ++ of_string ",")) (knots_of s) []).
    + apply knot_texts.
  - intros i Hi. apply zseq_In in Hi. unfold sp_knots.
    assert (ED : dget (ps_knots (sp_ps s)) (Z.to_nat i) = Ok (nth (Z.to_nat i) (knots_of s) [])) by (apply (dget_nth (A := list R) (knots_of s)); lia).
    rewrite ED. reflexivity.
Qed.
Lemma join_app : forall A B, B <> [] -> join ","%char (A ++ B) = flat_map (fun t => t ++ of_string ",") A ++ join ","%char B.
Proof.
  intros A B HB. destruct (exists_last HB) as (l & t & ->). rewrite app_assoc, !join_commas, flat_map_app. now rewrite <- app_assoc.
Qed.
Lemma grid_seq {B} (f : list Z -> B) : map (fun i => f (nth (Z.to_nat i) (grid (npts_of s)) [])) (zseq 0 (Z.to_nat (total (npts_of s)))) = map f (grid (npts_of s)).
Proof. destruct (wf_grid s Hwf) as [Hg _]. rewrite <- Hg. unfold zlen. rewrite Nat2Z.id. exact (map_nth_zseq f (grid (npts_of s)) []). Qed.
Lemma data_points n : n = total (npts_of s) ->
  concatM (fun i => concatM (fun j => x <- iges_coordinate (F := F) d s i j ;;
              Ok (fmt x ++ (if negb (i =? n - 1) || negb (j =? 2) then of_string "," else []))) (zseq 0 3)) (zseq 0 (Z.to_nat n))
  = Ok (join ","%char (map fmt (flat_map (row3 (padded s)) (grid (npts_of s))))).
Proof.
  intros ->. destruct (wf_grid s Hwf) as [Hg Ht]. set (n := total (npts_of s)) in *. set (f := fun i j => fmt (padded s (nth (Z.to_nat i) (grid (npts_of s)) []) j)).
  rewrite (concatM_ok _ (fun i => concat (map (fun j => f i j ++ (if negb (i =? n - 1) || negb (j =? 2) then of_string "," else [])) (zseq 0 3)))).
  - f_equal. replace (Z.to_nat n) with (S (Z.to_nat (n - 1))) by lia. rewrite point_loop by lia. f_equal. replace (S (Z.to_nat (n - 1))) with (Z.to_nat n) by lia.
    rewrite !flat_concat. rewrite concat_map, map_map. f_equal. unfold n.
    transitivity (map (fun idx => map (fun j => fmt (padded s idx j)) (zseq 0 3)) (grid (npts_of s))).
    + exact (grid_seq (fun idx => map (fun j => fmt (padded s idx j)) (zseq 0 3))).
    + apply map_ext. intros idx. unfold row3. now rewrite map_map.
  - intros i Hi. apply zseq_In in Hi. apply concatM_ok. intros j Hj. apply zseq_In in Hj.
    exact (f_equal (fun m : Res R => bind m _) (data_coordinate i j ltac:(unfold n in *; lia) ltac:(lia))).
Qed.
Lemma data_weights : concatM (fun i => w <- get_weight (sp_ph s) (i :: repeat 0 (Z.to_nat (d - 1))) ;; Ok (fmt w ++ of_string ",")) (zseq 0 (Z.to_nat (total (npts_of s))))
  = Ok (flat_map (fun t => t ++ of_string ",") (map fmt (map (weight s) (grid (npts_of s))))).
Proof.
  rewrite (concatM_ok _ (fun i => fmt (weight s (nth (Z.to_nat i) (grid (npts_of s)) [])) ++ of_string ",")).
  - f_equal. rewrite flat_concat, !map_map. f_equal. exact (grid_seq (fun idx => fmt (weight s idx) ++ of_string ",")).
  - intros i Hi. apply zseq_In in Hi. exact (f_equal (fun m : Res R => bind m _) (data_weight i ltac:(lia))).
Qed.
Lemma data_count : num_control_points (sp_ph s) = Ok (total (npts_of s)).
Proof.
  pose proof (wf_dim s Hwf) as D. pose proof (wf_cps s Hwf) as E. unfold num_control_points, idiv. rnorm. rewrite E. replace (ph_dim (sp_ph s) =? 0) with false by (symmetry; apply Z.eqb_neq; lia).
  f_equal. rewrite Z.mul_comm, Z.quot_mul by lia. reflexivity.
Qed.
Lemma data_written : iges_parameters (F := F) fmt d o = Ok data_text.
Proof.
  unfold iges_parameters. rewrite data_get. cbn [bind]. gstep data_sizes. gstep data_degs. gstep data_knots.
  gstep data_count. gstep data_weights. gstep (data_points _ eq_refl). f_equal.
  unfold data_text, data_texts, data_numbers. rewrite !map_app.
  assert (Hne : map fmt (flat_map (row3 (padded s)) (grid (npts_of s))) <> []).
  { destruct (wf_grid s Hwf) as [Hg Ht]. destruct (grid (npts_of s)); [unfold zlen in Hg; cbn in Hg; lia | discriminate]. }
  assert (Happ : forall A B : list str, B <> [] -> A ++ B <> []) by (intros A B HB E; apply app_eq_nil in E; tauto).
  rewrite (join_app (map int_str head_ints)) by auto. rewrite (join_app (map fmt (concat (knots_of s)))) by auto. rewrite join_app by auto.
  f_equal. unfold add_all. f_equal. rewrite data_rational. unfold head_ints, flag.
  destruct (d =? 1); cbn [map app]; rewrite !map_app; destruct (ph_wts (sp_ph s)); reflexivity.
Qed.

(* ---- the reader ---- *)
Definition gback : spline F := rebuilt rv rv (fun idx c => rv (padded s idx c)) s 3.
Definition gback_object : any (spline F) := match ph_wts (sp_ph s) with None => AnyB d gback | Some _ => AnyN d gback end.
Lemma data_rows : map rv (flat_map (row3 (padded s)) (grid (npts_of s))) = concat (new_points (dz := dz) (fun idx c => rv (padded s idx c)) s 3).
Proof. rewrite flat_concat, concat_map, map_map. reflexivity. Qed.
End One.

Lemma int_cell n : 0 <= n < 2 ^ 31 -> to_int (F := F) toward_zero (IZR n) = Ok n.
Proof. intros Hn. apply (to_int_IZR dz). lia. Qed.

Lemma create1_ok o s : raw_ready 1 o s -> iges_create1 (F := F) toward_zero (map IZR (head_ints 1 s) ++ map rv (data_numbers s)) = Ok (gback_object 1 s).
Proof.
  intros H. pose proof (rr_wf _ _ _ H) as Hwf. destruct (data_lengths 1 o s H) as (L1 & L2 & L3). pose proof (npts_range 1 o s H) as NR. pose proof (degs_range 1 o s H) as DR.
  destruct (wf_grid s Hwf) as [Hg Ht]. pose proof (wf_npts s Hwf) as EN.
  destruct (knots_of s) as [|kv [|? ?]] eqn:EK; cbn [List.length] in L1; try lia.
  destruct (degs_of s) as [|q [|? ?]] eqn:ED; cbn [List.length] in L2; try lia.
  destruct (npts_of s) as [|n [|? ?]] eqn:En; cbn [List.length] in L3; try lia.
  cbn [map2] in EN. injection EN as EN. inversion NR; subst. inversion DR; subst. cbv beta in *.
  assert (ET : total [zlen kv - q - 1] = zlen kv - q - 1) by (unfold total; cbn [fold_right fold_left]; lia). 
  pose proof (rebuilt_ok rv rv (fun idx c => rv (padded s idx c)) s 3 Hwf ltac:(lia) ltac:(destruct (rr_size _ _ _ H) as (_ & X & _); lia)) as EB.
  unfold new_knots, new_weights in EB. rewrite EK, ED in EB. cbn [map] in EB.
  pose proof (data_rows s) as ER.
  unfold iges_create1, data_numbers, head_ints. rewrite EK, ED. rewrite En in *. change (1 =? 1) with true. cbv iota. cbn [map app concat]. rewrite app_nil_r. rewrite !map_app.
  set (K := map rv kv). set (W := map rv (map (weight s) (grid [zlen kv - q - 1]))). set (C := map rv (flat_map (row3 (padded s)) (grid [zlen kv - q - 1]))) in *.
  set (hd := [IZR 126; IZR (zlen kv - q - 1 - 1); IZR q; 0; 0; IZR (flag s); 0]%R).
  change (IZR 126 :: IZR (zlen kv - q - 1 - 1) :: IZR q :: IZR 0 :: IZR 0 :: IZR (flag s) :: IZR 0 :: K ++ W ++ C) with (hd ++ K ++ W ++ C).
  assert (HL : zlen hd = 7) by reflexivity.
  assert (LK : zlen K = zlen kv) by (unfold K, zlen; now rewrite map_length).
  assert (LW : zlen W = zlen kv - q - 1) by (unfold W, zlen in *; rewrite !map_length; lia).
  assert (LC : zlen C = 3 * (zlen kv - q - 1)).
  { rewrite ER. rewrite (concat_zlen _ 3) by (apply new_rows_len; lia). unfold new_points, zlen in *. rewrite map_length, En. lia. }
  assert (Rn : 0 <= zlen kv - q - 1 - 1 < 2 ^ 31) by lia.
  assert (V1 : vget (hd ++ K ++ W ++ C) 1 = Ok (IZR (zlen kv - q - 1 - 1))) by (apply vget_head; [lia | reflexivity]).
  assert (V2 : vget (hd ++ K ++ W ++ C) 2 = Ok (IZR q)) by (apply vget_head; [lia | reflexivity]).
  assert (V5 : vget (hd ++ K ++ W ++ C) 5 = Ok (IZR (flag s))) by (apply vget_head; [lia | reflexivity]).
  gstep V1. gstep (int_cell _ Rn). gstep V2. gstep (int_cell q H4).
  assert (SK : slice (F := F) (hd ++ K ++ W ++ C) 7 (7 + (zlen kv - q - 1 - 1) + q + 1) = Ok K) by (apply slice_mid; [exact HL | lia]).
  gstep SK. clear SK.
  assert (SW : slice (F := F) (hd ++ K ++ W ++ C) (7 + (zlen kv - q - 1 - 1) + q + 1 + 1) (7 + (zlen kv - q - 1 - 1) + q + 1 + 1 + (zlen kv - q - 1 - 1)) = Ok W).
  { rewrite (app_assoc hd K). apply slice_mid; [rewrite zlen_app; lia | lia]. }
  gstep SW. clear SW.
  assert (SC : slice (F := F) (hd ++ K ++ W ++ C) (7 + (zlen kv - q - 1 - 1) + q + 1 + 1 + (zlen kv - q - 1 - 1) + 1) (7 + (zlen kv - q - 1 - 1) + q + 1 + 1 + (zlen kv - q - 1 - 1) + 1 + 3 * (zlen kv - q - 1 - 1) + 2) = Ok C).
  { rewrite (app_assoc hd K), (app_assoc (hd ++ K) W). apply slice_end; [rewrite !zlen_app; lia | lia]. }
  gstep SC. clear SC.
  assert (ST : triples (F := F) C (zlen C) = Ok (new_points (dz := dz) (fun idx c => rv (padded s idx c)) s 3)).
  { rewrite LC, ER. apply triples_ok; [apply new_rows_len; lia|]. unfold new_points, zlen in *. rewrite map_length, En. lia. }
  gstep ST. gstep V5. unfold gback_object, gback.
  assert (EF : neqb (n := F) (IZR (flag s)) n1 = match ph_wts (sp_ph s) with None => true | Some _ => false end).
  { unfold flag. destruct (ph_wts (sp_ph s)); cbn; unfold Reqb; destruct (Req_EM_T _ _) as [E|E]; auto; lra. }
  rewrite EF. clear EF. destruct (ph_wts (sp_ph s)).
  - assert (EW : W = map (fun idx => rv (weight s idx)) (grid [zlen kv - q - 1])) by (unfold W; now rewrite map_map).
    rewrite EW. exact (f_equal (fun m : Res (spline F) => bind m _) EB).
  - exact (f_equal (fun m : Res (spline F) => bind m _) EB).
Qed.

(* the reader takes two numbers more than there are *)
Lemma create2_ub o s : raw_ready 2 o s -> iges_create2 (F := F) toward_zero (map IZR (head_ints 2 s) ++ map rv (data_numbers s)) = UB.
Proof.
  intros H. pose proof (rr_wf _ _ _ H) as Hwf. destruct (data_lengths 2 o s H) as (L1 & L2 & L3). pose proof (npts_range 2 o s H) as NR. pose proof (degs_range 2 o s H) as DR.
  destruct (wf_grid s Hwf) as [Hg Ht]. pose proof (wf_npts s Hwf) as EN.
  destruct (knots_of s) as [|kv [|kv' [|? ?]]] eqn:EK; cbn [List.length] in L1; try lia.
  destruct (degs_of s) as [|q [|q' [|? ?]]] eqn:ED; cbn [List.length] in L2; try lia.
  destruct (npts_of s) as [|n [|n' [|? ?]]] eqn:En; cbn [List.length] in L3; try lia.
  cbn [map2] in EN. injection EN as EN EN'.
  pose proof (Forall_inv NR) as N1. pose proof (Forall_inv (Forall_inv_tail NR)) as N2. pose proof (Forall_inv DR) as D1. pose proof (Forall_inv (Forall_inv_tail DR)) as D2. cbv beta in *.
  assert (ET : total [n; n'] = n * n') by (unfold total; cbn [fold_right fold_left]; lia).
  pose proof (data_rows s) as ER.
  unfold iges_create2, data_numbers, head_ints. rewrite EK, ED. rewrite En in *. change (2 =? 1) with false. cbv iota. cbn [map app concat]. rewrite app_nil_r. rewrite !map_app. rewrite <- !app_assoc.
  set (K := map rv kv). set (K' := map rv kv'). set (W := map rv (map (weight s) (grid [n; n']))). set (C := map rv (flat_map (row3 (padded s)) (grid [n; n']))) in *.
  set (hd := [IZR 128; IZR (n - 1); IZR (n' - 1); IZR q; IZR q'; 0; 0; IZR (flag s); 0; 0]%R).
  change (IZR 128 :: IZR (n - 1) :: IZR (n' - 1) :: IZR q :: IZR q' :: IZR 0 :: IZR 0 :: IZR (flag s) :: IZR 0 :: IZR 0 :: K ++ K' ++ W ++ C) with (hd ++ K ++ K' ++ W ++ C).
  assert (HL : zlen hd = 10) by reflexivity.
  assert (LK : zlen K = n + q + 1) by (unfold K, zlen in *; rewrite map_length; lia).
  assert (LK' : zlen K' = n' + q' + 1) by (unfold K', zlen in *; rewrite map_length; lia).
  assert (LW : zlen W = n * n') by (unfold W, zlen in *; rewrite !map_length; lia).
  assert (LC : zlen C = 3 * (n * n')).
  { rewrite ER. rewrite (concat_zlen _ 3) by (apply new_rows_len; lia). unfold new_points, zlen in *. rewrite map_length, En. lia. }
  assert (V1 : vget (hd ++ K ++ K' ++ W ++ C) 1 = Ok (IZR (n - 1))) by (apply vget_head; [lia | reflexivity]).
  assert (V2 : vget (hd ++ K ++ K' ++ W ++ C) 2 = Ok (IZR (n' - 1))) by (apply vget_head; [lia | reflexivity]).
  assert (V3 : vget (hd ++ K ++ K' ++ W ++ C) 3 = Ok (IZR q)) by (apply vget_head; [lia | reflexivity]).
  assert (V4 : vget (hd ++ K ++ K' ++ W ++ C) 4 = Ok (IZR q')) by (apply vget_head; [lia | reflexivity]).
  gstep V1. gstep (int_cell (n - 1) ltac:(lia)). gstep V2. gstep (int_cell (n' - 1) ltac:(lia)). gstep V3. gstep (int_cell q D1). gstep V4. gstep (int_cell q' D2).
  assert (EP : (1 + (n - 1)) * (1 + (n' - 1)) = n * n') by (f_equal; lia).
  replace (3 * (1 + (n - 1)) * (1 + (n' - 1))) with (3 * (n * n')) by (rewrite <- EP; ring). rewrite EP.
  set (k01 := 10 + (n - 1) + q + 1). set (k11 := k01 + 1 + (n' - 1) + q' + 1).
  assert (SK : slice (F := F) (hd ++ K ++ K' ++ W ++ C) 10 k01 = Ok K) by (apply slice_mid; [exact HL | lia]).
  gstep SK. clear SK.
  assert (SK : slice (F := F) (hd ++ K ++ K' ++ W ++ C) (k01 + 1) k11 = Ok K') by (rewrite (app_assoc hd K); apply slice_mid; [rewrite zlen_app; lia | lia]).
  gstep SK. clear SK.
  assert (SW : slice (F := F) (hd ++ K ++ K' ++ W ++ C) (k11 + 1) (k11 + 1 - 1 + n * n') = Ok W).
  { rewrite (app_assoc hd K), (app_assoc (hd ++ K) K'). apply slice_mid; [rewrite !zlen_app; lia | lia]. }
  gstep SW. clear SW.
  assert (SC : slice (F := F) (hd ++ K ++ K' ++ W ++ C) (k11 + 1 - 1 + n * n' + 1) (k11 + 1 - 1 + n * n' + 1 - 1 + 3 * (n * n') + 2) = UB).
  { assert (LL : zlen (hd ++ K ++ K' ++ W ++ C) = k11 + 1 + 4 * (n * n')) by (rewrite !zlen_app; lia). apply slice_past; rewrite LL; lia. }
  exact (f_equal (fun m : Res (list R) => bind m _) SC).
Qed.
End Data.
