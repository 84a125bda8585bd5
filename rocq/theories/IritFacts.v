(* The words of the file written by the IRIT writer. *)
From Coq Require Import ZArith Ascii String List Bool Lia Reals Lra.
From Verif Require Import Base BaseFacts MultiIndex MultiIndexSpec MultiIndexFacts TensorSum KnotVec KnotVecSpec Spaces SpacesSpec SpacesFacts SplineEval SplineSpec SplineNew EvalFacts
  StrSpec StrOps StrFacts StrNum StrDelim Convert ConvertSpec ConvertFacts VtkSpec VtkFacts Format FormatSpec FormatFacts Irit.
Import ListNotations.
Open Scope Z_scope.

Definition opened (ts : list str) : list str := match closed ts with [] => [] | x :: r => (of_string "[" ++ x) :: r end.

Lemma emits_open ts : ts <> [] -> Forall (fun t => t <> [] /\ Forall no_break t) ts -> emits (of_string "      [" ++ ended ts) (opened ts).
Proof.
  intros Hne H. destruct (words_ended ts (of_string "[") Hne H) as (l & w & E & Hw & G). unfold opened. rewrite E.
  assert (P : forall cur rest, words cur ((of_string "      [" ++ ended ts) ++ rest) = flush cur ++ words (of_string "[") (ended ts ++ rest)).
  { intros cur rest. rewrite <- app_assoc. reflexivity. }
  destruct l as [|x l]; cbn [app].
  - exists [], (of_string "[" ++ w). split; [reflexivity|]. split; [discriminate|]. intros cur rest. rewrite P, G. reflexivity.
  - exists ((of_string "[" ++ x) :: l), w. split; [reflexivity|]. split; auto. intros cur rest. rewrite P, G. reflexivity.
Qed.
Lemma emits_kv ts : ts <> [] -> Forall (fun t => t <> [] /\ Forall no_break t) ts ->
  emits (of_string "      [KV " ++ ended ts) (of_string "[KV" :: closed ts).
Proof.
  intros Hne H. destruct (words_ended ts [] Hne H) as (l & w & E & Hw & G). rewrite E.
  exists (of_string "[KV" :: l), w. split; [reflexivity|]. split; auto. intros cur rest.
  rewrite <- app_assoc. change (words cur (of_string "      [KV " ++ ended ts ++ rest)) with (flush cur ++ of_string "[KV" :: words [] (ended ts ++ rest)).
  rewrite G. destruct l; reflexivity.
Qed.
Lemma words_ints l rest : Forall (fun n => 0 <= n < 2 ^ 31) l ->
  words [] (flat_map (fun n => int_str n ++ of_string " ") l ++ rest) = map int_str l ++ words [] rest.
Proof.
  induction 1 as [|n l Hn H IH]; [reflexivity|]. destruct (int_plain n Hn) as [P N]. cbn [flat_map map]. rewrite <- !app_assoc.
  rewrite words_word by now apply harmless_no_break. match goal with |- words _ (of_string " " ++ ?r) = _ => change (of_string " " ++ r) with (" "%char :: r) end.
  rewrite words_blank, flush_some by auto. cbn [app]. now rewrite IH.
Qed.
Lemma emits_header n kind sizes orders last : 0 <= n < 2 ^ 31 -> kind <> [] -> Forall no_break kind ->
  Forall (fun n => 0 <= n < 2 ^ 31) sizes -> Forall (fun n => 0 <= n < 2 ^ 31) orders -> last <> [] -> Forall no_break last ->
  emits (of_string "  [OBJECT SPLINE" ++ int_str n ++ nl ++ of_string "    " ++ kind ++ of_string " BSPLINE " ++
         flat_map (fun n => int_str n ++ of_string " ") sizes ++ flat_map (fun n => int_str n ++ of_string " ") orders ++ last ++ nl)
        ([of_string "[OBJECT"; of_string "SPLINE" ++ int_str n; kind; of_string "BSPLINE"] ++ map int_str sizes ++ map int_str orders ++ [last]).
Proof.
  intros Hn Hk Bk Hs Ho Hl Bl.
  exists ([of_string "[OBJECT"; of_string "SPLINE" ++ int_str n; kind; of_string "BSPLINE"] ++ map int_str sizes ++ map int_str orders), last.
  split; [now rewrite <- !app_assoc|]. split; auto. intros cur rest. rewrite <- !app_assoc.
  match goal with |- words cur (of_string "  [OBJECT SPLINE" ++ ?r) = _ =>
    change (words cur (of_string "  [OBJECT SPLINE" ++ r)) with (flush cur ++ of_string "[OBJECT" :: words (of_string "SPLINE") r) end.
  f_equal. cbn [app]. f_equal.
  rewrite words_word by now apply harmless_no_break, int_plain. unfold nl. cbn [app]. rewrite words_nl.
  match goal with |- words ?w (of_string "    " ++ ?r) = _ => change (words w (of_string "    " ++ r)) with (flush w ++ words [] r) end.
  rewrite flush_some by discriminate. cbn [app]. f_equal.
  rewrite words_word by auto. cbn [app].
  match goal with |- words ?w (of_string " BSPLINE " ++ ?r) = _ => change (words w (of_string " BSPLINE " ++ r)) with (flush w ++ of_string "BSPLINE" :: words [] r) end.
  rewrite flush_some by auto. cbn [app]. f_equal. f_equal.
  rewrite words_ints by auto. rewrite words_ints by auto. f_equal. f_equal. rewrite words_word by auto. cbn [app]. now rewrite words_nl.
Qed.

Lemma map_nth_zseq {A B} (f : A -> B) (l : list A) a0 : map (fun i => f (nth (Z.to_nat i) l a0)) (zseq 0 (List.length l)) = map f l.
Proof.
  rewrite zseq_seq, map_map. rewrite (map_ext _ (fun k => f (nth k l a0))) by (intros k; now rewrite Nat2Z.id).
  rewrite <- (map_map (fun k => nth k l a0) f). f_equal. induction l as [|x l IH]; [reflexivity|]. cbn [List.length seq map].
  f_equal; auto. rewrite <- seq_shift, map_map. exact IH.
Qed.

Lemma len2 {A B} (P : A -> B -> Prop) l1 l2 : Forall2 P l1 l2 -> List.length l1 = List.length l2.
Proof. induction 1; cbn [List.length]; congruence. Qed.

Section Writer.
Context {dz : R -> R}.
Notation F := (Rops dz).
Variable fmt : R -> str.
Implicit Types s : spline F.

(* the numerals of one control point *)
Definition row_texts s (idx : list Z) : list str :=
  (match ph_wts (sp_ph s) with None => [] | Some _ => [fmt (weight s idx)] end) ++
  map (fun c => fmt (coordinate s idx c * weight s idx)%R) (zseq 0 (Z.to_nat (ph_dim (sp_ph s)))).
Definition is_nurbs s : bool := match ph_wts (sp_ph s) with None => false | Some _ => true end.

Definition header_words s (number : Z) : list str :=
  [of_string "[OBJECT"; of_string "SPLINE" ++ int_str (number + 1); irit_kind (zlen (degs_of s)); of_string "BSPLINE"] ++
  map int_str (npts_of s) ++ map int_str (map (fun q => q + 1) (degs_of s)) ++ [irit_point_type (is_nurbs s) (ph_dim (sp_ph s))].
Definition knot_words s : list str := concat (map (fun kv => of_string "[KV" :: closed (map fmt kv)) (knots_of s)).
Definition point_words s : list str := concat (map (fun idx => opened (row_texts s idx)) (grid (npts_of s))).
Definition spline_words s (number : Z) : list str := header_words s number ++ knot_words s ++ point_words s ++ [of_string "]"].

Variable tol : R.
Lemma prints_text x : prints fmt tol x -> fmt x <> [] /\ Forall harmless (fmt x) /\ zlen (fmt x) < 2 ^ 32 /\
  exists v, string_to_double (F := F) (fmt x) = Ok v /\ (Rabs (v - x) <= tol)%R.
Proof.
  intros (n & E & Ho & Hr & Ht). rewrite E. split; [apply numeral_nonempty; apply Hr|]. split; [now apply harmless_numeral|].
  split; [apply Ho|]. exists (numeral_value n). split; [now apply read_readable | exact Ht].
Qed.

Lemma ready_lengths d o s : irit_ready fmt tol d o s -> List.length (knots_of s) = Z.to_nat d /\ List.length (degs_of s) = Z.to_nat d /\ List.length (npts_of s) = Z.to_nat d.
Proof.
  intros [(Hd & _) Hwf _ _ _]. pose proof (len2 _ _ _ (wf_directions s Hwf)) as E. rewrite (wf_npts s Hwf), map2_length by exact E. unfold zlen in Hd. lia.
Qed.
Lemma ready_ranges d o s : irit_ready fmt tol d o s -> Forall (fun n => 1 <= n < 2 ^ 31) (npts_of s) /\ Forall (fun q => 0 <= q /\ q + 1 < 2 ^ 31) (degs_of s) /\
  Forall (fun kv => kv <> []) (knots_of s).
Proof.
  intros [_ Hwf _ (Hs & _) _]. rewrite (wf_npts s Hwf). pose proof (wf_directions s Hwf) as H. revert Hs.
  induction H as [|kv p l1 l2 (A & (B & _) & _) _ IH]; intros Hs; cbn [map2]; [repeat split; constructor|].
  inversion Hs as [|? ? Hk Hs']; subst. destruct (IH Hs') as (I1 & I2 & I3).
  repeat split; constructor; auto; try (unfold zlen in *; lia). intros ->. cbn [List.length] in B. lia.
Qed.
Lemma ready_pos d o s : irit_ready fmt tol d o s -> pos_lens (npts_of s).
Proof. intros H. destruct (ready_ranges d o s H) as (A & _). unfold pos_lens. eapply Forall_impl; [|exact A]. cbv beta. lia. Qed.

Lemma orders_ok d o s : irit_ready fmt tol d o s ->
  irit_orders d s = Ok (flat_map (fun n => int_str n ++ of_string " ") (map (fun q => q + 1) (degs_of s))).
Proof.
  intros H. destruct (ready_lengths d o s H) as (_ & L & _). unfold irit_orders.
  rewrite (concatM_ok _ (fun i => int_str (nth (Z.to_nat i) (degs_of s) 0 + 1) ++ of_string " ")).
  - rewrite <- L. rewrite (map_nth_zseq (fun q => int_str (q + 1) ++ of_string " ")). now rewrite flat_map_concat_map, map_map.
  - intros i Hi. apply zseq_In in Hi. unfold sp_deg. fold (degs_of s). rewrite (dget_nth (degs_of s) _ 0) by lia. reflexivity.
Qed.

Lemma knots_text d o s : irit_ready fmt tol d o s -> exists t, irit_knots (F := F) fmt d s = Ok t /\ emits t (knot_words s).
Proof.
  intros H. destruct (ready_lengths d o s H) as (L & _ & _). destruct (ready_ranges d o s H) as (_ & _ & Hne).
  exists (concat (map (fun kv => of_string "      [KV " ++ ended (map fmt kv)) (knots_of s))). split.
  - unfold irit_knots.
    rewrite (concatM_ok _ (fun i => of_string "      [KV " ++ ended (map fmt (nth (Z.to_nat i) (knots_of s) [])))).
    + f_equal. f_equal. rewrite <- L. exact (map_nth_zseq (fun kv => of_string "      [KV " ++ ended (map fmt kv)) (knots_of s) []).
    + intros i Hi. apply zseq_In in Hi. unfold sp_knots.
      assert (ED : dget (ps_knots (sp_ps s)) (Z.to_nat i) = Ok (nth (Z.to_nat i) (knots_of s) [])) by (apply (dget_nth (A := list R) (knots_of s)); lia).
      rewrite ED. cbn [bind].
      set (kv := (nth (Z.to_nat i) (knots_of s) [] : list R)).
      rewrite (concatM_ok _ (fun k => fmt (nth (Z.to_nat k) kv 0%R) ++ (if k <? zlen kv - 1 then of_string " " else of_string "]" ++ nl))).
      * cbn [bind]. f_equal. f_equal. unfold nl. rewrite (ended_loop (fun k => fmt (nth (Z.to_nat k) kv 0%R))) by reflexivity.
        f_equal. exact (map_nth_zseq fmt kv 0%R).
      * intros k Hk. apply zseq_In in Hk. exact (f_equal (fun m : Res R => bind m _) (vget_nth kv k 0%R ltac:(unfold zlen; rnorm; lia))).
  - destruct H as [_ _ Hd _ [Hp _ _]]. apply emits_concat; [intros E; apply map_eq_nil in E; unfold zlen in *; rewrite E in L; cbn in L; lia|].
    clear L. induction Hp as [|kv l Hk Hp IH]; cbn [map]; constructor; [|inversion Hne; auto].
    apply emits_kv.
    + intros E. apply map_eq_nil in E. inversion Hne; subst; auto.
    + rewrite Forall_map. eapply Forall_impl; [|exact Hk]. intros x Hx. destruct (prints_text x Hx) as (A & B & _). split; auto. now apply harmless_no_break.
Qed.

Lemma row_texts_ok d o s idx : irit_ready fmt tol d o s -> in_box (npts_of s) idx ->
  row_texts s idx <> [] /\ forall t, In t (row_texts s idx) -> exists x, t = fmt x /\ prints fmt tol x.
Proof.
  intros [Hh Hwf Hd Hs [_ Hw Hp]] Hb. pose proof (wf_dim s Hwf) as D. split.
  - unfold row_texts. intros E. apply app_eq_nil in E. destruct E as [_ E]. apply map_eq_nil in E.
    assert (L := f_equal (@List.length Z) E). rewrite zseq_length in L. cbn in L. lia.
  - intros t Ht. unfold row_texts in Ht. apply in_app_or in Ht. destruct Ht as [Ht|Ht].
    + destruct (ph_wts (sp_ph s)) as [w|] eqn:Ew; [|contradiction]. destruct Ht as [<- |[]]. eexists; split; [reflexivity|].
      unfold weight. rewrite Ew. pose proof (Hw w eq_refl) as Hw'. rewrite Forall_forall in Hw'. apply Hw'. apply nth_In.
      pose proof (wf_wts s Hwf w Ew) as El. rewrite position_get1d. pose proof (get1d_range _ _ Hb). unfold zlen in El. unfold npts_of in *. rnorm. lia.
    + apply in_map_iff in Ht. destruct Ht as (c & <- & Hc). apply zseq_In in Hc. eexists; split; [reflexivity|]. apply Hp; [now apply all_indices_box | lia].
Qed.

Lemma points_text d o s : irit_ready fmt tol d o s -> exists t, irit_points (F := F) fmt (is_nurbs s) s = Ok t /\ emits t (point_words s).
Proof.
  intros H. pose proof (ready_pos d o s H) as Hpos. pose proof (row_texts_ok d o s) as RT.
  exists (concat (map (fun idx => of_string "      [" ++ ended (row_texts s idx)) (grid (npts_of s)))). split.
  - unfold irit_points. rewrite mih_loop_visited. cbn [mcur]. fold (npts_of s). rewrite visited_grid by auto.
    rewrite (foldM_ok _ (fun text idx => text ++ of_string "      [" ++ ended (row_texts s idx))).
    + f_equal. transitivity ([] ++ concat (map (fun idx => of_string "      [" ++ ended (row_texts s idx)) (grid (npts_of s)))); [|reflexivity].
      generalize (@nil ascii) as acc. generalize (grid (npts_of s)) as g. induction g as [|idx g IH]; intros acc; cbn [fold_left map concat]; [now rewrite app_nil_r|].
      rewrite IH. now rewrite <- !app_assoc.
    + intros text idx Hin. apply grid_In in Hin. destruct H as [Hh Hwf Hd Hs Hp]. pose proof (wf_dim s Hwf) as D.
      pose proof (weight_ok dz s idx Hin (wf_wts s Hwf)) as Ew. unfold is_nurbs, row_texts.
      assert (ER : forall j, In j (zseq 0 (Z.to_nat (sp_pdim s))) -> cp_value s idx j = Ok (coordinate s idx j)).
      { intros j Hj. apply zseq_In in Hj. unfold sp_pdim in Hj. apply (cp_value_ok dz); auto; [apply (wf_cps s Hwf) | lia]. }
      destruct (ph_wts (sp_ph s)) as [w|] eqn:Eo.
      * rewrite Ew. cbn [bind].
        rewrite (concatM_ok _ (fun j => fmt (coordinate s idx j * weight s idx)%R ++ (if j <? sp_pdim s - 1 then of_string " " else of_string "]" ++ nl)))
          by (intros j Hj; rewrite (ER j Hj); reflexivity).
        cbn [bind]. unfold nl. rewrite (ended_loop (fun j => fmt (coordinate s idx j * weight s idx)%R)) by (unfold sp_pdim; lia).
        unfold sp_pdim. set (r := map _ _). assert (r <> []).
        { intros E. apply map_eq_nil in E. assert (L := f_equal (@List.length Z) E). rewrite zseq_length in L. cbn in L. lia. }
        destruct r as [|x r]; [contradiction|]. cbn [app ended]. now rewrite <- !app_assoc.
      * cbn [bind].
        rewrite (concatM_ok _ (fun j => fmt (coordinate s idx j * weight s idx)%R ++ (if j <? sp_pdim s - 1 then of_string " " else of_string "]" ++ nl))).
        -- cbn [bind]. unfold nl. rewrite (ended_loop (fun j => fmt (coordinate s idx j * weight s idx)%R)) by (unfold sp_pdim; lia). reflexivity.
        -- intros j Hj. rewrite (ER j Hj). unfold weight. rewrite Eo. reflexivity.
  - pose proof (total_pos _ Hpos) as Ht. apply emits_concat.
    + intros E. apply map_eq_nil in E. assert (L := f_equal (@List.length (list Z)) E). rewrite grid_length in L.
      2: { unfold pos_lens in Hpos. eapply Forall_impl; [|exact Hpos]. cbv beta. lia. }
      unfold size in L. unfold total in Ht. cbn in L. lia.
    + assert (G : Forall (fun idx => in_box (npts_of s) idx) (grid (npts_of s))) by (apply Forall_forall; intros idx; apply grid_In).
      induction G as [|idx g Hi G IH]; cbn [map]; constructor; auto. destruct (RT idx H Hi) as [N P]. apply emits_open; auto.
      apply Forall_forall. intros t Ht'. destruct (P t Ht') as (x & -> & Px). destruct (prints_text x Px) as (A & B & _). split; auto. now apply harmless_no_break.
Qed.

Lemma kind_plain d : irit_kind d <> [] /\ Forall no_break (irit_kind d).
Proof. unfold irit_kind. destruct (d =? 1), (d =? 2); (split; [discriminate | repeat constructor; discriminate]). Qed.
Lemma type_plain b n : 0 <= n < 2 ^ 31 -> irit_point_type b n <> [] /\ Forall no_break (irit_point_type b n).
Proof.
  intros H. destruct (int_plain n H) as [A B]. unfold irit_point_type. destruct b; (split; [discriminate|]);
    (apply Forall_app; split; [repeat constructor; discriminate | now apply harmless_no_break]).
Qed.

Lemma spline_text d o s number : irit_ready fmt tol d o s -> 0 <= number < 2 ^ 31 - 1 ->
  exists t, irit_spline (F := F) fmt o number = Ok t /\ emits t (spline_words s number ++ [of_string "]"]) /\ emits (t ++ nl) (spline_words s number ++ [of_string "]"]).
Proof.
  intros H Hn. destruct (knots_text d o s H) as (tk & Ek & Mk). destruct (points_text d o s H) as (tp & Ep & Mp).
  pose proof (orders_ok d o s H) as Eo. destruct (ready_ranges d o s H) as (R1 & R2 & _).
  assert (ED : get_dimension o = Ok d /\ get_spline d o = Ok s /\ is_rational d o = Ok (is_nurbs s) /\ zlen (degs_of s) = d).
  { destruct H as [(Hz & Ho) _ Hd _ _]. split; [|split; [|split]]; auto.
    - apply dimension_ok; [|lia]. destruct Ho as [(-> & _)|(-> & _)]; exists s; auto.
    - destruct Ho as [(-> & _)|(-> & _)]; cbn [get_spline]; now rewrite Z.eqb_refl.
    - unfold is_nurbs. destruct Ho as [(-> & E)|(-> & w & E)]; cbn [is_rational]; rewrite Z.eqb_refl; [unfold is_bspline in E|]; now rewrite E. }
  destruct ED as (E1 & E2 & E3 & Ez). pose proof (ir_dim _ _ d o s H) as Hd.
  assert (Edd : ((d =? 1) || (d =? 2) || (d =? 3))%bool = true) by (assert (d = 1 \/ d = 2 \/ d = 3) as [->|[-> | ->]] by lia; reflexivity).
  assert (HT : emits (of_string "  [OBJECT SPLINE" ++ int_str (number + 1) ++ nl ++ of_string "    " ++ irit_kind d ++ of_string " BSPLINE " ++
     irit_sizes s ++ flat_map (fun n => int_str n ++ of_string " ") (map (fun q => q + 1) (degs_of s)) ++ irit_point_type (is_nurbs s) (sp_pdim s) ++ nl) (header_words s number)).
  { unfold header_words, irit_sizes. rewrite Ez. fold (npts_of s). apply emits_header; try apply kind_plain; try lia.
    - eapply Forall_impl; [|exact R1]. cbv beta. lia.
    - rewrite Forall_map. eapply Forall_impl; [|exact R2]. cbv beta. lia.
    - apply type_plain. pose proof (wf_dim s (ir_wf _ _ d o s H)). destruct (ir_size _ _ d o s H) as (_ & _ & L). unfold sp_pdim. lia.
    - apply type_plain. pose proof (wf_dim s (ir_wf _ _ d o s H)). destruct (ir_size _ _ d o s H) as (_ & _ & L). unfold sp_pdim. lia. }
  assert (TT : emits (of_string "    ]" ++ nl ++ of_string "  ]" ++ nl) [of_string "]"; of_string "]"] /\
               emits (of_string "    ]" ++ nl ++ of_string "  ]" ++ nl ++ nl) [of_string "]"; of_string "]"]).
  { split; exists [of_string "]"], (of_string "]"); (split; [reflexivity|]); (split; [discriminate|]); reflexivity. }
  assert (EW : spline_words s number ++ [of_string "]"] = header_words s number ++ knot_words s ++ point_words s ++ [of_string "]"; of_string "]"]).
  { unfold spline_words. now rewrite <- (app_assoc (header_words s number)), <- (app_assoc (knot_words s)), <- (app_assoc (point_words s)). }
  eexists. split; [|split].
  - unfold irit_spline. rewrite E1. cbn [bind]. rewrite Edd. unfold irit_body. rewrite E2. cbn [bind]. rewrite E3. cbn [bind]. rewrite Eo. cbn [bind]. rewrite Ek. cbn [bind].
    rewrite Ep. cbn [bind]. reflexivity.
  - pose proof (emits_app _ _ _ _ HT (emits_app _ _ _ _ Mk (emits_app _ _ _ _ Mp (proj1 TT)))) as G. rewrite EW. repeat rewrite <- app_assoc in G. repeat rewrite <- app_assoc. exact G.
  - pose proof (emits_app _ _ _ _ HT (emits_app _ _ _ _ Mk (emits_app _ _ _ _ Mp (proj2 TT)))) as G. rewrite EW. repeat rewrite <- app_assoc in G. repeat rewrite <- app_assoc. exact G.
Qed.
End Writer.
