(* Writing splines to an XML tree and reading them back. *)
From Coq Require Import ZArith Ascii String List Bool Lia Reals Lra.
From Verif Require Import Base BaseFacts MultiIndex MultiIndexSpec MultiIndexFacts TensorSum KnotVec KnotVecSpec Spaces SpacesSpec SpacesFacts SplineEval SplineSpec SplineNew EvalFacts
  StrSpec StrOps StrFacts StrThms StrNum StrDelim Convert ConvertSpec ConvertFacts VtkSpec VtkFacts Format FormatSpec FormatFacts IritFacts IritRead Rebuild Xml.
Import ListNotations.
Open Scope Z_scope.

Definition gap (c : ascii) : Prop := c = " "%char \/ c = newline.
Lemma pieces_gaps a s ps : Forall gap a -> pieces gap s ps -> pieces gap (a ++ s) ps.
Proof. intros H Hp. induction H; cbn [app]; [exact Hp|]. now constructor. Qed.
Lemma pieces_word p a s ps : p <> [] -> Forall no_break p -> Forall gap a -> a <> [] -> pieces gap s ps -> pieces gap (p ++ a ++ s) (p :: ps).
Proof.
  intros Hp Hn Ha Hne Hs. destruct a as [|c a]; [contradiction|]. inversion Ha; subst. cbn [app]. apply pieces_cons; auto.
  - eapply Forall_impl; [|exact Hn]. intros x (A & B) [E|E]; contradiction.
  - now apply pieces_gaps.
Qed.
Lemma gap_xnl n : Forall gap (xnl n) /\ xnl n <> [].
Proof. split; [|discriminate]. constructor; [now right|]. induction n; cbn [repeat]; constructor; auto. now left. Qed.
Definition wordy (ts : list str) : Prop := Forall (fun t => t <> [] /\ Forall no_break t) ts.
(* every word behind a gap *)
Lemma pieces_before pre post ts : Forall gap pre -> pre <> [] -> Forall gap post -> post <> [] -> wordy ts ->
  pieces gap (flat_map (fun t => pre ++ t) ts ++ post) ts.
Proof.
  intros H1 H2 H3 H4 H. 
  assert (G : exists a b, flat_map (fun t => pre ++ t) ts ++ post = a ++ b /\ Forall gap a /\ a <> [] /\ pieces gap b ts).
  { induction H as [|t ts (T1 & T2) H IH]; cbn [flat_map app].
    - exists post, []. rewrite app_nil_r. repeat split; auto. constructor.
    - destruct IH as (a & b & E & A & B & C). exists pre, (t ++ a ++ b). repeat rewrite <- app_assoc. rewrite E. repeat split; auto. now apply pieces_word. }
  destruct G as (a & b & -> & A & _ & C). now apply pieces_gaps.
Qed.
(* every word before a gap *)
Lemma pieces_after post ts rest ps : Forall gap post -> post <> [] -> wordy ts -> pieces gap rest ps ->
  pieces gap (flat_map (fun t => t ++ post) ts ++ rest) (ts ++ ps).
Proof.
  intros H3 H4 H Hr. induction H as [|t ts (T1 & T2) H IH]; cbn [flat_map app]; [exact Hr|]. repeat rewrite <- app_assoc. now apply pieces_word.
Qed.
Lemma pieces_rows {A} pre post (row : A -> list str) l rest : Forall gap pre -> Forall gap post -> post <> [] -> Forall gap rest -> (forall a, In a l -> wordy (row a)) ->
  pieces gap (flat_map (fun a => pre ++ flat_map (fun t => t ++ post) (row a)) l ++ rest) (flat_map row l).
Proof.
  intros H1 H3 H4 Hr H. induction l as [|a l IH]; cbn [flat_map app].
  - rewrite <- (app_nil_r rest). apply pieces_gaps; auto. constructor.
  - repeat rewrite <- app_assoc. apply pieces_gaps; auto. apply pieces_after; auto; [apply H; now left|]. apply IH. intros b Hb. apply H. now right.
Qed.
Lemma split_gap s ps : pieces gap s ps -> split s " " = ps.
Proof. apply split_unique. Qed.
Lemma gap_two : Forall gap (of_string "  ") /\ of_string "  " <> [].
Proof. split; [repeat constructor; now left | discriminate]. Qed.
Lemma stoi_int n : 0 <= n < 2 ^ 31 -> stoi (int_str n) = Ok n.
Proof. intros H. destruct (int_str_show n H) as (ds & E & A & B & C & D). rewrite E, stoi_digits by (auto; lia). now rewrite C. Qed.
Lemma flat_map_single {A B} (f : A -> B) l : flat_map (fun a => [f a]) l = map f l.
Proof. induction l; cbn [flat_map map app]; congruence. Qed.

Section Xml.
Context {dz : R -> R}.
Notation F := (Rops dz).
Variable fmt : R -> str.
Variable tol : R.
Notation P := (prints fmt tol).
Notation rv := (rval (dz := dz) fmt).
Implicit Types s : spline F.

Lemma fmt_wordy xs : Forall P xs -> wordy (map fmt xs).
Proof. apply (fmt_words (dz := dz)). Qed.
Lemma read_numbers xs : Forall P xs -> to_numbers (F := F) (map fmt xs) = Ok (map rv xs).
Proof.
  intros H. unfold to_numbers. induction H as [|x xs Hx H IH]; [reflexivity|]. cbn [map mapM]. rewrite (proj1 (rval_ok (dz := dz) fmt tol x Hx)). cbn [bind].
  exact (f_equal (fun m : Res (list R) => bind m _) IH).
Qed.

Section One.
Variables (d : Z) (o : any (spline F)) (s : spline F).
Hypothesis H : xml_ready fmt tol d o s.
Let Hwf : well_formed s := xr_wf _ _ _ _ _ H.
Lemma xml_lengths : List.length (knots_of s) = Z.to_nat d /\ List.length (degs_of s) = Z.to_nat d.
Proof. pose proof H as H0; destruct H0 as [(Hd & _) Hw _ _ _]. pose proof (len2 _ _ _ (wf_directions s Hw)) as E. unfold zlen in Hd. lia. Qed.
Lemma xml_degs : Forall (fun q => 0 <= q < 2 ^ 31) (degs_of s).
Proof.
  pose proof (wf_directions s Hwf) as W. destruct (xr_size _ _ _ _ _ H) as (Hs & _). revert Hs.
  induction W as [|kv p l1 l2 (A & (B & _) & _) _ IH]; intros Hs; constructor; inversion Hs; subst; auto. unfold zlen in *. lia.
Qed.
Lemma xml_coords idx : in_box (npts_of s) idx -> Forall P (map (coordinate s idx) (zseq 0 (Z.to_nat (ph_dim (sp_ph s))))).
Proof.
  intros Hi. rewrite Forall_map. apply Forall_forall. intros c Hc. apply zseq_In in Hc. apply (pp_points _ _ _ (xr_prints _ _ _ _ _ H)); [now apply all_indices_box | pose proof (wf_dim s Hwf); lia].
Qed.
Lemma xml_box : Forall (in_box (npts_of s)) (grid (npts_of s)).
Proof. apply Forall_forall. intros idx. apply grid_In. Qed.
Lemma xml_weight idx w : in_box (npts_of s) idx -> ph_wts (sp_ph s) = Some w -> P (weight s idx).
Proof.
  intros Hi Ew. pose proof (pp_weights _ _ _ (xr_prints _ _ _ _ _ H) w Ew) as Hw. rewrite Forall_forall in Hw. unfold weight. rewrite Ew. apply Hw. apply nth_In.
  pose proof (wf_wts s Hwf w Ew) as El. rewrite position_get1d. pose proof (get1d_range _ _ Hi). unfold zlen in El. unfold npts_of in *. rnorm. lia.
Qed.
Lemma xml_loop (body : list Z -> str) (f : mih -> str -> Res str) : (forall h text, in_box (npts_of s) (mcur h) -> f h text = Ok (text ++ body (mcur h))) ->
  mih_loop (npts_of s) f [] = Ok (flat_map body (grid (npts_of s))).
Proof.
  intros Hf. rewrite mih_loop_visited. rewrite visited_grid by now apply wf_pos.
  rewrite (foldM_ok _ (fun text idx => text ++ body idx)).
  - f_equal. transitivity ([] ++ flat_map body (grid (npts_of s))); [|reflexivity]. generalize (@nil ascii) as acc.
    generalize (grid (npts_of s)) as g. induction g as [|idx g IH]; intros acc; cbn [fold_left flat_map]; [now rewrite app_nil_r|]. rewrite IH. now rewrite <- app_assoc.
  - intros text idx Hi. apply grid_In in Hi. apply Hf. exact Hi.
Qed.

Definition value_text : str := flat_map (fun idx => xnl 6 ++ flat_map (fun t => t ++ of_string "  ") (map fmt (map (coordinate s idx) (zseq 0 (Z.to_nat (ph_dim (sp_ph s))))))) (grid (npts_of s)) ++ xnl 4.
Definition weight_text : str := flat_map (fun idx => xnl 6 ++ flat_map (fun t => t ++ of_string "  ") [fmt (weight s idx)]) (grid (npts_of s)) ++ xnl 4.
Definition deg_text : str := flat_map (fun t => xnl 6 ++ t) (map int_str (degs_of s)) ++ xnl 4.
Definition knot_text (kv : list R) : str := flat_map (fun t => xnl 8 ++ t) (map fmt kv) ++ xnl 6.
Definition entry_of : xml_entry :=
  mkXml (int_str d) (int_str (ph_dim (sp_ph s))) (int_str (ph_dim (sp_ph s))) (int_str (total (npts_of s)))
    (xml_names (ph_dim (sp_ph s))) value_text (match ph_wts (sp_ph s) with None => None | Some _ => Some weight_text end) deg_text (map knot_text (knots_of s)).

Lemma write_values : xml_values (F := F) fmt s = Ok value_text.
Proof.
  unfold xml_values, value_text.
  rewrite (xml_loop (fun idx => xnl 6 ++ flat_map (fun t => t ++ of_string "  ") (map fmt (map (coordinate s idx) (zseq 0 (Z.to_nat (ph_dim (sp_ph s)))))))); [reflexivity|].
  intros h text Hi. rewrite (concatM_ok _ (fun j => fmt (coordinate s (mcur h) j) ++ of_string "  ")).
  - cbn [bind]. unfold sp_pdim. now rewrite flat_map_concat_map, !map_map.
  - intros j Hj. apply zseq_In in Hj. unfold sp_pdim in Hj. pose proof (wf_dim s Hwf).
    exact (f_equal (fun m : Res R => bind m _) (cp_value_ok dz s (mcur h) j (wf_dim s Hwf) Hi (wf_cps s Hwf) ltac:(lia))).
Qed.
Lemma write_weights w : ph_wts (sp_ph s) = Some w -> xml_weights (F := F) fmt s = Ok weight_text.
Proof.
  intros Ew. unfold xml_weights, weight_text. rewrite (xml_loop (fun idx => xnl 6 ++ flat_map (fun t => t ++ of_string "  ") [fmt (weight s idx)])); [reflexivity|].
  intros h text Hi. cbn [flat_map]. rewrite app_nil_r. exact (f_equal (fun m : Res R => bind m _) (weight_ok dz s (mcur h) Hi (wf_wts s Hwf))).
Qed.
Lemma write_degrees : xml_degrees (F := F) d s = Ok deg_text.
Proof.
  destruct xml_lengths as [_ L]. unfold xml_degrees, deg_text. rewrite (concatM_ok _ (fun i => xnl 6 ++ int_str (nth (Z.to_nat i) (degs_of s) 0))).
  - cbn [bind]. f_equal. f_equal. rewrite <- L. rewrite flat_map_concat_map, map_map. f_equal. exact (map_nth_zseq (fun q => xnl 6 ++ int_str q) (degs_of s) 0).
  - intros i Hi. apply zseq_In in Hi. unfold sp_deg. fold (degs_of s). rewrite (dget_nth (degs_of s) _ 0) by lia. reflexivity.
Qed.
Lemma write_knots : xml_knots (F := F) fmt d s = Ok (map knot_text (knots_of s)).
Proof.
  destruct xml_lengths as [L _]. unfold xml_knots. rewrite (mapM_ok _ (fun i => knot_text (nth (Z.to_nat i) (knots_of s) []))).
  - f_equal. rewrite <- L. exact (map_nth_zseq knot_text (knots_of s) []).
  - intros i Hi. apply zseq_In in Hi. unfold sp_knots.
    assert (ED : dget (ps_knots (sp_ps s)) (Z.to_nat i) = Ok (nth (Z.to_nat i) (knots_of s) [])) by (apply (dget_nth (A := list R) (knots_of s)); lia).
    rewrite ED. cbn [bind]. unfold knot_text. now rewrite !flat_map_concat_map, map_map.
Qed.
Lemma write_entry : xml_spline (F := F) fmt d o = Ok entry_of.
Proof.
  assert (ED : get_spline d o = Ok s /\ is_rational d o = Ok (match ph_wts (sp_ph s) with None => false | Some _ => true end)).
  { pose proof H as H0; destruct H0 as [(Hz & Ho) _ Hd _ _]. split.
    - destruct Ho as [(-> & _)|(-> & _)]; cbn [get_spline]; now rewrite Z.eqb_refl.
    - destruct Ho as [(-> & E)|(-> & w & E)]; cbn [is_rational]; rewrite Z.eqb_refl; [unfold is_bspline in E|]; now rewrite E. }
  destruct ED as [E1 E2]. unfold xml_spline. rewrite E1. cbn [bind].
  assert (EN : num_control_points (sp_ph s) = Ok (total (npts_of s))).
  { pose proof (wf_dim s Hwf) as D. pose proof (wf_cps s Hwf) as E. unfold num_control_points, idiv. rnorm. rewrite E. replace (ph_dim (sp_ph s) =? 0) with false by (symmetry; apply Z.eqb_neq; lia).
    f_equal. rewrite Z.mul_comm, Z.quot_mul by lia. reflexivity. }
  rewrite EN. cbn [bind]. rewrite write_values. cbn [bind]. rewrite E2. cbn [bind].
  assert (EW : (if match ph_wts (sp_ph s) with None => false | Some _ => true end then t <- xml_weights (F := F) fmt s ;; Ok (Some t) else Ok None)
     = Ok (match ph_wts (sp_ph s) with None => None | Some _ => Some weight_text end)).
  { destruct (ph_wts (sp_ph s)) as [w|] eqn:Ew; [|reflexivity]. now rewrite (write_weights w Ew). }
  rewrite EW. cbn [bind]. rewrite write_degrees. cbn [bind]. rewrite write_knots. reflexivity.
Qed.

Definition xback : spline F := rebuilt rv rv (fun idx c => rv (coordinate s idx c)) s (ph_dim (sp_ph s)).
Definition xback_object : any (spline F) := match ph_wts (sp_ph s) with None => AnyB d xback | Some _ => AnyN d xback end.

Lemma read_values : to_numbers (F := F) (split value_text " ") = Ok (concat (new_points (dz := dz) (fun idx c => rv (coordinate s idx c)) s (ph_dim (sp_ph s)))).
Proof.
  destruct (gap_xnl 6) as [G1 _]. destruct gap_two as [G2 G3]. unfold value_text.
  rewrite (split_gap _ (flat_map (fun idx => map fmt (map (coordinate s idx) (zseq 0 (Z.to_nat (ph_dim (sp_ph s)))))) (grid (npts_of s)))).
  - rewrite <- map_flat_map. rewrite read_numbers.
    + f_equal. unfold new_points, new_row. rewrite map_flat_map, flat_map_concat_map. f_equal. apply map_ext. intros idx. now rewrite map_map.
    + apply Forall_flat_map. eapply Forall_impl; [|exact xml_box]. intros idx Hi. now apply xml_coords.
  - apply pieces_rows; auto; [apply gap_xnl|]. intros idx Hi. apply grid_In in Hi. apply fmt_wordy. now apply xml_coords.
Qed.
Lemma read_weights w : ph_wts (sp_ph s) = Some w -> to_numbers (F := F) (split weight_text " ") = Ok (map (fun idx => rv (weight s idx)) (grid (npts_of s))).
Proof.
  intros Ew. destruct (gap_xnl 6) as [G1 _]. destruct gap_two as [G2 G3]. unfold weight_text.
  rewrite (split_gap _ (flat_map (fun idx => [fmt (weight s idx)]) (grid (npts_of s)))).
  - rewrite flat_map_single. rewrite <- (map_map (weight s) fmt). rewrite read_numbers; [now rewrite map_map|].
    rewrite Forall_map. eapply Forall_impl; [|exact xml_box]. intros idx Hi. now apply (xml_weight idx w).
  - apply pieces_rows; auto; [apply gap_xnl|]. intros idx Hi. apply grid_In in Hi. apply (fmt_wordy [weight s idx]). constructor; [|constructor]. now apply (xml_weight idx w).
Qed.
Lemma read_degs : xml_get_degrees d entry_of = Ok (degs_of s).
Proof.
  destruct xml_lengths as [_ L]. destruct (gap_xnl 6) as [G1 G1']. destruct (gap_xnl 4) as [G2 G2']. pose proof xml_degs as D. unfold xml_get_degrees, entry_of. cbn [xe_deg]. unfold deg_text.
  rewrite (split_gap _ (map int_str (degs_of s))).
  - rewrite (mapM_ok _ (fun i => nth (Z.to_nat i) (degs_of s) 0)).
    + f_equal. rewrite <- L. etransitivity; [exact (map_nth_zseq (fun q => q) (degs_of s) 0) | apply map_id].
    + intros i Hi. apply zseq_In in Hi. rewrite (vget_nth (A := str) (map int_str (degs_of s)) i []) by (unfold zlen; rewrite map_length; lia). cbn [bind].
      rewrite (nth_map_in _ _ _ 0) by lia. apply stoi_int. rewrite Forall_forall in D. apply D. apply nth_In. lia.
  - apply pieces_before; auto. unfold wordy. rewrite Forall_map. eapply Forall_impl; [|exact D]. intros q Hq. destruct (int_plain q Hq) as [A B]. split; auto. now apply harmless_no_break.
Qed.
Lemma read_knot_lists : xml_get_knots (F := F) d entry_of = Ok (new_knots rv s).
Proof.
  destruct xml_lengths as [L _]. unfold xml_get_knots, entry_of. cbn [xe_knots].
  rewrite (mapM_ok _ (fun i => map rv (nth (Z.to_nat i) (knots_of s) []))).
  - f_equal. rewrite <- L. exact (map_nth_zseq (map rv) (knots_of s) []).
  - intros i Hi. apply zseq_In in Hi. rewrite (nth_map_in _ _ _ []) by (rnorm; lia). set (kv := nth (Z.to_nat i) (knots_of s) []).
    assert (K : Forall P kv) by (pose proof (pp_knots _ _ _ (xr_prints _ _ _ _ _ H)) as K; rewrite Forall_forall in K; apply K; apply nth_In; rnorm; lia).
    destruct (gap_xnl 8) as [G1 G1']. destruct (gap_xnl 6) as [G2 G2']. unfold knot_text. rewrite (split_gap _ (map fmt kv)); [now apply read_numbers|].
    apply pieces_before; auto. now apply fmt_wordy.
Qed.
Lemma find_names dim : find_x 0 (split (xml_names dim) " ") = 0.
Proof. unfold xml_names. destruct (dim =? 1), (dim =? 2), (dim =? 3), (dim =? 4); vm_compute; reflexivity. Qed.
Lemma read_points : xml_get_points (F := F) entry_of = Ok (new_points (dz := dz) (fun idx c => rv (coordinate s idx c)) s (ph_dim (sp_ph s))).
Proof.
  pose proof (wf_dim s Hwf) as D. destruct (xr_size _ _ _ _ _ H) as (_ & Ht & Hd). destruct (wf_grid s Hwf) as [Hg H1].
  unfold xml_get_points. cbn [entry_of xe_values xe_names xe_space_dim xe_vars xe_points]. rewrite find_names.
  set (pts := new_points (dz := dz) (fun idx c => rv (coordinate s idx c)) s (ph_dim (sp_ph s))).
  assert (EV := read_values). fold pts in EV.
  rewrite !stoi_int by lia.
  match goal with |- bind _ ?k = _ => transitivity (bind (Ok (concat pts)) k); [exact (f_equal (fun m : Res (list R) => bind m k) EV)|] end. cbn [bind].
  assert (Lr := new_rows_len (dz := dz) (fun idx c => rv (coordinate s idx c)) s (ph_dim (sp_ph s)) ltac:(lia)). fold pts in Lr.
  assert (Lp : zlen pts = total (npts_of s)) by (unfold pts, new_points, zlen in *; rewrite map_length; exact Hg).
  assert (Lc := concat_zlen pts (ph_dim (sp_ph s)) Lr).
  rewrite (mapM_ok _ (fun i => nth (Z.to_nat i) pts [])).
  - f_equal. replace (Z.to_nat (total (npts_of s))) with (List.length pts) by (unfold zlen in Lp; lia). etransitivity; [exact (map_nth_zseq (fun q => q) pts []) | apply map_id].
  - intros i Hi. apply zseq_In in Hi.
    assert (Ei : zlen (nth (Z.to_nat i) pts []) = ph_dim (sp_ph s)). { rewrite Forall_forall in Lr. apply Lr. apply nth_In. unfold zlen in Lp. lia. }
    rewrite (mapM_ok _ (fun j => nth (Z.to_nat j) (nth (Z.to_nat i) pts []) 0%R)).
    + f_equal. replace (Z.to_nat (ph_dim (sp_ph s))) with (List.length (nth (Z.to_nat i) pts [])) by (unfold zlen in Ei; lia). etransitivity; [exact (map_nth_zseq (fun q => q) (nth (Z.to_nat i) pts []) 0%R) | apply map_id].
    + intros j Hj. apply zseq_In in Hj. rewrite <- (concat_nth pts (ph_dim (sp_ph s)) i j Lr) by lia.
      replace (i * ph_dim (sp_ph s) + j) with (ph_dim (sp_ph s) * i + j) by lia.
      apply (vget_nth (A := R)). rnorm. rewrite Lc, Lp. nia.
Qed.
Lemma xml_read_spline : xml_get_spline (F := F) d entry_of (new_points (dz := dz) (fun idx c => rv (coordinate s idx c)) s (ph_dim (sp_ph s))) = Ok xback_object.
Proof.
  pose proof (wf_dim s Hwf) as D. unfold xml_get_spline. rewrite read_knot_lists. cbn [bind]. rewrite read_degs. cbn [bind].
  pose proof (rebuilt_ok rv rv (fun idx c => rv (coordinate s idx c)) s (ph_dim (sp_ph s)) Hwf D ltac:(destruct (xr_size _ _ _ _ _ H) as (_ & X & _); lia)) as E.
  unfold new_weights in E. unfold xback_object, xback. cbn [entry_of xe_wght]. destruct (ph_wts (sp_ph s)) as [w|] eqn:Ew.
  - match goal with |- bind _ ?k = _ => transitivity (bind (Ok (map (fun idx => rv (weight s idx)) (grid (npts_of s)))) k); [exact (f_equal (fun m : Res (list R) => bind m k) (read_weights w Ew))|] end.
    cbn [bind]. exact (f_equal (fun m : Res (spline F) => bind m _) E).
  - exact (f_equal (fun m : Res (spline F) => bind m _) E).
Qed.
Lemma xback_holds : holds d xback_object xback.
Proof.
  destruct (rebuilt_knots (dz := dz) rv rv (fun idx c => rv (coordinate s idx c)) s (ph_dim (sp_ph s))) as (A & B & C & D & E). fold xback in A, B, C, D, E.
  unfold holds. rewrite B. split; [apply H|]. unfold xback_object. destruct (ph_wts (sp_ph s)) eqn:Ew.
  - right. split; auto. destruct (ph_wts (sp_ph xback)) as [w|]; [eauto|]. destruct E as [E _]. specialize (E eq_refl). discriminate.
  - left. split; auto. now apply E.
Qed.
Lemma xback_close : plain_back fmt tol s xback.
Proof.
  pose proof (wf_dim s Hwf) as D. pose proof (xr_prints _ _ _ _ _ H) as [P1 P2 P3]. split.
  - now apply rebuilt_shape.
  - apply rebuilt_sound; auto. destruct (xr_size _ _ _ _ _ H) as (_ & X & _). lia.
  - apply rebuilt_within. eapply Forall_impl; [|exact P1]. intros kv Hk. eapply Forall_impl; [|exact Hk]. intros x Hx. now apply rval_back.
  - intros idx Hi. unfold xback. rewrite rebuilt_weight by auto. destruct (ph_wts (sp_ph s)) as [w|] eqn:Ew.
    + apply (rval_back (dz := dz) fmt tol). apply (xml_weight idx w); auto. now apply all_indices_box.
    + assert (weight s idx = 1%R) as -> by (unfold weight; now rewrite Ew). split; [|auto]. rewrite Rminus_diag_eq by auto. rewrite Rabs_R0.
      destruct (rval_ok (dz := dz) fmt tol _ (P3 idx 0 Hi ltac:(lia))) as [_ T]. eapply Rle_trans; [|exact T]. apply Rabs_pos.
  - intros idx c Hi Hc. unfold xback. rewrite rebuilt_coordinate by auto. now apply (rval_back (dz := dz) fmt tol), P3.
Qed.
Lemma xml_dimension : get_dimension o = Ok d.
Proof. pose proof H as H0; destruct H0 as [(Hz & Ho) _ Hd _ _]. apply dimension_ok; [|lia]. destruct Ho as [(-> & _)|(-> & _)]; exists s; auto. Qed.
End One.

Lemma xml_round_trip os ss : Forall2 (fun o s => exists d, xml_ready fmt tol d o s) os ss ->
  exists doc os' ss', write_xml (F := F) fmt os = Ok doc /\ read_xml (F := F) doc = Ok os' /\
    Forall2 (fun o' s' => exists d, holds d o' s') os' ss' /\ Forall2 (plain_back fmt tol) ss ss'.
Proof.
  intros H.
  assert (G : forall a b, exists es os' ss', foldM (fun doc spl => d <- get_dimension spl ;; if (1 <=? d) && (d <=? 4) then e <- xml_spline (F := F) fmt d spl ;; Ok (doc ++ [e]) else Ok doc) os a = Ok (a ++ es) /\
     foldM (fun acc e => points <- xml_get_points e ;; d <- stoi (xe_spl_dim e) ;; if (1 <=? d) && (d <=? 4) then s <- xml_get_spline (F := F) d e points ;; Ok (acc ++ [s]) else Ok acc) es b = Ok (b ++ os') /\
     Forall2 (fun o' s' => exists d, holds d o' s') os' ss' /\ Forall2 (plain_back fmt tol) ss ss').
  { induction H as [|o s os ss (d & Hd) H IH]; intros a b.
    - exists [], [], []. cbn [foldM]. rewrite !app_nil_r. repeat split; constructor.
    - destruct (IH (a ++ [entry_of d s]) (b ++ [xback_object d s])) as (es & os' & ss' & E1 & E2 & F1 & F2).
      exists (entry_of d s :: es), (xback_object d s :: os'), (xback s :: ss'). pose proof (xr_dim _ _ _ _ _ Hd) as D.
      assert (Ed : ((1 <=? d) && (d <=? 4))%bool = true) by (apply andb_true_iff; split; apply Z.leb_le; lia).
      split; [|split; [|split]].
      + cbn [foldM]. rewrite (xml_dimension d o s Hd). cbn [bind]. rewrite Ed. rewrite (write_entry d o s Hd). cbn [bind]. rewrite E1. now rewrite <- app_assoc.
      + cbn [foldM]. rewrite (read_points d o s Hd). cbn [bind]. cbn [entry_of xe_spl_dim]. rewrite stoi_int by lia. cbn [bind]. rewrite Ed.
        fold (entry_of d s). rewrite (xml_read_spline d o s Hd). cbn [bind]. rewrite E2. now rewrite <- app_assoc.
      + constructor; auto. exists d. now apply (xback_holds d o).
      + constructor; auto. now apply (xback_close d o). }
  destruct (G [] []) as (es & os' & ss' & E1 & E2 & F1 & F2). exists es, os', ss'. auto.
Qed.
End Xml.
