(* Closing lemmas about the spline and the file holding a solution (C58). *)
From Coq Require Import ZArith List Bool Reals Lra Lia.
From Verif Require Import Base BaseFacts RSum MultiIndex MultiIndexSpec MultiIndexFacts TensorSum KnotVec KnotVecSpec KnotVecFacts BasisSpec
  Spaces SpacesSpec SpacesFacts SplineEval SplineSpec SplineNew EvalFacts EvalThms GeneratorsFacts Convert ConvertSpec Vtk VtkSpec VtkFacts VtkThms
  IgaSpec Iga IgaSystem IgaSystemSpec Scatter IgaSystemFacts IgaSystemThms.
Import ListNotations.
Open Scope Z_scope.

Section Solution.
Context {dz : R -> R}.
Local Notation F := (Rops dz).
Implicit Types s : spline F.

Definition value_point s (solution : list R) (i : nat) : list R :=
  map (coordinate s (nth_index (npts_of s) i)) (zseq 0 (Z.to_nat (ph_dim (sp_ph s)))) ++ [component solution (Z.of_nat i)].

Lemma value_rows s (solution : list R) : well_formed s -> total (npts_of s) <= zlen solution -> forall m k acc,
  zlen acc = Z.of_nat k -> Z.of_nat (k + m) <= total (npts_of s) ->
  foldM (fun cps idx =>
           row <- mapM (fun j => cp <- get_control_point (F := F) (sp_ph s) idx ;; vget cp j) (zseq 0 (Z.to_nat (sp_pdim s))) ;;
           x <- vget solution (zlen cps) ;; Ok (cps ++ [row ++ [x]])) (map (nth_index (npts_of s)) (seq k m)) acc =
  Ok (acc ++ map (value_point s solution) (seq k m)).
Proof.
  intros Hwf Hs. induction m as [|m IH]; intros k acc Ha Hk; cbn [seq map foldM]; [now rewrite app_nil_r|].
  assert (Hb : in_box (npts_of s) (nth_index (npts_of s) k)).
  { pose proof (box_number (npts_of s) (Z.of_nat k) (npts_pos s Hwf) ltac:(lia)) as (H & _). now rewrite Nat2Z.id in H. }
  rewrite (mapM_ok _ (coordinate s (nth_index (npts_of s) k))).
  2:{ intros j Hj. rewrite (get_cp_nth s) by auto. cbn [bind]. apply zseq_In in Hj. change (num F) with R. unfold sp_pdim in Hj.
      rewrite (vget_nth (A := R) _ _ (coordinate s (nth_index (npts_of s) k) 0)) by (unfold zlen; rewrite map_length, zseq_length; lia).
      rewrite map_nth. f_equal. f_equal. rewrite zseq_map. rewrite (nth_indep _ 0 (0 + Z.of_nat 0)%Z) by (rewrite map_length, seq_length; lia).
      rewrite (map_nth (fun k => 0 + Z.of_nat k)%Z), seq_nth by lia. lia. }
  cbn [bind]. change (num F) with R in *. rewrite Ha, (vget_nth solution _ 0%R) by lia. cbn [bind].
  refine (eq_trans (IH (S k) _ _ _) _); [unfold zlen in *; rewrite app_length; cbn [length]; lia|lia|].
  rewrite <- app_assoc. reflexivity.
Qed.

Definition value_spline s (solution w : list R) : spline F :=
  mkSpline (F := F) (sp_ps s) (mkPhys (F := F) (ph_dim (sp_ph s) + 1) (npts_of s)
    (concat (map (value_point s solution) (seq 0 (Z.to_nat (total (npts_of s)))))) (Some w)).

Lemma value_points_dim s solution l : well_formed s -> Forall (fun cp => zlen cp = ph_dim (sp_ph s) + 1) (map (value_point s solution) l).
Proof.
  intros Hwf. pose proof (wf_dim s Hwf). apply Forall_map, Forall_forall. intros i _. unfold value_point, zlen. rewrite app_length, map_length, zseq_length. cbn [length]. lia.
Qed.

Lemma solution_spline_ok s solution w : well_formed s -> ph_wts (sp_ph s) = Some w -> total (npts_of s) < 2 ^ 64 -> total (npts_of s) <= zlen solution ->
  solution_spline (F := F) s solution = Ok (value_spline s solution w) /\ well_formed (value_spline s solution w).
Proof.
  intros Hwf Ew Hb Hs. pose proof (npts_pos s Hwf) as Hp. pose proof (total_pos _ Hp) as Ht. pose proof (wf_dim s Hwf) as Hd.
  set (P := map (value_point s solution) (seq 0 (Z.to_nat (total (npts_of s))))).
  assert (LP : zlen P = total (npts_of s)) by (unfold P, zlen; rewrite map_length, seq_length; lia).
  assert (DP : Forall (fun cp => zlen cp = ph_dim (sp_ph s) + 1) P) by now apply value_points_dim.
  split.
  - unfold solution_spline. rewrite (count_ok s Hwf). cbn [bind]. fold (npts_of s).
    change (mih_for ?n (mih_new ?l) ?b ?a) with (mih_loop l b a). rewrite mih_loop_visited. cbn [mcur]. unfold visited.
    refine (eq_trans (f_equal (fun r => bind r _) (value_rows s solution Hwf Hs (Z.to_nat (total (npts_of s))) 0%nat [] eq_refl ltac:(lia))) _). fold P. cbn [bind app].
    unfold with_points, ps_copy. pose proof (wf_bases s Hwf) as Eb. unfold knots_of, degs_of in Eb. rewrite Eb. cbn [bind].
    unfold wphys_new. fold (npts_of s). rewrite (phys_new_ok dz P _ (ph_dim (sp_ph s) + 1)); auto; [|intros C; rewrite C in LP; unfold zlen in LP; cbn in LP; lia].
    cbn [bind ph_dim ph_npts ph_cps]. rewrite Ew. pose proof (wf_wts s Hwf w Ew) as Lw. change (num F) with R in *. rewrite LP, Lw, Z.eqb_refl. cbn [bind].
    unfold value_spline. destruct (sp_ps s); reflexivity.
  - split; cbn [value_spline sp_ps sp_ph ph_dim ph_npts ph_cps ph_wts npts_of knots_of degs_of].
    + exact (wf_directions s Hwf).
    + exact (wf_bases s Hwf).
    + exact (wf_npts s Hwf).
    + lia.
    + fold P. change (num F) with R. rewrite (concat_zlen P (ph_dim (sp_ph s) + 1)) by auto. now rewrite LP.
    + intros w' E. injection E as <-. exact (wf_wts s Hwf w Ew).
Qed.

Lemma value_coordinate s solution w idx c : well_formed s -> in_box (npts_of s) idx -> 0 <= c <= ph_dim (sp_ph s) ->
  coordinate (value_spline s solution w) idx c = if c =? ph_dim (sp_ph s) then component solution (position (npts_of s) idx) else coordinate s idx c.
Proof.
  intros Hwf Hb Hc. pose proof (position_range _ _ Hb) as Hr. pose proof (wf_dim s Hwf) as Hd.
  unfold coordinate at 1. cbn [value_spline sp_ph ph_dim ph_cps ph_npts npts_of].
  change (npts_of (value_spline s solution w)) with (npts_of s).
  rewrite (concat_nth _ (ph_dim (sp_ph s) + 1)); [| now apply value_points_dim | unfold zlen; rewrite map_length, seq_length; lia | lia].
  rewrite (nth_indep _ [] (value_point s solution 0)) by (rewrite map_length, seq_length; lia).
  rewrite map_nth, seq_nth by lia. cbn [Nat.add]. unfold value_point. rewrite number_box by auto. rewrite Z2Nat.id by lia.
  destruct (Z.eqb_spec c (ph_dim (sp_ph s))) as [->|Hne].
  - rewrite app_nth2 by (rewrite map_length, zseq_length; lia). rewrite map_length, zseq_length, Nat.sub_diag. reflexivity.
  - rewrite app_nth1 by (rewrite map_length, zseq_length; lia).
    rewrite (nth_indep _ 0%R (coordinate s idx 0)) by (rewrite map_length, zseq_length; lia). rewrite map_nth. f_equal.
    rewrite zseq_map. rewrite (nth_indep _ 0 (0 + Z.of_nat 0)%Z) by (rewrite map_length, seq_length; lia).
    rewrite (map_nth (fun k => 0 + Z.of_nat k)%Z), seq_nth by lia. lia.
Qed.

Lemma value_geometry s solution w us : well_formed s -> ph_wts (sp_ph s) = Some w ->
  weight_function (value_spline s solution w) us = weight_function s us /\
  (forall c, 0 <= c < ph_dim (sp_ph s) -> geometry (value_spline s solution w) us c = geometry s us c) /\
  geometry (value_spline s solution w) us (ph_dim (sp_ph s)) = combination s solution us.
Proof.
  intros Hwf Ew. pose proof (wf_dim s Hwf) as Hd.
  assert (Wt : forall idx, weight (value_spline s solution w) idx = weight s idx) by (intros idx; unfold weight; rewrite Ew; reflexivity).
  assert (EW : weight_function (value_spline s solution w) us = weight_function s us).
  { unfold weight_function. apply lsum_ext. intros idx _. rewrite Wt. reflexivity. }
  split; auto. split.
  - intros c Hc. unfold geometry. rewrite EW. f_equal. unfold weighted_sum. apply lsum_ext. intros idx Hi.
    apply all_indices_box in Hi. rewrite Wt, value_coordinate by (auto; lia). destruct (Z.eqb_spec c (ph_dim (sp_ph s))); [lia|reflexivity].
  - unfold geometry, combination. rewrite EW. unfold Rdiv. unfold weighted_sum. rewrite <- lsum_scal_r.
    apply lsum_ext. intros idx Hi.
    apply all_indices_box in Hi. rewrite Wt, value_coordinate by (auto; lia). rewrite Z.eqb_refl. unfold nurbs_basis, Rdiv.
    change (knots_of (value_spline s solution w)) with (knots_of s). change (degs_of (value_spline s solution w)) with (degs_of s). ring.
Qed.

Lemma solution_as_spline : forall s solution w, well_formed s -> ph_wts (sp_ph s) = Some w -> total (npts_of s) < 2 ^ 64 ->
  total (npts_of s) <= zlen solution -> exists sol,
  solution_spline (F := F) s solution = Ok sol /\ well_formed sol /\
  knots_of sol = knots_of s /\ degs_of sol = degs_of s /\ npts_of sol = npts_of s /\ ph_dim (sp_ph sol) = ph_dim (sp_ph s) + 1 /\
  forall us, in_domain s us -> weight_function s us <> 0%R ->
    (forall c, 0 <= c < ph_dim (sp_ph s) -> evaluate sol us [c] = evaluate s us [c]) /\
    evaluate sol us [ph_dim (sp_ph s)] = Ok [combination s solution us].
Proof.
  intros s solution w Hwf Ew Hb Hs. destruct (solution_spline_ok s solution w Hwf Ew Hb Hs) as (E & W). pose proof (wf_dim s Hwf) as Hd.
  exists (value_spline s solution w). repeat (split; [assumption || reflexivity|]). intros us Hu Hw.
  destruct (value_geometry s solution w us Hwf Ew) as (EW & EG & EC).
  assert (Hw' : weight_function (value_spline s solution w) us <> 0%R) by now rewrite EW.
  split.
  - intros c Hc. rewrite (eval_quotient dz (value_spline s solution w)); auto; [|constructor; [cbn [value_spline sp_ph ph_dim]; lia|constructor]].
    rewrite (eval_quotient dz s); auto; [|constructor; [lia|constructor]]. cbn [map]. f_equal. f_equal. exact (EG c Hc).
  - rewrite (eval_quotient dz (value_spline s solution w)); auto; [|constructor; [cbn [value_spline sp_ph ph_dim]; lia|constructor]].
    cbn [map]. f_equal. f_equal. exact EC.
Qed.

Lemma solution_grid knots sc : Forall (fun kv => (0 < length kv)%nat) knots ->
  mapM (fun x => last <- last_knot (F := F) (fst x) ;; first <- get_knot (F := F) (fst x) 0 ;; Ok (first, ndiv (n := F) (nsub (n := F) last first) (nofZ (snd x)))) (combine knots sc) =
  Ok (map2 (fun kv n => (first_knot kv, ndiv (n := F) (final_knot kv - first_knot kv)%R (IZR n))) knots sc).
Proof.
  intros H. revert sc. induction H as [|kv knots Hk H IH]; intros [|n sc]; cbn [combine mapM map2]; auto. cbn [fst snd].
  rewrite (last_knot_ok dz kv Hk). cbn [bind].
  assert (G : get_knot (F := F) kv 0 = Ok (first_knot kv)) by (destruct kv as [|x kv]; [cbn in Hk; lia|reflexivity]).
  rewrite G. cbn [bind]. change (num F) with R in *. rewrite IH. reflexivity.
Qed.

Lemma solution_parameters knots sc idx : Forall (fun n => 1 <= n) sc ->
  map2 (fun g i => nadd (n := F) (fst g) (nmul (n := F) (nofZ i) (snd g)))
    (map2 (fun kv n => (first_knot kv, ndiv (n := F) (final_knot kv - first_knot kv)%R (IZR n))) knots sc) idx = parameters knots sc idx.
Proof.
  intros H. revert knots idx. induction H as [|n sc Hn H IH]; intros [|kv knots] [|i idx]; cbn [map2 parameters]; auto.
  rewrite IH. f_equal. cbn [fst snd]. rewrite (ndiv_R dz) by (apply not_0_IZR; lia). reflexivity.
Qed.

Lemma solution_file : forall s solution w (sc : list Z), well_formed s -> ph_wts (sp_ph s) = Some w -> Forall (fun x => 0 < x)%R w ->
  total (npts_of s) < 2 ^ 64 -> total (npts_of s) <= zlen solution ->
  length sc = length (degs_of s) -> Forall (fun n => 1 <= n) sc -> (1 <= length (degs_of s) <= 3)%nat ->
  exists data f, solution_data (F := F) s solution sc = Ok data /\
  write_vtk (F := F) [AnyN (zlen (degs_of s)) s] [sc] = Ok f /\ zlen data = vf_npoints f /\
  forall idx, in_box (samples sc) idx ->
    nth_error data (Z.to_nat (position (samples sc) idx)) = Some (combination s solution (parameters (knots_of s) sc idx)) /\
    nth_error (vf_rows f) (Z.to_nat (position (samples sc) idx)) = Some (row s sc idx).
Proof.
  intros s solution w sc Hwf Ew Hpos Hb Hs Hl Hn HD. destruct (wf_ranges s Hwf) as (R1 & R2 & R3).
  assert (Gj : Forall good_job [mkJob (dz := dz) (AnyN (zlen (degs_of s)) s) s sc]).
  { constructor; [|constructor]. split; cbn [object content divisions]; auto. right. split; [reflexivity|]. exists w. now split. }
  destruct (vtk_written _ Gj) as (f & Ef & Er & En & _). cbn [map object divisions flat_map app] in Ef, Er. rewrite app_nil_r in Er.
  unfold rows_of in Er. cbn [content divisions] in Er.
  assert (Hp : pos_lens (samples sc)) by (apply samples_pos; eapply Forall_impl; [|exact Hn]; cbv beta; intros; lia).
  destruct (solution_spline_ok s solution w Hwf Ew Hb Hs) as (Esol & Wsol).
  exists (map (fun idx => combination s solution (parameters (knots_of s) sc idx)) (grid (samples sc))), f.
  split; [|split; [exact Ef|split]].
  - unfold solution_data. rewrite Esol. cbn [bind]. fold (knots_of s).
    refine (eq_trans (f_equal (fun r => bind r _) (solution_grid (knots_of s) sc R2)) _). cbn [bind].
    rewrite mih_loop_visited. fold (samples sc). cbn [mcur]. rewrite visited_grid by auto.
    match goal with |- foldM ?f _ _ = _ => set (body := f) end.
    assert (EB : forall acc idx, In idx (grid (samples sc)) -> body acc idx = Ok (acc ++ [combination s solution (parameters (knots_of s) sc idx)])).
    { intros acc idx Hi. apply grid_In in Hi. unfold body. rewrite solution_parameters by auto.
      assert (Hu : in_domain s (parameters (knots_of s) sc idx)) by (apply parameters_in; auto; lia).
      assert (Hw : weight_function s (parameters (knots_of s) sc idx) <> 0%R) by (apply nonzero_weights; auto; right; exists w; now split).
      destruct (value_geometry s solution w (parameters (knots_of s) sc idx) Hwf Ew) as (EW & _ & EC). pose proof (wf_dim s Hwf) as Hd.
      rewrite (eval_quotient dz (value_spline s solution w)); auto; [|constructor; [cbn [value_spline sp_ph ph_dim]; unfold sp_pdim; lia|constructor]|now rewrite EW].
      cbn [map bind]. unfold sp_pdim. unfold geometry in EC. rewrite EC. reflexivity. }
    clearbody body. revert EB. generalize (grid (samples sc)). intros G EB.
    assert (E : forall acc, foldM body G acc = Ok (acc ++ map (fun idx => combination s solution (parameters (knots_of s) sc idx)) G)); [|apply (E [])].
    induction G as [|x G IH]; intros acc; cbn [foldM map]; [now rewrite app_nil_r|].
    rewrite EB by now left. cbn [bind]. rewrite IH by (intros; apply EB; now right). now rewrite <- app_assoc.
  - rewrite En, Er. unfold zlen. now rewrite !map_length.
  - intros idx Hi. rewrite Er. split.
    + exact (map_nth_error (fun idx => combination s solution (parameters (knots_of s) sc idx)) _ _ (grid_nth _ _ Hi)).
    + exact (map_nth_error (row s sc) _ _ (grid_nth _ _ Hi)).
Qed.
End Solution.
