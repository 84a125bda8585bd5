(* Construction and evaluation of NURBS in doubles. *)
From Coq Require Import ZArith List Bool Lia Reals Floats Lra Psatz.
From Verif Require Import Base BaseFacts RSum MultiIndex MultiIndexSpec MultiIndexFacts TensorSum
  KnotVec KnotVecSpec KnotVecFacts Basis BasisSpec BSplineTheory BasisFacts
  Spaces SpacesSpec SpacesFacts SplineEval SplineSpec EvalFacts RationalDeriv EvalDeriv EvalThms SplineNew
  DoubleSpec DoubleFacts DoubleError DoubleKnots DoubleBasis DoubleSum DoubleEval DoubleThms DoubleRationalSpec.
Import ListNotations.
Open Scope Z_scope.

Lemma fspline_new_w (knots : list (list float)) degs (cps : list (list float)) (wts : list float) dim :
  Forall2 double_direction knots degs -> Forall (fun cp => zlen cp = dim) cps ->
  zlen cps = total (point_counts knots degs) -> zlen cps < 2 ^ 64 -> zlen wts = zlen cps ->
  spline_new (F := Fops) knots degs cps (Some wts) =
    Ok (mkSpline (F := Fops) (fmkps knots degs) (mkPhys (F := Fops) dim (point_counts knots degs) (concat cps) (Some wts))).
Proof.
  intros Hd Hc Hn Hb Hw. pose proof (fspline_new_ok knots degs cps dim Hd Hc Hn Hb) as E. unfold spline_new in *.
  destruct (ps_new (F := Fops) knots degs) as [ps| |]; cbn [bind] in *; try discriminate. unfold wphys_new.
  destruct (phys_new _ _) as [p| |]; cbn [bind] in *; try discriminate. injection E as -> ->.
  change (num Fops) with float. rewrite Hw, Z.eqb_refl. reflexivity.
Qed.

(* the sums over all control points and over the visited ones *)
Lemma sum_visited L (g : list Z -> R) : Forall (good_fdir noz) L ->
  lsum (fun idx => (basis_product (map (map dval) (map fk L)) (map fp L) (map dval (map fu L)) idx * g idx)%R)
    (all_indices (point_counts (map fk L) (map fp L))) =
  lsum (fun cur => (prodf (map dfactor (map ex L)) (map2 Z.add cur (map (fun d => fsp d - fp d)%Z L)) *
      g (map2 Z.add cur (map (fun d => fsp d - fp d)%Z L)))%R)
    (visited (map (fun q => q + 1) (map fp L))).
Proof.
  intros HL. pose proof (ex_good noz L HL) as HG.
  assert (E1 : map (map dval) (map fk L) = map EvalFacts.dk (map ex L)) by (rewrite !map_map; reflexivity).
  assert (E2 : map dval (map fu L) = map du (map ex L)) by (rewrite !map_map; reflexivity).
  rewrite E1, E2, <- (ex_lens L), <- (ex_shift L).
  pose proof (visited_sum noz (map ex L) g HG) as V. cbv zeta in V.
  rewrite (ex_dp L) in V. rewrite V. rewrite <- tsum_boxl by (now rewrite !map_length).
  rewrite all_indices_boxl, lensL_ranges.
  apply lsum_ext. intros idx Hi. rewrite <- (ex_dp L). rewrite (basis_product_dirs noz); auto using ex_order0.
  apply all_indices_box. now rewrite all_indices_boxl, lensL_ranges.
Qed.
Lemma point_counts_map (knots : list (list float)) degs : point_counts (map (map dval) knots) degs = point_counts knots degs.
Proof.
  unfold point_counts. revert degs; induction knots as [|kv knots IH]; intros [|p degs]; cbn; auto. now rewrite zlen_map, IH.
Qed.

Definition fweight (npts : list Z) (wts : list float) (idx : list Z) : float := nth (Z.to_nat (position npts idx)) wts 0%float.

Lemma fweight_ok dim npts (flat wts : list float) idx : zlen wts = total npts -> in_box npts idx ->
  get_weight (mkPhys (F := Fops) dim npts flat (Some wts)) idx = Ok (fweight npts wts idx).
Proof.
  intros Hw Hb. pose proof (position_range _ _ Hb) as Hr. unfold get_weight. cbn [ph_wts ph_npts]. unfold fweight.
  rewrite <- position_get1d. apply (vget_nth (A := float)). change (num Fops) with float. lia.
Qed.

Lemma fhomogeneous_ok npts (cps : list (list float)) (wts : list float) dim idx c : Forall (fun cp => zlen cp = dim) cps ->
  zlen cps = total npts -> zlen wts = total npts -> in_box npts idx -> 0 <= c < dim ->
  (hcp <- get_homogeneous (mkPhys (F := Fops) dim npts (concat cps) (Some wts)) idx ;; vget hcp c) =
  Ok (fcoord npts cps idx c * fweight npts wts idx)%float.
Proof.
  intros Hd Hn Hw Hb Hc. pose proof (position_range _ _ Hb) as Hr. pose proof (get1d_range _ _ Hb) as Gr.
  unfold get_homogeneous. cbn [ph_wts ph_npts ph_dim ph_cps].
  assert (Ew : vget (A := float) wts (get1d npts idx) = Ok (fweight npts wts idx)).
  { unfold fweight. rewrite <- position_get1d. apply (vget_nth (A := float)). lia. }
  rewrite (mapM_ok _ (fun c => nth (Z.to_nat (dim * get1d npts idx + c)) (concat cps) 0 * fweight npts wts idx)%float).
  - cbn [bind]. change (num Fops) with float. rewrite Ew. cbn [bind].
    etransitivity; [refine (vget_nth (A := float) _ c 0%float _); unfold zlen; rewrite app_length, map_length, zseq_length; cbn [length]; lia|].
    rewrite app_nth1 by (rewrite map_length, zseq_length; lia).
    rewrite (nth_map_in _ _ _ 0) by (rewrite zseq_length; lia). rewrite zseq_nth by lia. rewrite Z2Nat.id, Z.add_0_l by lia.
    unfold fcoord. rewrite <- position_get1d. do 2 f_equal. apply (fconcat_nth cps dim); auto. lia.
  - intros c' Hc'. apply zseq_In in Hc'.
    assert (Ex : vget (A := float) (concat cps) (dim * get1d npts idx + c') = Ok (nth (Z.to_nat (dim * get1d npts idx + c')) (concat cps) 0%float)).
    { apply (vget_nth (A := float)). rewrite (fconcat_zlen cps dim Hd), Hn. nia. }
    change (num Fops) with float. rewrite Ex. cbn [bind]. unfold idiv.
    replace (dim =? 0) with false by (symmetry; apply Z.eqb_neq; lia). cbn [bind].
    rewrite (Z.mul_comm dim), Z.quot_mul by lia. rewrite Ew. reflexivity.
Qed.

Lemma fsum_fold {I} (f : I -> Res float) (g : I -> float) (l : list I) v :
  (forall i, In i l -> f i = Ok (g i)) ->
  foldM (fun v i => x <- f i ;; Ok (v + x)%float) l v = Ok (fold_left (fun v i => (v + g i)%float) l v).
Proof.
  revert v; induction l as [|i l IH]; intros v H; cbn [foldM fold_left]; auto.
  rewrite (H i) by now left. cbn [bind]. apply IH. intros; apply H; now right.
Qed.

Section Rational.
Context (L : list fdir) (cps : list (list float)) (wts : list float) (dim : Z).
Context (HL : Forall (good_fdir noz) L) (Hd : Forall (fun cp => zlen cp = dim) cps).
Let npts := point_counts (map fk L) (map fp L).
Let sh := map (fun d => fsp d - fp d)%Z L.
Let vis := visited (map (fun q => q + 1) (map fp L)).
Context (Hn : zlen cps = total npts) (Hw : zlen wts = total npts).
Let s := mkSpline (F := Fops) (psF L) (mkPhys (F := Fops) dim npts (concat cps) (Some wts)).

Definition fwsum : float :=
  fold_left (fun v cur => (v + fprod 1 L (map2 Z.add cur sh) * fweight npts wts (map2 Z.add cur sh))%float) vis 0%float.

Lemma fwsum_ok : weight_sum s (map fu L) = Ok fwsum.
Proof.
  unfold weight_sum, s. cbn [sp_ps]. rewrite (ffirst_ok noz) by auto. cbn [bind]. rewrite mih_loop_visited. cbn [mcur].
  unfold num_to_evaluate. cbn [sp_ps]. change (ps_degs (psF L)) with (map fp L). fold vis sh.
  apply (fsum_fold (fun idx => evaluated_weight s (map fu L) (map2 Z.add idx sh))
     (fun cur => (fprod 1 L (map2 Z.add cur sh) * fweight npts wts (map2 Z.add cur sh))%float)).
  intros cur Hc. destruct (fvisited noz L cur HL Hc) as [Ha Hb]. unfold evaluated_weight, s. cbn [sp_ps sp_ph].
  rewrite (fbasis_ok noz) by auto. cbn [bind]. rewrite fweight_ok by auto. reflexivity.
Qed.

Lemma feval_w dims : Forall (fun c => 0 <= c < dim) dims ->
  evaluate s (map fu L) dims =
  Ok (map (fun c => fold_left (fun v cur => (v + fprod 1 L (map2 Z.add cur sh) *
              (fcoord npts cps (map2 Z.add cur sh) c * fweight npts wts (map2 Z.add cur sh)) / fwsum)%float) vis 0%float) dims).
Proof.
  intros Hv. unfold evaluate. assert (Es : sp_ps s = psF L) by reflexivity. rewrite Es. rewrite (fthrow_ok noz) by auto. cbn [bind].
  rewrite (ffirst_ok noz) by auto. cbn [bind]. rewrite mih_loop_visited. cbn [mcur]. unfold num_to_evaluate. rewrite Es.
  change (ps_degs (psF L)) with (map fp L). fold vis sh.
  etransitivity; [apply (fpoint_fold
    (fun idx c => evaluated_control_point s (map fu L) (map2 Z.add idx sh) c)
    (fun cur c => (fprod 1 L (map2 Z.add cur sh) *
              (fcoord npts cps (map2 Z.add cur sh) c * fweight npts wts (map2 Z.add cur sh)) / fwsum)%float)
    vis dims (repeat 0%float (length dims)))|].
  - now rewrite repeat_length.
  - intros cur c Hc Hin. destruct (fvisited noz L cur HL Hc) as [Ha Hb]. rewrite Forall_forall in Hv. specialize (Hv c Hin).
    unfold evaluated_control_point. rewrite Es. rewrite (fbasis_ok noz) by auto. cbn [bind].
    pose proof (fhomogeneous_ok npts cps wts dim _ c Hd Hn Hw Hb Hv) as E. fold sh in E.
    change (ph_wts (sp_ph s)) with (Some wts). change (sp_ph s) with (mkPhys (F := Fops) dim npts (concat cps) (Some wts)).
    destruct (get_homogeneous _ _) as [h| |]; cbn [bind] in *; try discriminate. rewrite E. cbn [bind].
    change (sp_pdim s) with dim. replace (dim =? c) with false by (symmetry; apply Z.eqb_neq; lia).
    rewrite fwsum_ok. reflexivity.
  - now rewrite map2_repeat.
Qed.
End Rational.
