(* The patch test: on affine patches linear functions of the physical coordinates pass the stiffness matrix. *)
From Coq Require Import ZArith List Bool Lia Reals Lra.
From Verif Require Import Base BaseFacts RSum MultiIndex MultiIndexSpec MultiIndexFacts TensorSum
  KnotVec KnotVecSpec KnotVecFacts Basis BasisSpec BSplineTheory BasisFacts
  Spaces SpacesSpec SpacesFacts SplineEval SplineSpec EvalFacts RationalDeriv EvalThms SmoothThms
  Gauss GaussSpec GaussThms IgaSpec Iga IgaFacts IgaThms IgaBasis IgaBasisThms IgaSystem IgaSystemSpec IgaBoundaryFacts Scatter IgaSystemFacts IgaAssembly IgaStiffness IgaSystemThms IgaBoundaryThms
  IgaSystemCons IntegralFacts GalerkinSpec GalerkinFacts GalerkinThms StiffnessExact SolvableSpec SolvableThms PatchFacts PatchSpec.
Import ListNotations.
Open Scope R_scope.

Section Dz.
Variable dz : R -> R.
Notation F := (Rops dz).

Lemma geometry_basis (s : spline F) us c : geometry s us c = lsum (fun b => nurbs_basis s us b * coordinate s b c) (all_indices (npts_of s)).
Proof.
  unfold geometry, weighted_sum, nurbs_basis, Rdiv. rewrite <- lsum_scal_r. apply lsum_ext. intros b _. ring.
Qed.

Lemma linear_combination (s : spline F) us nn alpha beta : well_formed s -> regular s -> in_domain s us ->
  lsum (fun b => nurbs_basis s us b * linear_function nn alpha beta (coordinate s b)) (all_indices (npts_of s)) =
  linear_function nn alpha beta (geometry s us).
Proof.
  intros Hwf Hreg Hu. unfold linear_function.
  rewrite (lsum_ext _ (fun b => alpha * nurbs_basis s us b + lsum (fun k => beta k * (nurbs_basis s us b * coordinate s b (Z.of_nat k))) (seq 0 nn))).
  2:{ intros b _. rewrite Rmult_plus_distr_l, <- lsum_scal. f_equal; [ring|]. apply lsum_ext. intros k _. ring. }
  rewrite lsum_plus, lsum_scal, (basis_unity s us Hwf Hu (Hreg us Hu)), Rmult_1_r. f_equal.
  rewrite lsum_swap. apply lsum_ext. intros k _. now rewrite lsum_scal, geometry_basis.
Qed.

Section Patch.
Variables (mdet : list (list R) -> R) (minv : list (list R) -> Res (list (list R))) (s : spline F) (n : Z) (rl : list (R * R)) (kappa : R)
  (A : Z -> nat -> R) (b : Z -> R) (W : nat -> nat -> R).
Hypothesis Hwf : well_formed s.
Hypothesis Hw : unit_weights s.
Hypothesis Hne : degs_of s <> [].
Hypothesis Hsize : (Z.of_nat (length (degs_of s)) <= total (local_sizes (degs_of s)))%Z.
Hypothesis Hr : gauss_rule (F := F) n = Some rl.
Hypothesis Hn : Forall (fun p => p < n)%Z (degs_of s).
Hypothesis Ha : affine_map s A b.
Hypothesis Hsc : scales mdet (length (degs_of s)).
Hypothesis Hdim : (Z.of_nat (length (degs_of s)) <= ph_dim (sp_ph s))%Z.
Hypothesis Hinv : inverts minv (length (degs_of s)) (table (length (degs_of s)) (fun i d => A (Z.of_nat i) d)).
Hypothesis HW : forall i j, (i < length (degs_of s))%nat -> (j < length (degs_of s))%nat ->
     lsum (fun d => A (Z.of_nat i) d * W d j) (seq 0 (length (degs_of s))) = if Nat.eqb i j then 1 else 0.
Hypothesis Hlink : Forall2 linked_direction (knots_of s) (degs_of s).

Lemma patch_inside es us : in_box (map zlen (dlists (knots_of s) (degs_of s))) es -> strictly_inside (dlists (knots_of s) (degs_of s)) es us ->
  length us = length (degs_of s) /\ partials s us A.
Proof.
  intros He Hs. destruct (located_at s es us Hwf He Hs) as (ks & Hl). pose proof Hwf as [G _ N _ _ _]. split.
  - rewrite degs_length by auto. apply domain_length, (loc_domain _ _ _ _ Hl).
  - apply (affine_partials dz s us A b Hwf Ha). exact (spans_domain _ _ G _ _ _ _ (loc_spans _ _ _ _ Hl) Hs).
Qed.

Lemma patch_invertible : invertible minv s.
Proof.
  intros lists es us El He Hs. rewrite element_lists_ok in El by auto. injection El as <-.
  destruct (patch_inside es us He Hs) as (Ln & HA). split; [now rewrite Ln|]. intros D HD. rewrite Ln.
  rewrite (table_ext _ (fun i d => D (Z.of_nat i) d) (fun i d => A (Z.of_nat i) d)); [exact Hinv|].
  intros i d Hi Hd. apply (partials_unique s us D A); auto; lia.
Qed.

Lemma invert_right (X Y : nat -> R) : 
  (forall d, (d < length (degs_of s))%nat -> lsum (fun i => X i * A (Z.of_nat i) d) (seq 0 (length (degs_of s))) = Y d) ->
  forall k, (k < length (degs_of s))%nat -> X k = lsum (fun d => Y d * W d k) (seq 0 (length (degs_of s))).
Proof.
  intros H k Hk. set (dim := length (degs_of s)) in *.
  transitivity (lsum (fun i' => X i' * (if Nat.eqb i' k then 1 else 0)) (seq 0 dim)); [symmetry; now apply delta_sum|].
  rewrite (lsum_ext _ (fun i' => lsum (fun d => X i' * (A (Z.of_nat i') d * W d k)) (seq 0 dim))).
  2:{ intros i' Hi'. apply in_seq in Hi'. rewrite lsum_scal, HW by lia. reflexivity. }
  rewrite lsum_swap. apply lsum_ext. intros d Hd. apply in_seq in Hd.
  rewrite (lsum_ext _ (fun i' => X i' * A (Z.of_nat i') d * W d k)) by (intros; ring). rewrite lsum_scal_r. f_equal. apply H. lia.
Qed.

Lemma patch_rows : exists m,
  left_side (F := F) mdet minv s rl kappa (mat_zeros (F := F) (total (npts_of s)) (total (npts_of s))) = Ok m /\
  forall alpha beta a, in_box (npts_of s) a -> ~ at_boundary (npts_of s) a ->
  row_applied (npts_of s) m a (fun i => linear_function (length (degs_of s)) alpha beta (coordinate s i)) = 0.
Proof.
  pose proof (unit_regular s Hwf Hw) as Hreg. pose proof (gauss_inner dz n rl Hr) as Hin. pose proof Hwf as [G _ N _ _ _].
  destruct (stiffness_ok mdet minv s rl kappa Hwf Hw Hin Hne Hsize) as (lists & El & Hst).
  pose proof El as El'. rewrite element_lists_ok in El' by auto. injection El' as <-.
  destruct Hst as (jac & Gr & Hjac & Hgr & Hm); [intros es us He Hs; exact (patch_invertible _ es us El He Hs)|].
  pose proof (npts_pos s Hwf) as Hp. pose proof (total_pos _ Hp) as Ht.
  destruct (zeros_square (dz := dz) (total (npts_of s)) ltac:(lia)) as (Zs & Ze).
  destruct (Hm _ Zs) as (m & Em & Hsq & Hent). exists m. split; [exact Em|]. intros alpha beta a Hba Hnb.
  destruct (stiffness_consequences mdet minv s rl kappa m Hwf Hw Hin Hne Hsize patch_invertible Em) as (_ & Hrow & _).
  specialize (Hrow (position (npts_of s) a) (position_range _ _ Hba)).
  assert (Hrow' : lsum (fun i => entry m (position (npts_of s) a) (position (npts_of s) i)) (all_indices (npts_of s)) = 0).
  { rewrite <- Hrow. rewrite <- (lsum_numbers (fun b => entry m (position (npts_of s) a) (position (npts_of s) b))) by auto.
    apply lsum_ext. intros j Hj. apply zseq_In in Hj. destruct (box_number _ j Hp ltac:(lia)) as (_ & P). now rewrite P. }
  set (dim := length (degs_of s)) in *. unfold row_applied, linear_function.
  rewrite (lsum_ext _ (fun i => alpha * entry m (position (npts_of s) a) (position (npts_of s) i) +
    entry m (position (npts_of s) a) (position (npts_of s) i) * lsum (fun k => beta k * coordinate s i (Z.of_nat k)) (seq 0 dim))) by (intros; ring).
  rewrite lsum_plus, lsum_scal, Hrow', Rmult_0_r, Rplus_0_l.
  set (c := fun i => lsum (fun k => beta k * coordinate s i (Z.of_nat k)) (seq 0 dim)).
  change (lsum (fun i => entry m (position (npts_of s) a) (position (npts_of s) i) * c i) (all_indices (npts_of s)) = 0).
  rewrite (lsum_ext _ (fun i => IgaSystemSpec.quadrature (dlists (knots_of s) (degs_of s)) rl (fun u => c i * (jac u * (kappa * lsum (fun k => Gr u k a * Gr u k i) (seq 0 dim)))))).
  2:{ intros i Hi. apply all_indices_box in Hi. rewrite Hent, Ze, Rplus_0_l, qscal by auto. apply Rmult_comm. }
  rewrite qsum.
  rewrite (qext s rl _ (fun us => lsum (fun d => (kappa * lsum (fun k => beta k * W d k) (seq 0 dim)) *
     (jac us * prod_at (slope_factors (knots_of s) (degs_of s) (slopes_of dz (knots_of s) (degs_of s)) (Z.of_nat d) a) us)) (seq 0 dim)) Hwf Hin).
  - rewrite <- qsum. apply lsum_zero. intros d Hd. apply in_seq in Hd. rewrite qscal.
    destruct (affine_quadrature dz mdet s n rl A b jac (slope_factors (knots_of s) (degs_of s) (slopes_of dz (knots_of s) (degs_of s)) (Z.of_nat d) a)) as (x & Hx & ->); auto.
    { apply slope_factors_exact; auto. now rewrite <- N. }
    assert (x = 0) as ->; [|ring].
    pose proof (box_exact dz n rl (knots_of s) (degs_of s) Hr G _ (slope_factors_exact dz n (knots_of s) (degs_of s) G Hn (Z.of_nat d) a ltac:(now rewrite <- N))) as Hb.
    rewrite (slope_factors_zero dz n rl Hr) in Hb; auto.
    + clear - Hx Hb. revert x Hx Hb. generalize (slope_factors (knots_of s) (degs_of s) (slopes_of dz (knots_of s) (degs_of s)) (Z.of_nat d) a).
      assert (Uniq : forall knots fs y z, box_integral knots fs y -> box_integral knots fs z -> y = z).
      { induction knots as [|kv knots IH]; intros [|f fs] y z Hy Hz; cbn [box_integral] in *; try congruence.
        destruct Hy as (y1 & y2 & (pr1 & ->) & Hy & ->). destruct Hz as (z1 & z2 & (pr2 & ->) & Hz & ->).
        rewrite (IH fs y2 z2 Hy Hz). f_equal. apply RiemannInt_P5. }
      intros l x H1 H2. exact (Uniq _ _ _ _ H1 H2).
    + pose proof (inner_indices _ _ Hba Hnb) as X. now rewrite N in X.
    + rewrite <- degs_length by auto. fold dim. lia.
  - intros es us He Hs. destruct (patch_inside es us He Hs) as (Ln & HA). destruct (located_at s es us Hwf He Hs) as (ks & Hl).
    assert (Lk : length us = length (knots_of s)) by (apply domain_length, (loc_domain _ _ _ _ Hl)).
    set (nd := fun d => dprod (knots_of s) (degs_of s) (slopes_of dz (knots_of s) (degs_of s)) (Z.of_nat d) a us).
    assert (Hga : forall k, (k < dim)%nat -> Gr us k a = lsum (fun d => nd d * W d k) (seq 0 dim)).
    { intros k Hk. apply (invert_right (fun k => Gr us k a) nd); auto. fold dim. intros d Hd.
      pose proof (Hgr es us a He Hs Hba A d HA ltac:(fold dim in Ln; lia)) as L1. rewrite Ln in L1.
      pose proof (basis_deriv dz s es us a d Hwf Hw He Hs Hba ltac:(fold dim in Ln; lia)) as L2.
      exact (uniqueness_limite _ _ _ _ L1 L2). }
    assert (Hgc : forall k, (k < dim)%nat -> lsum (fun i => c i * Gr us k i) (all_indices (npts_of s)) = beta k).
    { intros k Hk.
      rewrite (invert_right (fun k => lsum (fun i => c i * Gr us k i) (all_indices (npts_of s))) (fun d => lsum (fun k => beta k * A (Z.of_nat k) d) (seq 0 dim)));
        [| |exact Hk]; fold dim.
      - rewrite (lsum_ext _ (fun d => lsum (fun k' => beta k' * (A (Z.of_nat k') d * W d k)) (seq 0 dim))) by (intros d _; rewrite <- lsum_scal_r; apply lsum_ext; intros; ring).
        rewrite lsum_swap. rewrite (lsum_ext _ (fun k' => beta k' * (if Nat.eqb k' k then 1 else 0))).
        + now apply delta_sum.
        + intros k' Hk'. apply in_seq in Hk'. rewrite lsum_scal, HW by (fold dim; lia). reflexivity.
      - intros d Hd. 
        assert (L1 : derivable_pt_lim (fun v => lsum (fun i => c i * nurbs_basis s (upd us d v) i) (all_indices (npts_of s))) (nth d us 0)
          (lsum (fun i => c i * lsum (fun k => Gr us k i * A (Z.of_nat k) d) (seq 0 dim)) (all_indices (npts_of s)))).
        { apply (RationalDeriv.lsum_derivable (fun i v => c i * nurbs_basis s (upd us d v) i)). intros i Hi. apply all_indices_box in Hi.
          apply (derivable_pt_lim_scal (fun v => nurbs_basis s (upd us d v) i)).
          pose proof (Hgr es us i He Hs Hi A d HA ltac:(fold dim in Ln; lia)) as L. rewrite Ln in L. exact L. }
        assert (L2 : derivable_pt_lim (fun v => lsum (fun k => beta k * geometry s (upd us d v) (Z.of_nat k)) (seq 0 dim)) (nth d us 0)
          (lsum (fun k => beta k * A (Z.of_nat k) d) (seq 0 dim))).
        { apply (RationalDeriv.lsum_derivable (fun k v => beta k * geometry s (upd us d v) (Z.of_nat k))). intros k' Hk'. apply in_seq in Hk'.
          apply (derivable_pt_lim_scal (fun v => geometry s (upd us d v) (Z.of_nat k'))). apply HA; fold dim in Ln; lia. }
        assert (E : lsum (fun i => c i * lsum (fun k => Gr us k i * A (Z.of_nat k) d) (seq 0 dim)) (all_indices (npts_of s)) =
                    lsum (fun k => beta k * A (Z.of_nat k) d) (seq 0 dim)).
        { apply (uniqueness_limite (fun v => lsum (fun i => c i * nurbs_basis s (upd us d v) i) (all_indices (npts_of s))) (nth d us 0)); [exact L1|].
          apply (derivable_local (fun v => lsum (fun k => beta k * geometry s (upd us d v) (Z.of_nat k)) (seq 0 dim)) _ _ _ 1); [lra | | exact L2].
          intros v _. unfold c. 
          rewrite (lsum_ext (fun k0 => beta k0 * geometry s (upd us d v) (Z.of_nat k0)) (fun k0 => lsum (fun i => beta k0 * coordinate s i (Z.of_nat k0) * nurbs_basis s (upd us d v) i) (all_indices (npts_of s)))).
          - rewrite lsum_swap. apply lsum_ext. intros i _. now rewrite lsum_scal_r.
          - intros k0 _. rewrite geometry_basis, <- lsum_scal. apply lsum_ext. intros; ring. }
        rewrite <- E. rewrite (lsum_ext _ (fun k0 => lsum (fun i => c i * Gr us k0 i * A (Z.of_nat k0) d) (all_indices (npts_of s)))) by (intros; now rewrite lsum_scal_r).
        rewrite lsum_swap. apply lsum_ext. intros i _. rewrite <- lsum_scal. apply lsum_ext. intros; ring. }
    transitivity (jac us * kappa * lsum (fun k => Gr us k a * lsum (fun i => c i * Gr us k i) (all_indices (npts_of s))) (seq 0 dim)).
    { rewrite (lsum_ext (fun k => Gr us k a * lsum (fun i => c i * Gr us k i) (all_indices (npts_of s))) (fun k => lsum (fun i => Gr us k a * (c i * Gr us k i)) (all_indices (npts_of s)))) by (intros; now rewrite lsum_scal).
      rewrite lsum_swap, <- lsum_scal. apply lsum_ext. intros i _.
      rewrite (lsum_ext (fun k => Gr us k a * (c i * Gr us k i)) (fun k => c i * (Gr us k a * Gr us k i))) by (intros; ring). rewrite lsum_scal. ring. }
    rewrite (lsum_ext _ (fun k => lsum (fun d => nd d * W d k * beta k) (seq 0 dim))).
    2:{ intros k Hk. apply in_seq in Hk. rewrite Hgc, Hga by lia. now rewrite lsum_scal_r. }
    rewrite lsum_swap, <- lsum_scal. apply lsum_ext. intros d _.
    rewrite dprod_at by first [exact Lk | now apply all_slopes_ok | now apply box_len]. fold (nd d).
    rewrite (lsum_ext _ (fun k => nd d * (beta k * W d k))) by (intros; ring). rewrite lsum_scal. ring.
Qed.

Lemma patch_solution m alpha beta (y : list R) : nondegenerate mdet s -> 0 < kappa ->
  left_side (F := F) mdet minv s rl kappa (mat_zeros (F := F) (total (npts_of s)) (total (npts_of s))) = Ok m ->
  (forall a, in_box (npts_of s) a -> at_boundary (npts_of s) a ->
     component y (position (npts_of s) a) = linear_function (length (degs_of s)) alpha beta (coordinate s a)) ->
  (forall a, in_box (npts_of s) a -> ~ at_boundary (npts_of s) a -> row_applied (npts_of s) m a (fun i => component y (position (npts_of s) i)) = 0) ->
  (forall a, in_box (npts_of s) a -> component y (position (npts_of s) a) = linear_function (length (degs_of s)) alpha beta (coordinate s a)) /\
  forall us, in_domain s us -> combination s y us = linear_function (length (degs_of s)) alpha beta (geometry s us).
Proof.
  intros Hnd Hk Em Hbd Hint. pose proof (npts_pos s Hwf) as Hp. pose proof (total_pos _ Hp) as Ht.
  destruct patch_rows as (m' & Em' & Hrows). rewrite Em in Em'. injection Em' as <-.
  set (L := fun i => linear_function (length (degs_of s)) alpha beta (coordinate s i)).
  set (z := map (fun j => component y j - L (nth_index (npts_of s) (Z.to_nat j))) (zseq 0 (Z.to_nat (total (npts_of s))))).
  assert (Hz : forall a, in_box (npts_of s) a -> component z (position (npts_of s) a) = component y (position (npts_of s) a) - L a).
  { intros a Hba. unfold z. rewrite tabulated by (now apply position_range). now rewrite number_box. }
  destruct (stiffness_kernel mdet minv s rl kappa m Hwf Hw Hlink (gauss_dense n rl _ Hr Hn) Hne Hsize Hnd patch_invertible Hk Em z) as (_ & Hker & _).
  assert (E0 : quadratic_form (npts_of s) m z = 0).
  { unfold quadratic_form. apply lsum_zero. intros a Hba. apply all_indices_box in Hba. destruct (boundary_dec _ _ Hba) as [Hb|Hb].
    - rewrite (Hz a Hba), (Hbd a Hba Hb). apply lsum_zero. intros i _. unfold L. ring.
    - rewrite (lsum_ext _ (fun i => component z (position (npts_of s) a) * (entry m (position (npts_of s) a) (position (npts_of s) i) * component y (position (npts_of s) i) +
         (-1) * (entry m (position (npts_of s) a) (position (npts_of s) i) * L i)))).
      + rewrite lsum_scal, lsum_plus, lsum_scal. pose proof (Hint a Hba Hb) as X1. pose proof (Hrows alpha beta a Hba Hb) as X2.
        unfold row_applied in X1, X2. fold (L) in X2. unfold L. rewrite X1, X2. ring.
      + intros i Hi. apply all_indices_box in Hi. rewrite (Hz i Hi). ring. }
  specialize (Hker E0).
  assert (All : forall a, in_box (npts_of s) a -> component y (position (npts_of s) a) = L a).
  { intros a Hba. destruct (origin_boundary (npts_of s) Hp) as (o & O1 & O2).
    { intros C. apply Hne. destruct Hwf as [G _ N _ _ _]. rewrite N in C. destruct G; [reflexivity | discriminate]. }
    pose proof (Hker _ _ (position_range _ _ Hba) (position_range _ _ O1)) as X. rewrite (Hz a Hba), (Hz o O1), (Hbd o O1 O2) in X.
    fold (L o) in X. lra. }
  split; [exact All|]. intros us Hu. rewrite <- (linear_combination s us _ alpha beta Hwf (unit_regular s Hwf Hw) Hu).
  unfold combination. apply lsum_ext. intros i Hi. apply all_indices_box in Hi. now rewrite (All i Hi).
Qed.
End Patch.

Lemma patch_test : forall (mdet : list (list R) -> R) (minv : list (list R) -> Res (list (list R))) (s : spline F) n rl kappa A b (W : nat -> nat -> R),
  well_formed s -> unit_weights s -> degs_of s <> [] -> (Z.of_nat (length (degs_of s)) <= total (local_sizes (degs_of s)))%Z ->
  gauss_rule (F := F) n = Some rl -> Forall (fun p => p < n)%Z (degs_of s) -> affine_map s A b -> scales mdet (length (degs_of s)) ->
  (Z.of_nat (length (degs_of s)) <= ph_dim (sp_ph s))%Z ->
  inverts minv (length (degs_of s)) (table (length (degs_of s)) (fun i d => A (Z.of_nat i) d)) ->
  (forall i j, (i < length (degs_of s))%nat -> (j < length (degs_of s))%nat ->
     lsum (fun d => A (Z.of_nat i) d * W d j) (seq 0 (length (degs_of s))) = if Nat.eqb i j then 1 else 0) ->
  Forall2 linked_direction (knots_of s) (degs_of s) ->
  exists m, left_side (F := F) mdet minv s rl kappa (mat_zeros (F := F) (total (npts_of s)) (total (npts_of s))) = Ok m /\
  forall alpha beta,
  (forall a, in_box (npts_of s) a -> ~ at_boundary (npts_of s) a ->
     row_applied (npts_of s) m a (fun i => linear_function (length (degs_of s)) alpha beta (coordinate s i)) = 0) /\
  (nondegenerate mdet s -> 0 < kappa -> forall y : list R,
   (forall a, in_box (npts_of s) a -> at_boundary (npts_of s) a ->
      component y (position (npts_of s) a) = linear_function (length (degs_of s)) alpha beta (coordinate s a)) ->
   (forall a, in_box (npts_of s) a -> ~ at_boundary (npts_of s) a ->
      row_applied (npts_of s) m a (fun i => component y (position (npts_of s) i)) = 0) ->
   (forall a, in_box (npts_of s) a -> component y (position (npts_of s) a) = linear_function (length (degs_of s)) alpha beta (coordinate s a)) /\
   forall us, in_domain s us -> combination s y us = linear_function (length (degs_of s)) alpha beta (geometry s us)).
Proof.
  intros mdet minv s n rl kappa A b W Hwf Hw Hne Hsize Hr Hn Ha Hsc Hdim Hinv HW Hlink.
  destruct (patch_rows mdet minv s n rl kappa A b W Hwf Hw Hne Hsize Hr Hn Ha Hsc Hdim Hinv HW Hlink) as (m & Em & Hm).
  exists m. split; [exact Em|]. intros alpha beta. split; [apply Hm|]. intros Hnd Hk y Hb Hi.
  exact (patch_solution mdet minv s n rl kappa A b W Hwf Hw Hne Hsize Hr Hn Ha Hsc Hdim Hinv HW Hlink m alpha beta y Hnd Hk Em Hb Hi).
Qed.

Lemma patch_solver : forall (mdet : list (list R) -> R) (minv : list (list R) -> Res (list (list R))) (s : spline F) n rl kappa A b (W : nat -> nat -> R) alpha beta,
  well_formed s -> unit_weights s -> degs_of s <> [] -> (Z.of_nat (length (degs_of s)) <= total (local_sizes (degs_of s)))%Z ->
  gauss_rule (F := F) n = Some rl -> Forall (fun p => p < n)%Z (degs_of s) -> affine_map s A b -> scales mdet (length (degs_of s)) ->
  (Z.of_nat (length (degs_of s)) <= ph_dim (sp_ph s))%Z ->
  inverts minv (length (degs_of s)) (table (length (degs_of s)) (fun i d => A (Z.of_nat i) d)) ->
  (forall i j, (i < length (degs_of s))%nat -> (j < length (degs_of s))%nat ->
     lsum (fun d => A (Z.of_nat i) d * W d j) (seq 0 (length (degs_of s))) = if Nat.eqb i j then 1 else 0) ->
  Forall2 linked_direction (knots_of s) (degs_of s) -> nondegenerate mdet s -> 0 < kappa ->
  exists m order y, left_side (F := F) mdet minv s rl kappa (mat_zeros (F := F) (total (npts_of s)) (total (npts_of s))) = Ok m /\
  boundary_list (npts_of s) order /\ Z.of_nat (length y) = total (npts_of s) /\
  (forall a, in_box (npts_of s) a -> component y (position (npts_of s) a) = linear_function (length (degs_of s)) alpha beta (coordinate s a)) /\
  (forall us, in_domain s us -> combination s y us = linear_function (length (degs_of s)) alpha beta (geometry s us)) /\
  forall v, Z.of_nat (length v) = total (npts_of s) ->
  (forall a, in_box (npts_of s) a -> ~ at_boundary (npts_of s) a -> component v (position (npts_of s) a) = 0) ->
  exists m' v', set_dirichlet (F := F) (npts_of s) m v (Some (map (fun a => linear_function (length (degs_of s)) alpha beta (coordinate s a)) order)) = Ok (m', v') /\
  forall msolve, correct_solver (total (npts_of s)) msolve -> msolve m' v' = Ok y.
Proof.
  intros mdet minv s n rl kappa A b W alpha beta Hwf Hw Hne Hsize Hr Hn Ha Hsc Hdim Hinv HW Hlink Hnd Hk.
  destruct (patch_test mdet minv s n rl kappa A b W Hwf Hw Hne Hsize Hr Hn Ha Hsc Hdim Hinv HW Hlink) as (m & Em & Hm).
  destruct (Hm alpha beta) as (Hrow & Hsol). specialize (Hsol Hnd Hk). clear Hm.
  set (L := fun a => linear_function (length (degs_of s)) alpha beta (coordinate s a)) in *.
  pose proof (npts_pos s Hwf) as Hp. pose proof (total_pos _ Hp) as Ht.
  destruct (boundary_conditions (dz := dz) (npts_of s) Hp) as (order & Hord & Hbc).
  set (y := map (fun j => L (nth_index (npts_of s) (Z.to_nat j))) (zseq 0 (Z.to_nat (total (npts_of s))))).
  assert (Hy : forall a, in_box (npts_of s) a -> component y (position (npts_of s) a) = L a).
  { intros a Hba. unfold y. rewrite tabulated by (now apply position_range). now rewrite number_box. }
  assert (Ly : Z.of_nat (length y) = total (npts_of s)) by (unfold y; rewrite map_length, zseq_length; lia).
  assert (Rows : forall a, in_box (npts_of s) a -> ~ at_boundary (npts_of s) a -> row_applied (npts_of s) m a (fun i => component y (position (npts_of s) i)) = 0).
  { intros a Hba Hnb. rewrite <- (Hrow a Hba Hnb). unfold row_applied. apply lsum_ext. intros i Hi. apply all_indices_box in Hi. now rewrite (Hy i Hi). }
  exists m, order, y. split; [exact Em|]. split; [exact Hord|]. split; [exact Ly|]. split; [exact Hy|].
  split; [exact (proj2 (Hsol y (fun a Hba _ => Hy a Hba) Rows))|].
  intros v Lv Hv.
  assert (Sq : square (total (npts_of s)) m).
  { pose proof (gauss_inner dz n rl Hr) as Hin. destruct (stiffness_ok mdet minv s rl kappa Hwf Hw Hin Hne Hsize) as (lists & El & Hst).
    destruct Hst as (jac & Gr & _ & _ & HM).
    - intros es us He Hs. exact (patch_invertible minv s A b Hwf Ha Hdim Hinv lists es us El He Hs).
    - destruct (zeros_square (dz := dz) (total (npts_of s)) ltac:(lia)) as (Zs & _). destruct (HM _ Zs) as (m1 & E1 & S1 & _). rewrite Em in E1. injection E1 as <-. exact S1. }
  destruct (Hbc m v Sq Lv) as (_ & _ & Hval & _).
  destruct (Hval (map L order)) as (m' & v' & Es & Hc); [now rewrite map_length|].
  exists m', v'. split; [exact Es|]. intros msolve Hms.
  assert (Val : forall k idx, nth_error order k = Some idx -> component (map L order) (Z.of_nat k) = L idx).
  { intros k idx E. unfold component. rewrite Nat2Z.id. apply nth_error_nth. now apply map_nth_error. }
  apply (solver_result _ msolve m' v' y Hms); try apply Hc.
  - apply (conditioned_solutions _ _ _ _ _ _ _ y Hp Hord Hc). split; [exact Ly|]. split.
    + intros order' k idx Ho E. rewrite (boundary_list_unique _ _ Hp Ho), <- (boundary_list_unique _ _ Hp Hord) in E. rewrite (Val k idx E). apply Hy.
      destruct Hord as (H1 & _). apply H1. eapply nth_error_In; eauto.
    + intros a Hba Hnb. rewrite (Hv a Hba Hnb). exact (Rows a Hba Hnb).
  - intros z Hz. apply (conditioned_solutions _ _ _ _ _ _ _ z Hp Hord Hc) in Hz. destruct Hz as (Lz & Bz & Iz).
    destruct (Hsol z) as (Hz & _).
    + intros a Hba Hbd. destruct Hord as (H1 & H2). destruct (In_nth_error order a) as (k & E); [now apply H1|].
      rewrite (Bz order k a (conj H1 H2) E). now apply Val.
    + intros a Hba Hnb. rewrite <- (Hv a Hba Hnb). exact (Iz a Hba Hnb).
    + apply (nth_ext _ _ 0 0); [lia|]. intros k Hk'. destruct (box_number (npts_of s) (Z.of_nat k) Hp ltac:(lia)) as (Bk & Pk).
      pose proof (Hz _ Bk) as E1. pose proof (Hy _ Bk) as E2. rewrite Pk in E1, E2. unfold component in E1, E2. rewrite Nat2Z.id in E1, E2. unfold L in E2. congruence.
Qed.
End Dz.
