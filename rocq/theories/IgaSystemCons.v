(* Consequences of the assembly formulas (C54): symmetry, definiteness, sums. *)
From Coq Require Import ZArith List Bool Reals Lra Lia Permutation.
From Verif Require Import Base BaseFacts RSum MultiIndex MultiIndexSpec MultiIndexFacts TensorSum
  KnotVec KnotVecSpec KnotVecFacts Basis BasisSpec BSplineTheory BasisFacts
  Spaces SpacesSpec SpacesFacts SplineEval SplineSpec EvalFacts RationalDeriv EvalThms
  IgaSpec Iga IgaFacts IgaThms IgaBasis IgaBasisThms IgaSystem IgaSystemSpec Scatter IgaSystemFacts IgaAssembly IgaStiffness IgaSystemThms.
Import ListNotations.
Open Scope Z_scope.

(* quadrature is linear and monotone on the integration points *)
Definition qsum {A} (lists : list (list (R * R))) (rl : list (R * R)) (l : list A) (f : A -> list R -> R) :
  lsum (fun a => quadrature lists rl (f a)) l = quadrature lists rl (fun u => lsum (fun a => f a u) l).
Proof.
  unfold quadrature. rewrite lsum_swap. apply lsum_ext. intros es _. rewrite lsum_swap. apply lsum_ext. intros qs _.
  now rewrite lsum_scal.
Qed.
Lemma qscal lists rl c f : quadrature lists rl (fun u => c * f u)%R = (c * quadrature lists rl f)%R.
Proof.
  unfold quadrature. rewrite <- lsum_scal. apply lsum_ext. intros es _. rewrite <- lsum_scal. apply lsum_ext. intros qs _. ring.
Qed.

Section Cons.
Context {dz : R -> R}.
Local Notation F := (Rops dz).
Implicit Types s : spline F.

Lemma qpoint_strict s rl es qs : well_formed s -> inner_rule rl ->
  In es (all_indices (map (fun l => Z.of_nat (length l)) (dlists (knots_of s) (degs_of s)))) ->
  In qs (all_indices (repeat (Z.of_nat (length rl)) (length (dlists (knots_of s) (degs_of s))))) ->
  in_box (map zlen (dlists (knots_of s) (degs_of s))) es /\
  strictly_inside (dlists (knots_of s) (degs_of s)) es (element_point (dlists (knots_of s) (degs_of s)) es (grid_point rl qs)).
Proof.
  intros Hwf Hrl He Hq. apply all_indices_box in He, Hq. split; auto. exact (qpoint_inside s rl es Hwf Hrl He qs Hq).
Qed.

Lemma qext s rl f g : well_formed s -> inner_rule rl ->
  (forall es us, in_box (map zlen (dlists (knots_of s) (degs_of s))) es -> strictly_inside (dlists (knots_of s) (degs_of s)) es us -> f us = g us) ->
  quadrature (dlists (knots_of s) (degs_of s)) rl f = quadrature (dlists (knots_of s) (degs_of s)) rl g.
Proof.
  intros Hwf Hrl H. unfold quadrature. apply lsum_ext. intros es He. apply lsum_ext. intros qs Hq.
  destruct (qpoint_strict s rl es qs Hwf Hrl He Hq) as (H1 & H2). f_equal. eapply H; eauto.
Qed.

Lemma qnonneg s rl f : well_formed s -> inner_rule rl -> Forall (fun q => 0 <= snd q)%R rl ->
  (forall es us, in_box (map zlen (dlists (knots_of s) (degs_of s))) es -> strictly_inside (dlists (knots_of s) (degs_of s)) es us -> (0 <= f us)%R) ->
  (0 <= quadrature (dlists (knots_of s) (degs_of s)) rl f)%R.
Proof.
  intros Hwf Hrl Hw H. unfold quadrature. apply lsum_nonneg. intros es He. apply lsum_nonneg. intros qs Hq.
  destruct (qpoint_strict s rl es qs Hwf Hrl He Hq) as (H1 & H2). apply Rmult_le_pos; [|eapply H; eauto].
  unfold grid_weight. clear - Hw. induction qs as [|q qs IH]; cbn; [lra|]. apply Rmult_le_pos; auto.
  destruct (Nat.lt_ge_cases (Z.to_nat q) (length rl)) as [C|C].
  - rewrite Forall_forall in Hw. apply Hw, nth_In. exact C.
  - rewrite nth_overflow by exact C. cbn. lra.
Qed.

Lemma basis_unity s us : well_formed s -> in_domain s us -> weight_function s us <> 0%R ->
  lsum (nurbs_basis s us) (all_indices (npts_of s)) = 1%R.
Proof.
  intros _ _ H. unfold nurbs_basis, Rdiv. rewrite lsum_scal_r. fold (weight_function s us). now apply Rinv_r.
Qed.

Lemma mass_consequences : forall (mdet : list (list R) -> R) s rl m, well_formed s -> regular s -> inner_rule rl ->
  mass_matrix (F := F) mdet s rl = Ok m -> exists lists jac, element_lists s = Ok lists /\
  (forall es us, in_box (map zlen lists) es -> strictly_inside lists es us -> jacobian_determinant (F := F) mdet s us = Ok (jac us)) /\
  (forall i j, 0 <= i < total (npts_of s) -> 0 <= j < total (npts_of s) -> entry m i j = entry m j i) /\
  lsum (fun a => lsum (fun b => entry m (position (npts_of s) a) (position (npts_of s) b)) (all_indices (npts_of s))) (all_indices (npts_of s))
    = quadrature lists rl jac /\
  (forall c, lsum (fun a => lsum (fun b => component c (position (npts_of s) a) *
       entry m (position (npts_of s) a) (position (npts_of s) b) * component c (position (npts_of s) b))%R
       (all_indices (npts_of s))) (all_indices (npts_of s)) =
     quadrature lists rl (fun u => jac u * Rsqr (combination s c u))%R) /\
  (Forall (fun q => 0 <= snd q)%R rl -> forall c, 0 <= lsum (fun a => lsum (fun b => component c (position (npts_of s) a) *
       entry m (position (npts_of s) a) (position (npts_of s) b) * component c (position (npts_of s) b))
       (all_indices (npts_of s))) (all_indices (npts_of s)))%R.
Proof.
  intros mdet s rl m Hwf Hreg Hrl Em. destruct (mass_matrix_ok mdet s rl Hwf Hreg Hrl) as (lists & jac & m' & El & Hj & Em' & _ & He).
  assert (m' = m) by congruence. subst m'. exists lists, jac. split; auto. split; auto.
  assert (lists = dlists (knots_of s) (degs_of s)) by (rewrite element_lists_ok in El by auto; congruence). subst lists.
  assert (HJ : forall es us, in_box (map zlen (dlists (knots_of s) (degs_of s))) es -> strictly_inside (dlists (knots_of s) (degs_of s)) es us -> (0 <= jac us)%R).
  { intros es us H1 H2. destruct (jac_at_ok mdet s es us Hwf H1 H2) as (E & Hp). rewrite (Hj es us H1 H2) in E. inversion E as [E']. now rewrite E'. }
  assert (Hreg' : forall es us, in_box (map zlen (dlists (knots_of s) (degs_of s))) es -> strictly_inside (dlists (knots_of s) (degs_of s)) es us ->
    lsum (nurbs_basis s us) (all_indices (npts_of s)) = 1%R).
  { intros es us H1 H2. destruct (located_at s es us Hwf H1 H2) as (ks & Hl). pose proof (loc_domain _ _ _ _ Hl). apply basis_unity; auto. }
  assert (Hq : forall c, lsum (fun a => lsum (fun b => component c (position (npts_of s) a) *
       entry m (position (npts_of s) a) (position (npts_of s) b) * component c (position (npts_of s) b))%R
       (all_indices (npts_of s))) (all_indices (npts_of s)) =
     quadrature (dlists (knots_of s) (degs_of s)) rl (fun u => jac u * Rsqr (combination s c u))%R).
  { intros c. rewrite (lsum_ext _ (fun a => quadrature (dlists (knots_of s) (degs_of s)) rl
        (fun u => jac u * (combination s c u * (nurbs_basis s u a * component c (position (npts_of s) a))))%R)).
    - rewrite qsum. apply qext; auto. intros es us _ _. rewrite lsum_scal. f_equal. rewrite lsum_scal. reflexivity.
    - intros a Ha. apply all_indices_box in Ha.
      rewrite (lsum_ext _ (fun b => quadrature (dlists (knots_of s) (degs_of s)) rl
        (fun u => jac u * (nurbs_basis s u a * component c (position (npts_of s) a)) * (nurbs_basis s u b * component c (position (npts_of s) b)))%R)).
      + rewrite qsum. apply qext; auto. intros es us _ _. rewrite lsum_scal. fold (combination s c us). ring.
      + intros b Hb. apply all_indices_box in Hb. rewrite (He a b Ha Hb).
        rewrite <- qscal. rewrite Rmult_comm, <- qscal. apply qext; auto. intros es us _ _. ring. }
  split; [|split; [|split; [exact Hq|]]].
  - intros i j Hi Hj'. destruct (box_number _ i (npts_pos s Hwf) Hi) as (B1 & P1). destruct (box_number _ j (npts_pos s Hwf) Hj') as (B2 & P2).
    rewrite <- P1, <- P2. rewrite !He by auto. apply qext; auto. intros es us _ _. ring.
  - rewrite (lsum_ext _ (fun a => quadrature (dlists (knots_of s) (degs_of s)) rl (fun u => jac u * nurbs_basis s u a)%R)).
    + rewrite qsum. apply qext; auto. intros es us H1 H2. rewrite lsum_scal, (Hreg' es us H1 H2). ring.
    + intros a Ha. apply all_indices_box in Ha.
      rewrite (lsum_ext _ (fun b => quadrature (dlists (knots_of s) (degs_of s)) rl (fun u => jac u * (nurbs_basis s u a * nurbs_basis s u b))%R))
        by (intros b Hb; apply He; auto; now apply all_indices_box).
      rewrite qsum. apply qext; auto. intros es us H1 H2. rewrite lsum_scal, lsum_scal, (Hreg' es us H1 H2). ring.
  - intros Hw c. rewrite Hq. apply qnonneg; auto. intros es us H1 H2. apply Rmult_le_pos; [eapply HJ; eauto | apply Rle_0_sqr].
Qed.

(* the load vector is the mass matrix times the coefficients of the source *)
Lemma load_is_mass_times_source : forall (mdet : list (list R) -> R) s rl m src v v', well_formed s -> regular s -> inner_rule rl ->
  mass_matrix (F := F) mdet s rl = Ok m -> zlen src = total (npts_of s) -> zlen v = total (npts_of s) ->
  right_side (F := F) mdet s rl src v = Ok v' ->
  forall i, 0 <= i < total (npts_of s) ->
  component v' i = (component v i + lsum (fun j => entry m i j * component src j) (zseq 0 (Z.to_nat (total (npts_of s)))))%R.
Proof.
  intros mdet s rl m src v v' Hwf Hreg Hrl Em Hs Hv Ev i Hi.
  destruct (mass_matrix_ok mdet s rl Hwf Hreg Hrl) as (lists & jac & m' & El & Hj & Em' & _ & He).
  assert (m' = m) by congruence. subst m'.
  destruct (load_vector_ok mdet s rl Hwf Hreg Hrl) as (lists' & jac' & El' & Hj' & HL).
  destruct (HL src v Hs Hv) as (v'' & Ev' & _ & Hc). assert (v'' = v') by congruence. subst v''.
  assert (lists = dlists (knots_of s) (degs_of s)) by (rewrite element_lists_ok in El by auto; congruence). subst lists.
  assert (lists' = dlists (knots_of s) (degs_of s)) by (rewrite element_lists_ok in El' by auto; congruence). subst lists'.
  destruct (box_number _ i (npts_pos s Hwf) Hi) as (B1 & P1).
  assert (HJ : forall es us, in_box (map zlen (dlists (knots_of s) (degs_of s))) es -> strictly_inside (dlists (knots_of s) (degs_of s)) es us -> jac' us = jac us).
  { intros es us H1 H2. specialize (Hj es us H1 H2). specialize (Hj' es us H1 H2). rewrite Hj in Hj'. congruence. }
  set (a := nth_index (npts_of s) (Z.to_nat i)) in *.
  rewrite <- P1. rewrite (Hc a B1). f_equal.
  etransitivity; [|symmetry; etransitivity; [|apply (lsum_numbers (fun b => entry m (position (npts_of s) a) (position (npts_of s) b) * component src (position (npts_of s) b))%R (npts_of s) (npts_pos s Hwf))]].
  2:{ apply lsum_ext. intros j Hj0. apply zseq_In in Hj0. pose proof (total_pos _ (npts_pos s Hwf)).
      destruct (box_number _ j (npts_pos s Hwf) ltac:(lia)) as (_ & P2). now rewrite P2. }
  rewrite (lsum_ext _ (fun b => quadrature (dlists (knots_of s) (degs_of s)) rl
     (fun u => jac u * nurbs_basis s u a * (nurbs_basis s u b * component src (position (npts_of s) b)))%R)).
  - rewrite qsum. apply qext; auto. intros es us H1 H2. rewrite lsum_scal. fold (combination s src us). rewrite (HJ es us H1 H2). ring.
  - intros b Hb. apply all_indices_box in Hb. rewrite (He a b B1 Hb), Rmult_comm, <- qscal. apply qext; auto. intros es us _ _. ring.
Qed.

(* constants have no gradient *)
Lemma gradient_sum minv s es us i : well_formed s -> unit_weights s -> Z.of_nat (length (degs_of s)) <= total (local_sizes (degs_of s)) ->
  in_box (map zlen (dlists (knots_of s) (degs_of s))) es -> strictly_inside (dlists (knots_of s) (degs_of s)) es us ->
  invertible_at minv s us -> (i < length us)%nat ->
  lsum (gfun minv s us i) (all_indices (npts_of s)) = 0%R.
Proof.
  intros Hwf Hunit Hsize Hes Hin Hinv Hi.
  destruct (gradients_at minv s Hwf Hunit Hsize es us Hes Hin Hinv) as (ks & dB & w & Hl & _ & _ & _ & Hg & HdB & _).
  pose proof (total_pos _ (nb_pos s Hwf)) as Ht.
  rewrite <- (local_sum s es us ks Hwf Hl (gfun minv s us i) (gfun_vanishing minv s Hwf es us ks i Hl)).
  rewrite (lsum_ext _ (fun l => lsum (fun k => dB k l * nth i (nth k w []) 0)%R (seq 0 (length us)))).
  2:{ intros l Hll. apply zseq_In in Hll. rewrite (gfun_local minv s Hwf es us ks) by (auto; lia). apply Hg; auto. lia. }
  rewrite lsum_swap. apply lsum_zero. intros k Hk. apply in_seq in Hk. rewrite lsum_scal_r.
  replace (lsum (dB k) (zseq 0 (Z.to_nat (total (local_sizes (degs_of s)))))) with 0%R; [ring|].
  eapply uniqueness_limite; [apply (derivable_pt_lim_const 1 (nth k us 0%R))|].
  destruct (strict_upd _ es us k Hin ltac:(lia)) as (r & Hr & Hv).
  eapply (derivable_near (fun v => lsum (fun l => nurbs_basis s (upd us k v) (gpoint s ks l)) (zseq 0 (Z.to_nat (total (local_sizes (degs_of s)))))) _ _ _ (mkposreal r Hr)).
  - intros h Hh. cbn in Hh.
    assert (Hin' : strictly_inside (dlists (knots_of s) (degs_of s)) es (upd us k (nth k us 0 + h)%R)).
    { apply Hv. now replace (nth k us 0 + h - nth k us 0)%R with h by ring. }
    destruct (located_at s es _ Hwf Hes Hin') as (ks' & Hl').
    assert (ks' = ks) by (eapply spans_unique; [exact (wf_directions s Hwf) | exact (loc_spans _ _ _ _ Hl') | exact (loc_spans _ _ _ _ Hl)]). subst ks'.
    rewrite (local_sum s es _ ks Hwf Hl' _ (nurbs_basis_vanishing s es _ ks Hl')).
    apply basis_unity; auto; [exact (loc_domain _ _ _ _ Hl') | exact (unit_regular s Hwf Hunit _ (loc_domain _ _ _ _ Hl'))].
  - apply lsum_derivable. intros l Hll. apply zseq_In in Hll. apply HdB; lia.
Qed.

Lemma stiffness_consequences : forall (mdet : list (list R) -> R) (minv : list (list R) -> Res (list (list R))) s rl kappa m',
  well_formed s -> unit_weights s -> inner_rule rl -> degs_of s <> [] ->
  Z.of_nat (length (degs_of s)) <= total (local_sizes (degs_of s)) ->
  (forall lists es us, element_lists s = Ok lists -> in_box (map zlen lists) es -> strictly_inside lists es us -> invertible_at minv s us) ->
  left_side (F := F) mdet minv s rl kappa (mat_zeros (F := F) (total (npts_of s)) (total (npts_of s))) = Ok m' ->
  (forall i j, 0 <= i < total (npts_of s) -> 0 <= j < total (npts_of s) -> entry m' i j = entry m' j i) /\
  (forall i, 0 <= i < total (npts_of s) -> lsum (fun j => entry m' i j) (zseq 0 (Z.to_nat (total (npts_of s)))) = 0%R) /\
  (Forall (fun q => 0 <= snd q)%R rl -> (0 <= kappa)%R -> forall c, 0 <= lsum (fun a => lsum (fun b => component c (position (npts_of s) a) *
       entry m' (position (npts_of s) a) (position (npts_of s) b) * component c (position (npts_of s) b))
       (all_indices (npts_of s))) (all_indices (npts_of s)))%R.
Proof.
  intros mdet minv s rl kappa m' Hwf Hunit Hrl Hne Hsize Hinv Em. set (lists := dlists (knots_of s) (degs_of s)).
  assert (El : element_lists s = Ok lists) by (now apply element_lists_ok).
  assert (Hinv' : forall es us, in_box (map zlen lists) es -> strictly_inside lists es us -> invertible_at minv s us) by (intros; eapply Hinv; eauto).
  pose proof (total_pos _ (npts_pos s Hwf)) as Ht. destruct (zeros_square (dz := dz) (total (npts_of s)) ltac:(lia)) as (Hz & Ez).
  assert (A : forall a b, in_box (npts_of s) a -> in_box (npts_of s) b ->
    entry m' (position (npts_of s) a) (position (npts_of s) b) =
    quadrature lists rl (fun u => jac_at mdet s u * (kappa * lsum (fun i => gfun minv s u i a * gfun minv s u i b) (seq 0 (length (degs_of s)))))%R).
  { pose proof (dlists_pos _ _ (wf_directions s Hwf)) as Hp.
    assert (A : adds (square (total (npts_of s))) (in_range2 (total (npts_of s))) pentry
      (for_up 0 (total (map zlen (dlists (knots_of s) (degs_of s)))) (laplace_matrix (F := F) mdet minv s rl kappa))
      (fun ij => quadrature (dlists (knots_of s) (degs_of s)) rl
         (fun u => jac_at mdet s u * (kappa * lsum (fun i => gn minv s u i (fst ij) * gn minv s u i (snd ij)) (seq 0 (length (degs_of s)))))%R)).
    { eapply adds_ext; [intros m0 _; reflexivity | intros ij _; exact (lsum_elements _ _ Hp) |].
      apply adds_for_up. intros n Hn. destruct (box_number _ n Hp Hn) as (Hb & Ep).
      eapply adds_ext; [intros m0 _; rewrite <- Ep at 1; reflexivity | intros ij _; reflexivity |].
      eapply (laplace_adds mdet minv s rl _ (jac_at mdet s)); eauto. intros us Hin. now apply (jac_at_ok mdet s (nth_index (map zlen (dlists (knots_of s) (degs_of s))) (Z.to_nat n))). }
    destruct (A _ Hz) as (m2 & Em2 & _ & Om). assert (m2 = m').
    { unfold left_side in Em. rewrite num_all_ok in Em by auto. cbn [bind] in Em. congruence. } subst m2.
    intros a b Ha Hb. specialize (Om (position (npts_of s) a, position (npts_of s) b) (conj (position_range _ _ Ha) (position_range _ _ Hb))).
    unfold pentry in Om. cbn [fst snd] in Om. rewrite Om, Ez, Rplus_0_l. unfold gn. now rewrite !number_box by auto. }
  split; [|split].
  - intros i j Hi Hj. destruct (box_number _ i (npts_pos s Hwf) Hi) as (B1 & P1). destruct (box_number _ j (npts_pos s Hwf) Hj) as (B2 & P2).
    rewrite <- P1, <- P2. rewrite !A by auto. apply qext; auto. intros es us _ _. do 2 f_equal. apply lsum_ext. intros; ring.
  - intros i Hi. destruct (box_number _ i (npts_pos s Hwf) Hi) as (B1 & P1). set (a := nth_index (npts_of s) (Z.to_nat i)) in *. rewrite <- P1.
    etransitivity; [|etransitivity; [apply (lsum_numbers (fun b => entry m' (position (npts_of s) a) (position (npts_of s) b)) (npts_of s) (npts_pos s Hwf))|]].
    { apply lsum_ext. intros j Hj0. apply zseq_In in Hj0. destruct (box_number _ j (npts_pos s Hwf) ltac:(lia)) as (_ & P2). now rewrite P2. }
    rewrite (lsum_ext _ _ _ (fun b Hb => A a b B1 (proj1 (all_indices_box _ _) Hb))). rewrite qsum.
    replace 0%R with (0 * quadrature lists rl (fun _ => 0%R))%R by ring. rewrite <- qscal. apply qext; auto. intros es us H1 H2.
    rewrite lsum_scal, lsum_scal, lsum_swap. rewrite (lsum_zero _ (seq 0 _)); [ring|]. intros k Hk. apply in_seq in Hk. rewrite lsum_scal.
    destruct (located_at s es us Hwf H1 H2) as (ks & Hl). pose proof (domain_length s us (loc_domain _ _ _ _ Hl)) as Hlen.
    rewrite (gradient_sum minv s es us k); auto; [ring | eapply Hinv; eauto | rewrite Hlen, <- degs_length by auto; lia].
  - intros Hw Hk c.
    rewrite (lsum_ext _ (fun a => quadrature lists rl (fun u => jac_at mdet s u * (kappa *
       lsum (fun i => lsum (fun b => gfun minv s u i b * component c (position (npts_of s) b)) (all_indices (npts_of s)) * (gfun minv s u i a * component c (position (npts_of s) a)))
         (seq 0 (length (degs_of s)))))%R)).
    + rewrite qsum. apply qnonneg; auto. intros es us H1 H2. destruct (jac_at_ok mdet s es us Hwf H1 H2) as (_ & Hj).
      rewrite lsum_scal. apply Rmult_le_pos; auto. rewrite lsum_scal. apply Rmult_le_pos; auto. rewrite lsum_swap.
      apply lsum_nonneg. intros i _. rewrite lsum_scal. apply Rle_0_sqr.
    + intros a Ha. apply all_indices_box in Ha.
      rewrite (lsum_ext _ (fun b => quadrature lists rl (fun u => jac_at mdet s u * (kappa *
         lsum (fun i => gfun minv s u i b * component c (position (npts_of s) b) * (gfun minv s u i a * component c (position (npts_of s) a))) (seq 0 (length (degs_of s)))))%R)).
      * rewrite qsum. apply qext; auto. intros es us _ _. rewrite lsum_scal, lsum_scal, lsum_swap. do 2 f_equal. apply lsum_ext.
        intros i _. now rewrite lsum_scal_r.
      * intros b Hb. apply all_indices_box in Hb. rewrite (A a b Ha Hb). rewrite <- qscal. rewrite Rmult_comm, <- qscal. apply qext; auto.
        intros es us _ _. transitivity (jac_at mdet s us * (kappa * (component c (position (npts_of s) b) * (component c (position (npts_of s) a) * lsum (fun i => gfun minv s us i a * gfun minv s us i b) (seq 0 (length (degs_of s)))))))%R; [ring|].
        do 2 f_equal. rewrite <- lsum_scal, <- lsum_scal. apply lsum_ext. intros i _. ring.
Qed.
End Cons.
