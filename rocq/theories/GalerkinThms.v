(* Exactness of the mass and stiffness matrices on affine patches. *)
From Coq Require Import ZArith List Bool Lia Reals Lra.
From Verif Require Import Base BaseFacts RSum MultiIndex MultiIndexSpec MultiIndexFacts TensorSum
  KnotVec KnotVecSpec KnotVecFacts Basis BasisSpec BSplineTheory BasisFacts
  Spaces SpacesSpec SpacesFacts SplineEval SplineSpec EvalFacts RationalDeriv EvalThms
  Gauss GaussSpec GaussThms IgaSpec Iga IgaFacts IgaThms IgaBasis IgaBasisThms IgaSystem IgaSystemSpec Scatter IgaSystemFacts IgaAssembly IgaStiffness IgaSystemThms
  IgaSystemCons IntegralFacts GalerkinSpec GalerkinFacts.
Import ListNotations.
Open Scope R_scope.

Lemma gauss_inner (dz : R -> R) n rl : gauss_rule (F := Rops dz) n = Some rl -> inner_rule rl.
Proof.
  intros H. destruct (gauss_weights dz n rl H) as (Hl & Hw & _). apply gauss_rule_R in H. destruct H as (_ & Hn). split.
  - intros ->. cbn in Hl. lia.
  - eapply Forall_impl; [|exact Hw]. cbv beta. tauto.
Qed.

Lemma products_at knots degs : length knots = length degs -> forall a b us, length a = length knots -> length b = length knots -> length us = length knots ->
  prod_at (value_products knots degs a b) us = basis_product knots degs us a * basis_product knots degs us b.
Proof.
  revert degs. induction knots as [|kv knots IH]; intros [|p degs] H [|i a] [|j b] [|u us] Ha Hb Hu; cbn [length] in *; try lia.
  - cbn. ring.
  - cbn [value_products prod_at basis_product]. rewrite IH by lia. ring.
Qed.

Section Dz.
Variable dz : R -> R.
Local Notation F := (Rops dz).
Implicit Types s : spline F.

Lemma unit_basis s us idx : well_formed s -> unit_weights s -> in_domain s us -> in_box (npts_of s) idx ->
  nurbs_basis s us idx = basis_product (knots_of s) (degs_of s) us idx.
Proof.
  intros Hwf Hw Hu Hi. unfold nurbs_basis. rewrite (unit_weight_function s us Hwf Hu).
  - rewrite Hw by now apply all_indices_box. field.
  - intros j Hj. apply Hw. now apply all_indices_box.
Qed.

Lemma box_len s idx : well_formed s -> in_box (npts_of s) idx -> length idx = length (knots_of s).
Proof.
  intros [G _ N _ _ _] Hi. rewrite <- (RationalDeriv.Forall2_len _ _ _ Hi), N. clear - G. induction G; cbn; auto.
Qed.

(* quadrature of a product of functions of one parameter each, times the Jacobian *)
Lemma affine_quadrature (mdet : list (list R) -> R) s n rl A b (jac : list R -> R) fs :
  well_formed s -> regular s -> gauss_rule (F := F) n = Some rl -> affine_map s A b -> scales mdet (length (degs_of s)) ->
  (forall es us, in_box (map zlen (dlists (knots_of s) (degs_of s))) es -> strictly_inside (dlists (knots_of s) (degs_of s)) es us ->
     jacobian_determinant (F := F) mdet s us = Ok (jac us)) ->
  Forall2 (exact_in n) (dlists (knots_of s) (degs_of s)) fs ->
  exists x, box_integral (knots_of s) fs x /\
    IgaSystemSpec.quadrature (dlists (knots_of s) (degs_of s)) rl (fun u => jac u * prod_at fs u) =
    volume_factor mdet (length (degs_of s)) (ph_dim (sp_ph s)) A * x.
Proof.
  intros Hwf Hreg Hr Ha Hsc Hjac Hf. eexists. split; [apply (box_exact dz n rl _ (degs_of s)); auto; apply Hwf|].
  rewrite <- tensor_factors by (symmetry; eapply RationalDeriv.Forall2_len; eauto).
  unfold IgaSystemSpec.quadrature. rewrite <- lsum_scal. apply lsum_ext. intros es He. rewrite <- !lsum_scal. apply lsum_ext. intros qs Hq.
  destruct (qpoint_strict s rl es qs Hwf (gauss_inner dz n rl Hr) He Hq) as (H1 & H2).
  assert (E := Hjac es _ H1 H2). rewrite (affine_jacobian dz mdet s A b Hwf Hreg Ha Hsc es _ H1 H2) in E. injection E as <-. ring.
Qed.

Lemma values_exact n knots degs : Forall2 good_direction knots degs -> Forall (fun p => p < n)%Z degs -> forall a b,
  in_box (map2 (fun kv p => zlen kv - p - 1)%Z knots degs) a -> in_box (map2 (fun kv p => zlen kv - p - 1)%Z knots degs) b ->
  Forall2 (exact_in n) (dlists knots degs) (value_products knots degs a b).
Proof.
  induction 1 as [|kv p knots degs Hg H IH]; intros Hn a b Ha Hb; cbn [map2] in Ha, Hb; inversion Ha; inversion Hb; inversion Hn; subst.
  - constructor.
  - unfold dlists. cbn [map2 value_products]. constructor; [now apply (exact_values dz)|]. apply IH; auto.
Qed.

Lemma mass_exact : forall (mdet : list (list R) -> R) s n rl A b, well_formed s -> unit_weights s ->
  gauss_rule (F := F) n = Some rl -> Forall (fun p => p < n)%Z (degs_of s) -> affine_map s A b -> scales mdet (length (degs_of s)) ->
  exists m, mass_matrix (F := F) mdet s rl = Ok m /\ square (total (npts_of s)) m /\
  forall i j, in_box (npts_of s) i -> in_box (npts_of s) j -> exists x,
    box_integral (knots_of s) (value_products (knots_of s) (degs_of s) i j) x /\
    entry m (position (npts_of s) i) (position (npts_of s) j) = volume_factor mdet (length (degs_of s)) (ph_dim (sp_ph s)) A * x.
Proof.
  intros mdet s n rl A b Hwf Hw Hr Hn Ha Hsc. pose proof (unit_regular s Hwf Hw) as Hreg. pose proof (gauss_inner dz n rl Hr) as Hin.
  destruct (mass_matrix_ok mdet s rl Hwf Hreg Hin) as (lists & jac & m & El & Hjac & Em & Hsq & Hent).
  rewrite element_lists_ok in El by auto. injection El as <-.
  exists m. split; [exact Em|]. split; [exact Hsq|]. intros i j Hi Hj.
  pose proof Hwf as [G _ N _ _ _].
  destruct (affine_quadrature mdet s n rl A b jac (value_products (knots_of s) (degs_of s) i j) Hwf Hreg Hr Ha Hsc Hjac) as (x & Hx & Ex).
  { apply values_exact; auto; now rewrite <- N. }
  exists x. split; [exact Hx|]. rewrite Hent by auto. rewrite <- Ex. apply (qext s rl); auto. intros es us He Hs. f_equal.
  destruct (located_at s es us Hwf He Hs) as (ks & Hl). pose proof (loc_domain _ _ _ _ Hl) as Hu.
  rewrite !unit_basis by auto. symmetry. apply products_at.
  - symmetry. now apply degs_length.
  - now apply box_len.
  - now apply box_len.
  - now apply domain_length.
Qed.

(* the sum of all entries *)
Lemma constant_integral a b x : integral (fun _ => 1) a b x -> x = b - a.
Proof.
  intros (pr & ->). transitivity (1 * (b - a)); [exact (RiemannInt_P15 pr) | ring].
Qed.

Lemma constant_box knots : forall x, box_integral knots (map (fun _ _ => 1) knots) x -> x = rprod (map (fun kv => final_knot kv - first_knot kv) knots).
Proof.
  induction knots as [|kv knots IH]; intros x H; cbn [map box_integral] in H; [exact H|].
  destruct H as (y & z & H1 & H2 & ->). cbn [map rprod fold_right]. rewrite (constant_integral _ _ _ H1). f_equal. now apply IH.
Qed.

Lemma constant_at knots us : prod_at (map (fun (_ : list R) (_ : R) => 1) knots) us = 1.
Proof. revert us. induction knots as [|kv knots IH]; intros [|u us]; cbn [map prod_at]; auto. rewrite IH. ring. Qed.

Lemma mass_volume : forall (mdet : list (list R) -> R) s n rl A b m, well_formed s -> regular s ->
  gauss_rule (F := F) n = Some rl -> affine_map s A b -> scales mdet (length (degs_of s)) ->
  mass_matrix (F := F) mdet s rl = Ok m ->
  lsum (fun i => lsum (fun j => entry m (position (npts_of s) i) (position (npts_of s) j)) (all_indices (npts_of s))) (all_indices (npts_of s)) =
  volume_factor mdet (length (degs_of s)) (ph_dim (sp_ph s)) A * rprod (map (fun kv => final_knot kv - first_knot kv) (knots_of s)).
Proof.
  intros mdet s n rl A b m Hwf Hreg Hr Ha Hsc Em. pose proof (gauss_inner dz n rl Hr) as Hin.
  destruct (mass_consequences mdet s rl m Hwf Hreg Hin Em) as (lists & jac & El & Hjac & _ & Hsum & _).
  rewrite element_lists_ok in El by auto. injection El as <-. rewrite Hsum.
  pose proof Hwf as [G _ N _ _ _].
  destruct (affine_quadrature mdet s n rl A b jac (map (fun _ _ => 1) (knots_of s)) Hwf Hreg Hr Ha Hsc Hjac) as (x & Hx & Ex).
  { clear - G. unfold dlists. induction G as [|kv p knots degs Hg H IH]; cbn [map2 map]; constructor; auto.
    intros e _. exists 0%nat, (fun _ => 1). split; [lia|]. split; [apply is_poly_const | auto]. }
  rewrite <- (constant_box (knots_of s) x Hx), <- Ex. unfold IgaSystemSpec.quadrature. apply lsum_ext. intros es _. apply lsum_ext. intros qs _.
  rewrite constant_at. ring.
Qed.
End Dz.
