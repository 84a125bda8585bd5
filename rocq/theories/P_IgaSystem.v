(* Properties of the assembly in the isogeometric analysis example: C52 to C54. *)
From Coq Require Import ZArith List Reals.
From Verif Require Import Base RSum MultiIndex MultiIndexSpec Spaces SplineEval SplineSpec Iga IgaSpec IgaSystem IgaSystemSpec
  IgaSystemThms IgaSystemCons IgaSystemExamples.
Import ListNotations.
Open Scope Z_scope.

(* C52: reference coordinates of an element are mapped to the point of that element; the points
   strictly inside are attributed to the same element again *)
Theorem C52_reference_mapping : forall (dz : R -> R) (s : spline (Rops dz)), well_formed s -> exists lists, element_lists s = Ok lists /\
  forall es xs, in_box (map zlen lists) es -> length xs = length lists ->
  reference_to_parameter s (position (map zlen lists) es) xs = Ok (element_point lists es xs) /\
  (Forall (fun x => -1 < x < 1)%R xs ->
   strictly_inside lists es (element_point lists es xs) /\
   element_at s (element_point lists es xs) = Ok (position (map zlen lists) es)).
Proof. exact @reference_mapping. Qed.
Print Assumptions C52_reference_mapping.

(* C53: the number called Jacobian determinant is the square root of the Gram determinant of the map
   from the reference element to physical space *)
Theorem C53_jacobian : forall (dz : R -> R) (mdet : list (list R) -> R) (s : spline (Rops dz)), well_formed s -> regular s -> exists lists,
  element_lists s = Ok lists /\
  forall es us, in_box (map zlen lists) es -> strictly_inside lists es us -> exists D,
  partials s us D /\
  jacobian_determinant (F := Rops dz) mdet s us =
  Ok (sqrt (Rabs (mdet (table (length us) (fun a b =>
        nth a (half_widths lists es) 0 * nth b (half_widths lists es) 0 *
        lsum (fun c => D c a * D c b) (zseq 0 (Z.to_nat (ph_dim (sp_ph s)))))%R)))).
Proof. exact @jacobian_formula. Qed.
Print Assumptions C53_jacobian.

(* for curves: half the element width times the speed *)
Theorem C53_jacobian_curve : forall (dz : R -> R) (mdet : list (list R) -> R) (s : spline (Rops dz)), (forall a, mdet [[a]] = a) -> well_formed s -> regular s ->
  length (degs_of s) = 1%nat -> exists l : list (R * R), element_lists s = Ok [l] /\
  forall e u, 0 <= e < zlen l -> (fst (nth (Z.to_nat e) l (0, 0)) < u < snd (nth (Z.to_nat e) l (0, 0)))%R -> exists D : Z -> R,
  (forall c, 0 <= c < ph_dim (sp_ph s) -> derivable_pt_lim (fun v => geometry s [v] c) u (D c)) /\
  jacobian_determinant (F := Rops dz) mdet s [u] =
  Ok ((snd (nth (Z.to_nat e) l (0, 0)) - fst (nth (Z.to_nat e) l (0, 0))) / 2 *
      sqrt (lsum (fun c => D c * D c) (zseq 0 (Z.to_nat (ph_dim (sp_ph s))))))%R.
Proof. exact @jacobian_curve. Qed.
Print Assumptions C53_jacobian_curve.

(* for plane patches: the product of the half widths of the element times |det| of the derivative *)
Theorem C53_jacobian_plane : forall (dz : R -> R) (mdet : list (list R) -> R) (s : spline (Rops dz)), (forall a b c d, mdet [[a; b]; [c; d]] = a * d - b * c)%R ->
  well_formed s -> regular s -> length (degs_of s) = 2%nat -> ph_dim (sp_ph s) = 2 -> exists l1 l2 : list (R * R), element_lists s = Ok [l1; l2] /\
  forall e1 e2 u1 u2, in_box [zlen l1; zlen l2] [e1; e2] -> strictly_inside [l1; l2] [e1; e2] [u1; u2] -> exists D,
  partials s [u1; u2] D /\
  jacobian_determinant (F := Rops dz) mdet s [u1; u2] =
  Ok ((snd (nth (Z.to_nat e1) l1 (0, 0)) - fst (nth (Z.to_nat e1) l1 (0, 0))) / 2 *
      ((snd (nth (Z.to_nat e2) l2 (0, 0)) - fst (nth (Z.to_nat e2) l2 (0, 0))) / 2) *
      Rabs (D 0%Z 0%nat * D 1%Z 1%nat - D 0%Z 1%nat * D 1%Z 0%nat))%R.
Proof. exact @jacobian_plane. Qed.
Print Assumptions C53_jacobian_plane.

(* C54: the assembled mass matrix holds, for each pair of control points, the integral of the product of
   their basis functions as computed by the tensor-product rule over all elements *)
Theorem C54_mass_matrix : forall (dz : R -> R) (mdet : list (list R) -> R) (s : spline (Rops dz)) rl, well_formed s -> regular s -> inner_rule rl -> exists lists jac m,
  element_lists s = Ok lists /\
  (forall es us, in_box (map zlen lists) es -> strictly_inside lists es us -> jacobian_determinant (F := Rops dz) mdet s us = Ok (jac us)) /\
  mass_matrix (F := Rops dz) mdet s rl = Ok m /\ square (total (npts_of s)) m /\
  forall a b, in_box (npts_of s) a -> in_box (npts_of s) b ->
    entry m (position (npts_of s) a) (position (npts_of s) b) =
    quadrature lists rl (fun u => jac u * (nurbs_basis s u a * nurbs_basis s u b))%R.
Proof. exact @mass_matrix_ok. Qed.
Print Assumptions C54_mass_matrix.

Theorem C54_load_vector : forall (dz : R -> R) (mdet : list (list R) -> R) (s : spline (Rops dz)) rl, well_formed s -> regular s -> inner_rule rl -> exists lists jac,
  element_lists s = Ok lists /\
  (forall es us, in_box (map zlen lists) es -> strictly_inside lists es us -> jacobian_determinant (F := Rops dz) mdet s us = Ok (jac us)) /\
  forall src v, zlen src = total (npts_of s) -> zlen v = total (npts_of s) -> exists v',
  right_side (F := Rops dz) mdet s rl src v = Ok v' /\ zlen v' = total (npts_of s) /\
  forall a, in_box (npts_of s) a ->
    component v' (position (npts_of s) a) =
    (component v (position (npts_of s) a) + quadrature lists rl (fun u => jac u * (nurbs_basis s u a * combination s src u)))%R.
Proof. exact @load_vector_ok. Qed.
Print Assumptions C54_load_vector.

(* with unit weights the stiffness matrix gains the integrals of the products of the physical gradients
   (for other weights the gradients are wrong, see C37) *)
Theorem C54_stiffness_matrix : forall (dz : R -> R) (mdet : list (list R) -> R) (minv : list (list R) -> Res (list (list R))) (s : spline (Rops dz)) rl kappa,
  well_formed s -> unit_weights s -> inner_rule rl -> degs_of s <> [] ->
  Z.of_nat (length (degs_of s)) <= total (local_sizes (degs_of s)) -> exists lists,
  element_lists s = Ok lists /\
  ((forall es us, in_box (map zlen lists) es -> strictly_inside lists es us -> invertible_at minv s us) -> exists jac G,
  (forall es us, in_box (map zlen lists) es -> strictly_inside lists es us -> jacobian_determinant (F := Rops dz) mdet s us = Ok (jac us)) /\
  (forall es us a, in_box (map zlen lists) es -> strictly_inside lists es us -> in_box (npts_of s) a ->
     physical_gradient s us a (fun i => G us i a)) /\
  forall m, square (total (npts_of s)) m -> exists m',
  left_side (F := Rops dz) mdet minv s rl kappa m = Ok m' /\ square (total (npts_of s)) m' /\
  forall a b, in_box (npts_of s) a -> in_box (npts_of s) b ->
    entry m' (position (npts_of s) a) (position (npts_of s) b) =
    (entry m (position (npts_of s) a) (position (npts_of s) b) +
     quadrature lists rl (fun u => jac u * (kappa * lsum (fun i => G u i a * G u i b) (seq 0 (length (degs_of s))))))%R).
Proof. exact @stiffness_ok. Qed.
Print Assumptions C54_stiffness_matrix.

(* symmetric; the sum of all entries is the measure of the domain; the quadratic form is the integral of
   the square of the function with these coefficients *)
Theorem C54_mass_consequences : forall (dz : R -> R) (mdet : list (list R) -> R) (s : spline (Rops dz)) rl m, well_formed s -> regular s -> inner_rule rl ->
  mass_matrix (F := Rops dz) mdet s rl = Ok m -> exists lists jac, element_lists s = Ok lists /\
  (forall es us, in_box (map zlen lists) es -> strictly_inside lists es us -> jacobian_determinant (F := Rops dz) mdet s us = Ok (jac us)) /\
  (forall i j, 0 <= i < total (npts_of s) -> 0 <= j < total (npts_of s) -> entry m i j = entry m j i) /\
  lsum (fun a => lsum (fun b => entry m (position (npts_of s) a) (position (npts_of s) b)) (all_indices (npts_of s))) (all_indices (npts_of s))
    = quadrature lists rl jac /\
  (forall c, lsum (fun a => lsum (fun b => component c (position (npts_of s) a) *
       entry m (position (npts_of s) a) (position (npts_of s) b) * component c (position (npts_of s) b))%R
       (all_indices (npts_of s))) (all_indices (npts_of s)) =
     quadrature lists rl (fun u => jac u * Rsqr (combination s c u))%R) /\
  (Forall (fun q => 0 <= snd q)%R rl -> forall c, 0 <= lsum (fun a => lsum (fun b => component c (position (npts_of s) a) *
       entry m (position (npts_of s) a) (position (npts_of s) b) * component c (position (npts_of s) b))
       (all_indices (npts_of s))) (all_indices (npts_of s)))%R.
Proof. exact @mass_consequences. Qed.
Print Assumptions C54_mass_consequences.

(* the load vector is the mass matrix times the coefficients of the source *)
Theorem C54_load_is_mass_times_source : forall (dz : R -> R) (mdet : list (list R) -> R) (s : spline (Rops dz)) rl m src v v', well_formed s -> regular s -> inner_rule rl ->
  mass_matrix (F := Rops dz) mdet s rl = Ok m -> zlen src = total (npts_of s) -> zlen v = total (npts_of s) ->
  right_side (F := Rops dz) mdet s rl src v = Ok v' ->
  forall i, 0 <= i < total (npts_of s) ->
  component v' i = (component v i + lsum (fun j => entry m i j * component src j) (zseq 0 (Z.to_nat (total (npts_of s)))))%R.
Proof. exact @load_is_mass_times_source. Qed.
Print Assumptions C54_load_is_mass_times_source.

(* symmetric, every row sums to zero, non-negative quadratic form *)
Theorem C54_stiffness_consequences : forall (dz : R -> R) (mdet : list (list R) -> R) (minv : list (list R) -> Res (list (list R))) (s : spline (Rops dz)) rl kappa m',
  well_formed s -> unit_weights s -> inner_rule rl -> degs_of s <> [] ->
  Z.of_nat (length (degs_of s)) <= total (local_sizes (degs_of s)) ->
  (forall lists es us, element_lists s = Ok lists -> in_box (map zlen lists) es -> strictly_inside lists es us -> invertible_at minv s us) ->
  left_side (F := Rops dz) mdet minv s rl kappa (mat_zeros (F := Rops dz) (total (npts_of s)) (total (npts_of s))) = Ok m' ->
  (forall i j, 0 <= i < total (npts_of s) -> 0 <= j < total (npts_of s) -> entry m' i j = entry m' j i) /\
  (forall i, 0 <= i < total (npts_of s) -> lsum (fun j => entry m' i j) (zseq 0 (Z.to_nat (total (npts_of s)))) = 0%R) /\
  (Forall (fun q => 0 <= snd q)%R rl -> (0 <= kappa)%R -> forall c, 0 <= lsum (fun a => lsum (fun b => component c (position (npts_of s) a) *
       entry m' (position (npts_of s) a) (position (npts_of s) b) * component c (position (npts_of s) b))
       (all_indices (npts_of s))) (all_indices (npts_of s)))%R.
Proof. exact @stiffness_consequences. Qed.
Print Assumptions C54_stiffness_consequences.

(* the rectangle [0,2] x [0,1] as a bilinear patch meets all hypotheses above *)
Example C54_example : forall dz, exists s : spline (Rops dz),
  spline_new (F := Rops dz) patch_knots [1; 1] patch_points None = Ok s /\ well_formed s /\ regular s /\ unit_weights s /\
  degs_of s <> [] /\ Z.of_nat (length (degs_of s)) <= total (local_sizes (degs_of s)) /\
  inner_rule middle_rule /\ Forall (fun q => 0 <= snd q)%R middle_rule /\
  (forall a b c d, det2 [[a; b]; [c; d]] = a * d - b * c)%R /\
  element_lists s = Ok [[(0, 1)]; [(0, 1)]]%R /\ in_box (map zlen [[(0, 1)]; [(0, 1)]]%R) [0; 0] /\
  strictly_inside [[(0, 1)]; [(0, 1)]]%R [0; 0] [1/2; 1/4]%R /\
  (forall lists es us, element_lists s = Ok lists -> in_box (map zlen lists) es -> strictly_inside lists es us -> invertible_at inv2 s us) /\
  jacobian_determinant (F := Rops dz) det2 s [1/2; 1/4]%R = Ok (1 / 2)%R.
Proof. exact ex_patch. Qed.
