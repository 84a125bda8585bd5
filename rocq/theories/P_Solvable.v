(* Properties of the solvability of the assembled systems: C82. *)
From Coq Require Import ZArith List Reals.
From Verif Require Import Base RSum MultiIndex MultiIndexSpec KnotVecSpec Spaces SpacesSpec SplineNew SplineEval SplineSpec UniqueSpec Gauss
  Iga IgaSpec IgaSystem IgaSystemSpec IgaSolveSpec SolvableSpec SolvableThms IgaSolveExamples SolvableExamples.
Import ListNotations.
Open Scope R_scope.

(* the mass matrix is positive definite *)
Theorem C82_mass_definite : forall (dz : R -> R) mdet (s : spline (Rops dz)) rl m, well_formed s -> is_bspline s \/ positive_weights s ->
  Forall2 full_support (knots_of s) (degs_of s) -> dense_rule rl (degs_of s) -> nondegenerate mdet s -> mass_matrix (F := Rops dz) mdet s rl = Ok m ->
  forall c, Z.of_nat (length c) = total (npts_of s) -> c <> repeat 0 (length c) -> 0 < quadratic_form (npts_of s) m c.
Proof. exact @mass_definite. Qed.
Print Assumptions C82_mass_definite.

(* the form of the stiffness matrix is nowhere negative and vanishes for constants only *)
Theorem C82_stiffness_kernel : forall (dz : R -> R) (mdet : list (list R) -> R) (minv : list (list R) -> Res (list (list R))) (s : spline (Rops dz)) rl kappa m,
  well_formed s -> unit_weights s -> Forall2 linked_direction (knots_of s) (degs_of s) -> dense_rule rl (degs_of s) ->
  degs_of s <> [] -> (Z.of_nat (length (degs_of s)) <= total (local_sizes (degs_of s)))%Z -> nondegenerate mdet s -> invertible minv s -> 0 < kappa ->
  left_side (F := Rops dz) mdet minv s rl kappa (mat_zeros (F := Rops dz) (total (npts_of s)) (total (npts_of s))) = Ok m ->
  forall c, 0 <= quadratic_form (npts_of s) m c /\
  (quadratic_form (npts_of s) m c = 0 <->
   forall i j, (0 <= i < total (npts_of s))%Z -> (0 <= j < total (npts_of s))%Z -> component c i = component c j).
Proof. exact @stiffness_kernel. Qed.
Print Assumptions C82_stiffness_kernel.

(* the discrete Poisson problem has exactly one solution; every solver that solves the systems with exactly
   one solution returns it, in each call *)
Theorem C82_steady : forall (dz : R -> R) (mdet : list (list R) -> R) (minv : list (list R) -> Res (list (list R))) (s : spline (Rops dz)) rl,
  well_formed s -> unit_weights s -> Forall2 linked_direction (knots_of s) (degs_of s) -> dense_rule rl (degs_of s) ->
  degs_of s <> [] -> (Z.of_nat (length (degs_of s)) <= total (local_sizes (degs_of s)))%Z -> nondegenerate mdet s -> invertible minv s ->
  exists lists p0 jac G x, element_lists s = Ok lists /\ problem_new (F := Rops dz) s rl = Ok p0 /\
  (forall es us, in_box (map zlen lists) es -> strictly_inside lists es us -> jacobian_determinant (F := Rops dz) mdet s us = Ok (jac us)) /\
  (forall es us a, in_box (map zlen lists) es -> strictly_inside lists es us -> in_box (npts_of s) a ->
     physical_gradient s us a (fun i => G us i a)) /\
  (forall y, weak_form (npts_of s) [] y
    (fun a b => quadrature lists rl (fun u => jac u * lsum (fun i => G u i a * G u i b) (seq 0 (length (degs_of s)))))
    (fun a => quadrature lists rl (fun u => jac u * nurbs_basis s u a)) <-> y = x) /\
  forall msolve, correct_solver (total (npts_of s)) msolve -> forall k, exists pr pr',
  steady_calls mdet minv msolve k p0 = Ok pr /\ steady (F := Rops dz) mdet minv msolve pr = Ok (x, pr').
Proof. exact @steady_unique. Qed.
Print Assumptions C82_steady.

(* the time steps are solvable as well: the list of solutions does not depend on the solver *)
Theorem C82_unsteady : forall (dz : R -> R) (mdet : list (list R) -> R) (minv : list (list R) -> Res (list (list R))) (trunc : R -> Z) (s : spline (Rops dz)) rl dt tEnd
  (dirichlet : option (list R)),
  well_formed s -> unit_weights s -> Forall2 full_support (knots_of s) (degs_of s) -> dense_rule rl (degs_of s) ->
  degs_of s <> [] -> (Z.of_nat (length (degs_of s)) <= total (local_sizes (degs_of s)))%Z -> nondegenerate mdet s -> invertible minv s ->
  0 < dt -> (forall v order, dirichlet = Some v -> boundary_list (npts_of s) order -> (length order <= length v)%nat) ->
  exists p0 p1 sols, problem_new (F := Rops dz) s rl = Ok p0 /\
  forall msolve, correct_solver (total (npts_of s)) msolve -> unsteady (F := Rops dz) mdet minv msolve trunc p0 dt tEnd dirichlet = Ok (sols, p1).
Proof. exact @unsteady_unique. Qed.
Print Assumptions C82_unsteady.

(* the rule of the library with n points serves all degrees below n *)
Theorem C82_gauss : forall (dz : R -> R) n rl degs, gauss_rule (F := Rops dz) n = Some rl -> Forall (fun p => p < n)%Z degs -> dense_rule rl degs.
Proof. exact @gauss_dense. Qed.
Print Assumptions C82_gauss.

Example C82_example : forall dz, exists (s : spline (Rops dz)) rl,
  spline_new (F := Rops dz) line_knots [2%Z] [[0]; [1/2]; [1]] None = Ok s /\ gauss_rule (F := Rops dz) 3 = Some rl /\
  well_formed s /\ unit_weights s /\ is_bspline s /\ Forall2 linked_direction (knots_of s) (degs_of s) /\ Forall2 full_support (knots_of s) (degs_of s) /\
  dense_rule rl (degs_of s) /\ degs_of s <> [] /\ (Z.of_nat (length (degs_of s)) <= total (local_sizes (degs_of s)))%Z /\
  nondegenerate rdet1 s /\ invertible rinv1 s /\ correct_solver (total (npts_of s)) cramer3 /\
  in_box (npts_of s) [1%Z] /\ ~ at_boundary (npts_of s) [1%Z].
Proof. exact ex_solvable. Qed.
