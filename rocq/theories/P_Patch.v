(* Properties of the stiffness matrix on affine patches: C90. *)
From Coq Require Import ZArith List Reals.
From Verif Require Import Base RSum MultiIndex MultiIndexSpec Spaces SpacesSpec SplineEval SplineSpec SplineNew Gauss IgaSpec Iga IgaSystem IgaSystemSpec
  GalerkinSpec SolvableSpec IgaSolveExamples SolvableExamples PatchSpec PatchThms PatchExamples.
Import ListNotations.
Open Scope R_scope.

(* C90, the patch test: on an affine patch the inner rows of the stiffness matrix annihilate the control values of every
   linear function of the physical coordinates. So when the boundary values are those of the linear function, the only
   solution of the inner equations without sources has the values of the linear function everywhere. *)
Theorem C90_patch_test : forall dz (mdet : list (list R) -> R) (minv : list (list R) -> Res (list (list R))) (s : spline (Rops dz)) n rl kappa A b (W : nat -> nat -> R),
  well_formed s -> unit_weights s -> degs_of s <> [] -> (Z.of_nat (length (degs_of s)) <= total (local_sizes (degs_of s)))%Z ->
  gauss_rule (F := Rops dz) n = Some rl -> Forall (fun p => p < n)%Z (degs_of s) -> affine_map s A b -> scales mdet (length (degs_of s)) ->
  (Z.of_nat (length (degs_of s)) <= ph_dim (sp_ph s))%Z ->
  inverts minv (length (degs_of s)) (table (length (degs_of s)) (fun i d => A (Z.of_nat i) d)) ->
  (forall i j, (i < length (degs_of s))%nat -> (j < length (degs_of s))%nat ->
     lsum (fun d => A (Z.of_nat i) d * W d j) (seq 0 (length (degs_of s))) = if Nat.eqb i j then 1 else 0) ->
  Forall2 linked_direction (knots_of s) (degs_of s) ->
  exists m, left_side (F := Rops dz) mdet minv s rl kappa (mat_zeros (F := Rops dz) (total (npts_of s)) (total (npts_of s))) = Ok m /\
  forall alpha beta,
  (forall a, in_box (npts_of s) a -> ~ at_boundary (npts_of s) a ->
     row_applied (npts_of s) m a (fun i => linear_function (length (degs_of s)) alpha beta (coordinate s i)) = 0) /\
  (nondegenerate mdet s -> 0 < kappa -> forall y : list R,
   (forall a, in_box (npts_of s) a -> at_boundary (npts_of s) a ->
      component y (position (npts_of s) a) = linear_function (length (degs_of s)) alpha beta (coordinate s a)) ->
   (forall a, in_box (npts_of s) a -> ~ at_boundary (npts_of s) a ->
      row_applied (npts_of s) m a (fun i => component y (position (npts_of s) i)) = 0) ->
   (forall a, in_box (npts_of s) a -> component y (position (npts_of s) a) = linear_function (length (degs_of s)) alpha beta (coordinate s a)) /\
   forall us, in_domain s us -> combination s y us = linear_function (length (degs_of s)) alpha beta (geometry s us)).
Proof. exact patch_test. Qed.
Print Assumptions C90_patch_test.

(* C90, the same for the solver: SetDirichletBC with the boundary values of a linear function and any solver
   that solves uniquely solvable systems give the control values of the linear function *)
Theorem C90_solver : forall dz (mdet : list (list R) -> R) (minv : list (list R) -> Res (list (list R))) (s : spline (Rops dz)) n rl kappa A b (W : nat -> nat -> R) alpha beta,
  well_formed s -> unit_weights s -> degs_of s <> [] -> (Z.of_nat (length (degs_of s)) <= total (local_sizes (degs_of s)))%Z ->
  gauss_rule (F := Rops dz) n = Some rl -> Forall (fun p => p < n)%Z (degs_of s) -> affine_map s A b -> scales mdet (length (degs_of s)) ->
  (Z.of_nat (length (degs_of s)) <= ph_dim (sp_ph s))%Z ->
  inverts minv (length (degs_of s)) (table (length (degs_of s)) (fun i d => A (Z.of_nat i) d)) ->
  (forall i j, (i < length (degs_of s))%nat -> (j < length (degs_of s))%nat ->
     lsum (fun d => A (Z.of_nat i) d * W d j) (seq 0 (length (degs_of s))) = if Nat.eqb i j then 1 else 0) ->
  Forall2 linked_direction (knots_of s) (degs_of s) -> nondegenerate mdet s -> 0 < kappa ->
  exists m order y, left_side (F := Rops dz) mdet minv s rl kappa (mat_zeros (F := Rops dz) (total (npts_of s)) (total (npts_of s))) = Ok m /\
  boundary_list (npts_of s) order /\ Z.of_nat (length y) = total (npts_of s) /\
  (forall a, in_box (npts_of s) a -> component y (position (npts_of s) a) = linear_function (length (degs_of s)) alpha beta (coordinate s a)) /\
  (forall us, in_domain s us -> combination s y us = linear_function (length (degs_of s)) alpha beta (geometry s us)) /\
  forall v, Z.of_nat (length v) = total (npts_of s) ->
  (forall a, in_box (npts_of s) a -> ~ at_boundary (npts_of s) a -> component v (position (npts_of s) a) = 0) ->
  exists m' v', set_dirichlet (F := Rops dz) (npts_of s) m v (Some (map (fun a => linear_function (length (degs_of s)) alpha beta (coordinate s a)) order)) = Ok (m', v') /\
  forall msolve, correct_solver (total (npts_of s)) msolve -> msolve m' v' = Ok y.
Proof. exact patch_solver. Qed.
Print Assumptions C90_solver.

Example C90_example : forall dz, exists (s : spline (Rops dz)) rl,
  spline_new (F := Rops dz) line_knots [2%Z] [[0]; [1/2]; [1]] None = Ok s /\ gauss_rule (F := Rops dz) 3 = Some rl /\
  well_formed s /\ unit_weights s /\ degs_of s <> [] /\ (Z.of_nat (length (degs_of s)) <= total (local_sizes (degs_of s)))%Z /\
  Forall (fun p => p < 3)%Z (degs_of s) /\ affine_map s (fun _ _ => 1) (fun _ => 0) /\ scales rdet1 (length (degs_of s)) /\
  (Z.of_nat (length (degs_of s)) <= ph_dim (sp_ph s))%Z /\
  inverts rinv1 (length (degs_of s)) (table (length (degs_of s)) (fun _ _ => 1)) /\
  (forall i j, (i < length (degs_of s))%nat -> (j < length (degs_of s))%nat ->
     lsum (fun _ => 1 * 1) (seq 0 (length (degs_of s))) = if Nat.eqb i j then 1 else 0) /\
  Forall2 linked_direction (knots_of s) (degs_of s) /\ nondegenerate rdet1 s /\
  in_box (npts_of s) [1%Z] /\ ~ at_boundary (npts_of s) [1%Z] /\ correct_solver (total (npts_of s)) cramer3.
Proof. exact ex_patch. Qed.
