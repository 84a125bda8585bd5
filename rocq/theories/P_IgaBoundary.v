(* Properties of the boundary conditions and of the solution of the Poisson problem: C55 and C56. *)
From Coq Require Import ZArith List Bool Reals Floats.
From Verif Require Import Base RSum MultiIndex MultiIndexSpec Spaces SplineEval SplineSpec Iga IgaSpec IgaSystem IgaSystemSpec
  IgaSystemThms IgaBoundaryThms IgaSolveSpec IgaSolveThms IgaSolveExamples.
Import ListNotations.
Open Scope Z_scope.

(* C55: setting boundary conditions replaces exactly the rows of the control points on the boundary *)
Theorem C55_boundary_conditions : forall (dz : R -> R) npts, pos_lens npts -> exists order, boundary_list npts order /\
  forall m v, square (total npts) m -> Z.of_nat (length v) = total npts ->
  (exists m' v', set_zero (F := Rops dz) npts m v = Ok (m', v') /\ conditioned npts order m m' v v' (repeat 0%R (length order))) /\
  (exists m' v', set_dirichlet (F := Rops dz) npts m v None = Ok (m', v') /\ conditioned npts order m m' v v' (repeat 0%R (length order))) /\
  (forall values, (length order <= length values)%nat ->
     exists m' v', set_dirichlet (F := Rops dz) npts m v (Some values) = Ok (m', v') /\ conditioned npts order m m' v v' values) /\
  (forall values, (length values < length order)%nat -> set_dirichlet (F := Rops dz) npts m v (Some values) = UB).
Proof. exact @boundary_conditions. Qed.
Print Assumptions C55_boundary_conditions.

(* the solutions of such a system are the vectors with these boundary values that satisfy the other rows *)
Theorem C55_solutions : forall npts order m m' v v' values x, pos_lens npts -> boundary_list npts order ->
  conditioned npts order m m' v v' values ->
  solves (total npts) m' v' x <->
  weak_form npts values x (fun a b => entry m (position npts a) (position npts b)) (fun a => component v (position npts a)).
Proof. exact conditioned_solutions. Qed.
Print Assumptions C55_solutions.

Example C55_example : pos_lens [3; 3] /\ in_box [3; 3] [1; 1] /\ ~ at_boundary [3; 3] [1; 1] /\
  in_box [3; 3] [0; 2] /\ at_boundary [3; 3] [0; 2] /\
  boundary_list [3; 3] [[0; 0]; [1; 0]; [2; 0]; [0; 1]; [2; 1]; [0; 2]; [1; 2]; [2; 2]].
Proof. exact ex_boundary. Qed.

(* C56: however often GetSteadyStateSolution has been called before, the system it solves is equivalent to
   the discrete Poisson problem with zero boundary values *)
Theorem C56_steady : forall (dz : R -> R) (mdet : list (list R) -> R) (minv : list (list R) -> Res (list (list R))) (s : spline (Rops dz)) rl,
  well_formed s -> unit_weights s -> inner_rule rl -> degs_of s <> [] ->
  Z.of_nat (length (degs_of s)) <= total (local_sizes (degs_of s)) -> exists lists p0,
  element_lists s = Ok lists /\ problem_new (F := Rops dz) s rl = Ok p0 /\
  ((forall es us, in_box (map zlen lists) es -> strictly_inside lists es us -> invertible_at minv s us) -> exists jac G,
  (forall es us, in_box (map zlen lists) es -> strictly_inside lists es us -> jacobian_determinant (F := Rops dz) mdet s us = Ok (jac us)) /\
  (forall es us a, in_box (map zlen lists) es -> strictly_inside lists es us -> in_box (npts_of s) a ->
     physical_gradient s us a (fun i => G us i a)) /\
  forall msolve k pr, steady_calls mdet minv msolve k p0 = Ok pr -> exists A B,
  steady (F := Rops dz) mdet minv msolve pr = (x <- msolve A B ;; Ok (x, mkProblem (F := Rops dz) s rl A B)) /\ square (total (npts_of s)) A /\ Z.of_nat (length B) = total (npts_of s) /\
  forall x, solves (total (npts_of s)) A B x <->
  weak_form (npts_of s) [] x
    (fun a b => quadrature lists rl (fun u => jac u * lsum (fun i => G u i a * G u i b) (seq 0 (length (degs_of s))))%R)
    (fun a => quadrature lists rl (fun u => jac u * nurbs_basis s u a)%R)).
Proof. exact @steady_solutions. Qed.
Print Assumptions C56_steady.

(* the first call of GetUnsteadyStateSolution: each step is an implicit Euler step *)
Theorem C56_unsteady : forall (dz : R -> R) (mdet : list (list R) -> R) (minv : list (list R) -> Res (list (list R))) msolve trunc (s : spline (Rops dz)) rl,
  well_formed s -> unit_weights s -> inner_rule rl -> degs_of s <> [] ->
  Z.of_nat (length (degs_of s)) <= total (local_sizes (degs_of s)) -> exists lists p0,
  element_lists s = Ok lists /\ problem_new (F := Rops dz) s rl = Ok p0 /\
  ((forall es us, in_box (map zlen lists) es -> strictly_inside lists es us -> invertible_at minv s us) ->
   (forall m v x, msolve m v = Ok x -> solves (total (npts_of s)) m v x) -> exists jac G,
  (forall es us, in_box (map zlen lists) es -> strictly_inside lists es us -> jacobian_determinant (F := Rops dz) mdet s us = Ok (jac us)) /\
  (forall es us a, in_box (map zlen lists) es -> strictly_inside lists es us -> in_box (npts_of s) a ->
     physical_gradient s us a (fun i => G us i a)) /\
  forall dt tEnd dirichlet sols p1, (dt <> 0)%R ->
  unsteady (F := Rops dz) mdet minv msolve trunc p0 dt tEnd dirichlet = Ok (sols, p1) ->
  length sols = S (Z.to_nat (trunc (tEnd / dt)%R)) /\
  nth_error sols 0 = Some (repeat 0%R (Z.to_nat (total (npts_of s)))) /\
  forall k u u', nth_error sols k = Some u -> nth_error sols (S k) = Some u' ->
  weak_form (npts_of s) (match dirichlet with Some v => v | None => [] end) u'
    (fun a b => quadrature lists rl (fun u => jac u * lsum (fun i => G u i a * G u i b) (seq 0 (length (degs_of s)))) +
                quadrature lists rl (fun u => jac u * (nurbs_basis s u a * nurbs_basis s u b)) / dt)%R
    (fun a => quadrature lists rl (fun u => jac u * nurbs_basis s u a) +
              lsum (fun b => quadrature lists rl (fun u => jac u * (nurbs_basis s u a * nurbs_basis s u b)) / dt * component u (position (npts_of s) b))
                   (all_indices (npts_of s)))%R).
Proof. exact @unsteady_solutions. Qed.
Print Assumptions C56_unsteady.

Example C56_example : forall dz, exists s : spline (Rops dz),
  spline_new (F := Rops dz) line_knots [2] [[0]; [1/2]; [1]]%R None = Ok s /\ well_formed s /\ unit_weights s /\
  degs_of s <> [] /\ Z.of_nat (length (degs_of s)) <= total (local_sizes (degs_of s)) /\ inner_rule [(- (1/2), 1); (1/2, 1)]%R /\
  (forall lists es us, element_lists s = Ok lists -> in_box (map zlen lists) es -> strictly_inside lists es us -> invertible_at rinv1 s us) /\
  (forall m v x, rsolve3 m v = Ok x -> solves (total (npts_of s)) m v x) /\
  in_box (npts_of s) [1] /\ ~ at_boundary (npts_of s) [1] /\
  rsolve3 [[1; 0; 0]; [2; 4; 2]; [0; 0; 1]]%R [0; 1; 0]%R = Ok [0; 1/4; 0]%R.
Proof. exact ex_line. Qed.

Example C56_steady_example : steady_same = true.
Proof. exact steady_same_true. Qed.

(* the matrix and the right-hand side are kept and added to: a second call with the same arguments gives
   another result *)
Theorem C56_unsteady_repeat_refuted : exists (s : spline Fops) p0 sols p1 sols' p2,
  problem_new (F := Fops) s gauss2 = Ok p0 /\
  unsteady (F := Fops) det1 inv1 solve3 trunc1 p0 0.125%float 0.125%float None = Ok (sols, p1) /\
  unsteady (F := Fops) det1 inv1 solve3 trunc1 p1 0.125%float 0.125%float None = Ok (sols', p2) /\
  (middle (nth 1 sols []) + 0x1p-5 <? middle (nth 1 sols' []))%float = true.
Proof. exact unsteady_repeat. Qed.
Print Assumptions C56_unsteady_repeat_refuted.
