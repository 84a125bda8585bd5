(* Model of the assembly in example/iga/src: mapping_handler.h, basis_function_handler.h:41-123 and
   199-214, element_integral_calculator.h, linear_equation_assembler.h, bdf_handler.h, poisson_problem.h,
   solution_spline.h and solution_vtk_writer.h:34-56.
   Armadillo is not modelled.  A matrix is the list of its rows.  [mdet], [minv] and [msolve] stand for
   arma::det, the inverse .i() and arma::solve.  An index outside a matrix or vector, for which Armadillo
   throws, is UB here. *)
From Coq Require Import ZArith List Bool.
From Verif Require Import Base MultiIndex KnotVec Basis Spaces SplineEval Gauss Iga.
Import ListNotations.
Open Scope Z_scope.

Section System.
Context {F : NumOps}.
Definition mat : Type := list (list F).
Context (mdet : mat -> F) (minv : mat -> Res mat) (msolve : mat -> list F -> Res (list F)) (trunc : F -> Z).

(* zero matrix and vector; m(i, j) += x and v(i) += x *)
Definition mat_zeros (n m : Z) : mat := repeat (repeat n0 (Z.to_nat m)) (Z.to_nat n).
Definition vec_zeros (n : Z) : list F := repeat n0 (Z.to_nat n).
Definition vec_add_at (v : list F) (i : Z) (x : F) : Res (list F) := y <- vget v i ;; vset v i (y + x)%num.
Definition mat_add_at (m : mat) (i j : Z) (x : F) : Res mat := r <- vget m i ;; r' <- vec_add_at r j x ;; vset m i r'.
(* sum, product and transpose; [n] is the number of columns of the result *)
Definition dot (a b : list F) : F := fold_left nadd (map2 nmul a b) n0.
Definition mat_col (m : mat) (j : nat) : list F := map (fun r => nth j r n0) m.
Definition mat_mul (n : nat) (a b : mat) : mat := map (fun r => map (fun j => dot r (mat_col b j)) (seq 0 n)) a.
Definition mat_t (n : nat) (a : mat) : mat := map (mat_col a) (seq 0 n).
Definition mat_vec (a : mat) (x : list F) : list F := map (fun r => dot r x) a.
Definition mat_plus (a b : mat) : mat := map2 (map2 nadd) a b.
Definition mat_div (a : mat) (x : F) : mat := map (map (fun v => v / x)%num) a.

(* mapping_handler.h:56-68 GetDxDxi *)
Definition unit_at (n j : nat) : list Z := upd (repeat 0 n) j 1.
Definition dx_dxi (s : spline F) (us : list F) : Res mat :=
  mapM (fun i => mapM (fun j => v <- evaluate_derivative s us [i] (unit_at (length us) j) ;; vget v 0)
                      (seq 0 (length us)))
       (zseq 0 (Z.to_nat (sp_pdim s))).

(* mapping_handler.h:70-80 GetDxiDxitilde *)
Definition half_span (kv : list F) (u : F) : Res F :=
  k <- knot_span kv u ;; b <- get_knot kv (k + 1) ;; a <- get_knot kv k ;; Ok ((b - a) / nofZ 2)%num.
Definition dxi_dxitilde (s : spline F) (us : list F) : Res mat :=
  hs <- mapM (fun x => half_span (fst x) (snd x)) (combine (ps_knots (sp_ps s)) us) ;;
  Ok (map (fun i => map (fun j => if Nat.eqb i j then nth i hs n0 else n0) (seq 0 (length us))) (seq 0 (length us))).

(* mapping_handler.h:52-54 GetDxDxitilde *)
Definition dx_dxitilde (s : spline F) (us : list F) : Res mat :=
  a <- dx_dxi s us ;; b <- dxi_dxitilde s us ;; Ok (mat_mul (length us) a b).

(* mapping_handler.h:36-38 GetJacobianDeterminant *)
Definition jacobian_determinant (s : spline F) (us : list F) : Res F :=
  j <- dx_dxitilde s us ;;
  Ok (nsqrt (nabs (mdet (mat_mul (length us) (mat_t (length us) j) j)))).

(* mapping_handler.h:30-34 GetDxiDx *)
Definition dxi_dx (s : spline F) (us : list F) : Res mat :=
  a <- dx_dxi s us ;;
  if sp_pdim s <? zlen us then UB else minv (map (firstn (length us)) (firstn (length us) a)).

(* basis_function_handler.h:199-214 EvaluateAllNonZeroNURBSBafDerivativesPhysical *)
Definition physical_derivs (s : spline F) (us : list F) : Res mat :=
  dr <- nonzero_nurbs_derivs s us ;;
  inv <- dxi_dx s us ;;
  mapM (fun i => ri <- dget dr i ;;
                 mapM (fun j => foldM (fun t k => rk <- dget dr k ;; a <- vget rk j ;; row <- dget inv k ;; b <- dget row i ;;
                                                  Ok (t + a * b)%num) (seq 0 (length us)) n0)
                      (zseq 0 (length ri)))
       (seq 0 (length us)).

(* basis_function_handler.h:41-67 EvaluateAllElementNonZeroNURBSBasisFunctions and 97-123
   EvaluateAllElementNonZeroNURBSBafDerivativesPhysical: [f] is the function evaluated in 61 and 117.
   An integration point (element_integration_point.h) is (values, weight, Jacobian determinant).  The loop
   while (true) { ...; if (last) break; ++mih; } makes Get1DLength() rounds unless the rule is empty. *)
Definition element_points {A} (s : spline F) (rl : list (F * F)) (n : Z) (f : list F -> Res A) : Res (list (A * F * F)) :=
  if zlen rl =? 0 then UB
  else mih_loop (repeat (zlen rl) (length (ps_degs (sp_ps s)))) (fun h acc =>
    pts <- mapM (vget rl) (mcur h) ;;
    us <- reference_to_parameter s n (map fst pts) ;;
    v <- f us ;;
    jac <- jacobian_determinant s us ;;
    Ok (acc ++ [(v, fold_left nmul (map snd pts) n1, jac)])) [].

(* element_integral_calculator.h:37-54 GetLaplaceElementIntegral (matrix) *)
Definition laplace_matrix (s : spline F) (rl : list (F * F)) (conductivity : F) (n : Z) (matA : mat) : Res mat :=
  pts <- element_points s rl n (physical_derivs s) ;;
  foldM (fun matA p =>
    let '(g, w, jac) := p in
    g0 <- dget g 0 ;;
    for_up 0 (zlen g0) (fun j matA => for_up 0 (zlen g0) (fun k matA =>
      t <- foldM (fun t gi => a <- vget gi j ;; b <- vget gi k ;; Ok (t + a * b)%num) g n0 ;;
      r <- global_index s n j ;; c <- global_index s n k ;;
      mat_add_at matA (r - 1) (c - 1) (t * (w * jac * conductivity))%num) matA) matA) pts matA.

(* the sum in element_integral_calculator.h:61-65: the function with coefficients [cs] at an integration point *)
Definition point_value (vals : list F) (coefficient : Z -> Res F) : Res F :=
  for_up 0 (zlen vals) (fun j t => v <- vget vals j ;; c <- coefficient j ;; Ok (t + v * c)%num) n0.
(* element_integral_calculator.h:56-71 GetLaplaceElementIntegral (vector) *)
Definition load_vector (s : spline F) (rl : list (F * F)) (src : list F) (n : Z) (vecB : list F) : Res (list F) :=
  pts <- element_points s rl n (nonzero_nurbs s) ;;
  foldM (fun vecB p =>
    let '(vals, w, jac) := p in
    b <- point_value vals (fun j => g <- global_index s n j ;; vget src (g - 1)) ;;
    for_up 0 (zlen vals) (fun j vecB =>
      v <- vget vals j ;; g <- global_index s n j ;;
      vec_add_at vecB (g - 1) (v * b * w * jac)%num) vecB) pts vecB.

(* linear_equation_assembler.h:35-40 GetLeftSide and 42-47 GetRightSide *)
Definition left_side (s : spline F) (rl : list (F * F)) (conductivity : F) (matA : mat) : Res mat :=
  ne <- num_all_elements s ;; for_up 0 ne (laplace_matrix s rl conductivity) matA.
Definition right_side (s : spline F) (rl : list (F * F)) (src vecB : list F) : Res (list F) :=
  ne <- num_all_elements s ;; for_up 0 ne (load_vector s rl src) vecB.

(* bdf_handler.h:45-63 GetTimeDiscretizationMatrix *)
Definition mass_element (s : spline F) (rl : list (F * F)) (n : Z) (m : mat) : Res mat :=
  pts <- element_points s rl n (nonzero_nurbs s) ;;
  foldM (fun m p =>
    let '(vals, w, jac) := p in
    for_up 0 (zlen vals) (fun j m => for_up 0 (zlen vals) (fun k m =>
      a <- vget vals j ;; b <- vget vals k ;;
      r <- global_index s n j ;; c <- global_index s n k ;;
      mat_add_at m (r - 1) (c - 1) (a * b * w * jac)%num) m) m) pts m.
Definition mass_matrix (s : spline F) (rl : list (F * F)) : Res mat :=
  n <- num_control_points (sp_ph s) ;;
  ne <- num_all_elements s ;;
  for_up 0 ne (mass_element s rl) (mat_zeros n n).

(* linear_equation_assembler.h:109-125 GetBoundarySplineConnectivity, for one direction d: the two lists
   boundary_spl_connectivity[d][0] and [d][1] *)
Definition boundary_connectivity (npts : list Z) (d : nat) : Res (list Z * list Z) :=
  mih_loop npts (fun h st =>
    i <- dget (mcur h) d ;; n <- dget npts d ;;
    Ok (if i =? 0 then fst st ++ [mih_get1d h] else fst st,
        if i =? n - 1 then snd st ++ [mih_get1d h] else snd st)) ([], []).

(* linear_equation_assembler.h:84-93: knot vectors and degrees of the boundary splines for direction i.
   The loop takes entry m, the number of directions taken so far, not entry j. *)
Definition boundary_directions (s : spline F) (i : nat) : Res (list (list F) * list Z) :=
  foldM (fun st j =>
    if Nat.eqb j i then Ok st
    else kv <- dget (ps_knots (sp_ps s)) (length (fst st)) ;;
         p <- dget (ps_degs (sp_ps s)) (length (fst st)) ;;
         Ok (fst st ++ [kv], snd st ++ [p])) (seq 0 (length (ps_degs (sp_ps s)))) ([], []).

(* linear_equation_assembler.h:98-103: one boundary spline.  Set1DIndex comes round after Get1DLength() steps and
   goes on for ever for an index out of range (UB); it starts at the index of the round before, which makes no
   difference.  GetWeight is that of a NURBS. *)
Definition boundary_spline (s : spline F) (dirs : list (list F) * list Z) (members : list Z) : Res (spline F) :=
  let npts := ph_npts (sp_ph s) in
  pts <- mapM (fun n =>
           match set1d (Z.to_nat (total npts)) (mih_new npts) n with
           | None => UB
           | Some h => c <- get_control_point (sp_ph s) (mcur h) ;; w <- get_weight (sp_ph s) (mcur h) ;; Ok (c, w)
           end) members ;;
  spline_new (fst dirs) (snd dirs) (map fst pts) (Some (map snd pts)).
(* 79-107 GetBoundarySplines *)
Definition boundary_splines (s : spline F) : Res (list (spline F * spline F)) :=
  mapM (fun i =>
    members <- boundary_connectivity (ph_npts (sp_ph s)) i ;;
    dirs <- boundary_directions s i ;;
    a <- boundary_spline s dirs (fst members) ;; b <- boundary_spline s dirs (snd members) ;;
    Ok (a, b)) (seq 0 (length (ps_degs (sp_ps s)))).

(* 54-76: the contribution of one boundary spline *)
Definition neumann_boundary (rl : list (F * F)) (b : spline F) (neumann : list F) (members : list Z) (vecB : list F)
    : Res (list F) :=
  ne <- num_all_elements b ;;
  for_up 0 ne (fun e vecB =>
    pts <- element_points b rl e (nonzero_nurbs b) ;;
    foldM (fun vecB p =>
      let '(vals, w, jac) := p in
      t <- point_value vals (fun l => g <- global_index b e l ;; vget neumann (g - 1)) ;;
      for_up 0 (zlen vals) (fun k vecB =>
        v <- vget vals k ;; g <- global_index b e k ;; i <- vget members (g - 1) ;;
        vec_add_at vecB i (v * t * w * jac)%num) vecB) pts vecB) vecB.
(* 49-77 GetRightSideNeumann *)
Definition right_side_neumann (s : spline F) (rl : list (F * F)) (vecB : list F) (neumann : list (list F * list F))
    : Res (list F) :=
  if zlen (ps_degs (sp_ps s)) =? 1 then Throw RuntimeError
  else
    bs <- boundary_splines s ;;
    foldM (fun vecB i =>
      b <- dget bs i ;; members <- boundary_connectivity (ph_npts (sp_ph s)) i ;; nc <- dget neumann i ;;
      v <- neumann_boundary rl (fst b) (fst nc) (fst members) vecB ;;
      neumann_boundary rl (snd b) (snd nc) (snd members) v) (seq 0 (length (ps_degs (sp_ps s)))) vecB.

(* linear_equation_assembler.h:130-135 and 152-157 on_boundary *)
Definition on_boundary (h : mih) : bool :=
  existsb (fun x => negb ((0 <? fst x) && (0 <? snd x))) (combine (mcur h) (difference_indices h)).
(* 138-139, 160-161: row i becomes row i of the identity *)
Definition unit_row (matA : mat) (i : Z) : Res mat :=
  r <- vget matA i ;; r' <- vset (map (fun _ => n0) r) i n1 ;; vset matA i r'.
(* 127-144 SetZeroBC *)
Definition set_zero (npts : list Z) (matA : mat) (vecB : list F) : Res (mat * list F) :=
  mih_loop npts (fun h st =>
    if on_boundary h then
      b <- vset (snd st) (mih_get1d h) n0 ;; a <- unit_row (fst st) (mih_get1d h) ;; Ok (a, b)
    else Ok st) (matA, vecB).
(* 146-167 SetDirichletBC; None is nullptr *)
Definition set_dirichlet (npts : list Z) (matA : mat) (vecB : list F) (dirichlet : option (list F)) : Res (mat * list F) :=
  let values := match dirichlet with Some v => v | None => vec_zeros (zlen vecB) end in
  st <- mih_loop npts (fun h st =>
          let '(matA, vecB, number) := st in
          if on_boundary h then
            x <- vget values number ;; b <- vset vecB (mih_get1d h) x ;; a <- unit_row matA (mih_get1d h) ;;
            Ok (a, b, number + 1)
          else Ok st) (matA, vecB, 0) ;;
  Ok (fst st).

(* bdf_handler.h:33-36 GetBDF1LeftSide, 38-42 GetBDF1RightSide *)
Definition bdf_left (m matA : mat) (dt : F) : mat := mat_plus matA (mat_div m dt).
Definition bdf_right (m : mat) (vecB prev : list F) (dt : F) : list F := map2 nadd vecB (mat_vec (mat_div m dt) prev).

(* poisson_problem.h:66-73: spline_, rule_ and the members matA_, vecB_ that change; srcCp_ is all ones *)
Record problem := mkProblem { pr_spline : spline F; pr_rule : list (F * F); pr_A : mat; pr_B : list F }.
(* 30-37 constructor *)
Definition problem_new (s : spline F) (rl : list (F * F)) : Res problem :=
  n <- num_control_points (sp_ph s) ;; Ok (mkProblem s rl (mat_zeros n n) (vec_zeros n)).
(* 40-41, 53-54: the new matA_ and vecB_ *)
Definition assemble (pr : problem) : Res (mat * list F) :=
  n <- num_control_points (sp_ph (pr_spline pr)) ;;
  a <- left_side (pr_spline pr) (pr_rule pr) n1 (pr_A pr) ;;
  b <- right_side (pr_spline pr) (pr_rule pr) (repeat n1 (Z.to_nat n)) (pr_B pr) ;;
  Ok (a, b).
(* 39-44 GetSteadyStateSolution: the system that is solved, and the call *)
Definition steady_system (pr : problem) : Res (mat * list F) :=
  st <- assemble pr ;; set_zero (ph_npts (sp_ph (pr_spline pr))) (fst st) (snd st).
Definition steady (pr : problem) : Res (list F * problem) :=
  st <- steady_system pr ;;
  x <- msolve (fst st) (snd st) ;;
  Ok (x, mkProblem (pr_spline pr) (pr_rule pr) (fst st) (snd st)).
(* 46-63 GetUnsteadyStateSolution *)
Definition time_step (npts : list Z) (m : mat) (vecB : list F) (dt : F) (dirichlet : option (list F)) (lhs : mat)
    (prev : list F) : Res (mat * list F) :=
  st <- set_dirichlet npts lhs (bdf_right m vecB prev dt) dirichlet ;;
  x <- msolve (fst st) (snd st) ;; Ok (fst st, x).
Definition unsteady (pr : problem) (dt tEnd : F) (dirichlet : option (list F)) : Res (list (list F) * problem) :=
  let s := pr_spline pr in
  m <- mass_matrix s (pr_rule pr) ;;
  n <- num_control_points (sp_ph s) ;;
  st <- assemble pr ;;
  r <- for_up 1 (trunc (tEnd / dt)%num + 1) (fun _ acc =>
         let '(lhs, prev, solutions) := acc in
         x <- time_step (ph_npts (sp_ph s)) m (snd st) dt dirichlet lhs prev ;;
         Ok (fst x, snd x, solutions ++ [snd x]))
       (bdf_left m (fst st) dt, vec_zeros n, [vec_zeros n]) ;;
  Ok (snd r, mkProblem s (pr_rule pr) (fst st) (snd st)).

(* nurbs.h:53-57 constructor from a NURBS and other control points *)
Definition with_points (s : spline F) (cps : list (list F)) : Res (spline F) :=
  ps <- ps_copy (sp_ps s) ;;
  ph <- wphys_new cps (match ph_wts (sp_ph s) with Some w => w | None => [] end) (ph_npts (sp_ph s)) ;;
  Ok (mkSpline ps ph).
(* solution_spline.h:27-40 *)
Definition solution_spline (s : spline F) (solution : list F) : Res (spline F) :=
  n <- num_control_points (sp_ph s) ;;
  cps <- mih_for (Z.to_nat n) (mih_new (ph_npts (sp_ph s))) (fun h cps =>
           row <- mapM (fun j => cp <- get_control_point (sp_ph s) (mcur h) ;; vget cp j) (zseq 0 (Z.to_nat (sp_pdim s))) ;;
           x <- vget solution (zlen cps) ;;
           Ok (cps ++ [row ++ [x]])) [] ;;
  with_points s cps.
(* solution_vtk_writer.h:36-56: the numbers of the section POINT_DATA *)
Definition solution_data (s : spline F) (solution : list F) (sc : list Z) : Res (list F) :=
  sol <- solution_spline s solution ;;
  grid <- mapM (fun x => last <- last_knot (fst x) ;; first <- get_knot (fst x) 0 ;; Ok (first, (last - first) / nofZ (snd x))%num)
               (combine (ps_knots (sp_ps s)) sc) ;;
  mih_loop (map (fun n => n + 1) sc) (fun h acc =>
    v <- evaluate sol (map2 (fun g i => fst g + nofZ i * snd g)%num grid (mcur h)) [sp_pdim s] ;;
    x <- vget v 0 ;; Ok (acc ++ [x])) [].
End System.
Arguments mat : clear implicits.
Arguments problem : clear implicits.
