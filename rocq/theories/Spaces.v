(* Model of src/spl/parameter_space.h, physical_space.h and weighted_physical_space.h. *)
From Coq Require Import ZArith List Bool.
From Verif Require Import Base MultiIndex KnotVec Basis VecUtils.
Import ListNotations.
Open Scope Z_scope.

Section Spaces.
Context {F : NumOps}.

(* ------------------------------------------------------------------ *)
(* parameter_space.h:246-248 members.  Knot vectors are held by value here; sharing of the
   KnotVector objects is modelled separately in Heap.v. *)
Record pspace := mkPS {
  ps_knots : list (list F);
  ps_degs : list Z;
  ps_bfs : list (list (bf F))
}.

(* parameter_space.h:210-227 ThrowIfKnotVectorDoesNotStartAndEndWith, one direction *)
Definition check_clamped (kv : list F) (p : Z) : Res unit :=
  if zlen kv <? 2 * p + 2 then Throw RuntimeError
  else
    _ <- foldM (fun _ j => a <- get_knot kv 0 ;; b <- get_knot kv j ;;
                           if (a =? b)%num then Ok tt else Throw RuntimeError)
               (zseq 1 (Z.to_nat p)) tt ;;
    foldM (fun _ j => a <- last_knot kv ;; b <- get_knot kv j ;;
                      if (a =? b)%num then Ok tt else Throw RuntimeError)
          (rev (zseq (zlen kv - p - 1) (Z.to_nat p))) tt.

(* parameter_space.h:229-244 RecreateBasisFunctions *)
Definition create_bases (knots : list (list F)) (degs : list Z) : Res (list (list (bf F))) :=
  mapM (fun kp => create_all (fst kp) (snd kp)) (combine knots degs).

(* parameter_space.h:36-46 constructor *)
Definition ps_new (knots : list (list F)) (degs : list Z) : Res pspace :=
  _ <- foldM (fun _ kp => check_clamped (fst kp) (snd kp)) (combine knots degs) tt ;;
  b <- create_bases knots degs ;;
  Ok (mkPS knots degs b).

(* parameter_space.h:48-61 copy constructor: knots and degrees copied, basis functions rebuilt *)
Definition ps_copy (p : pspace) : Res pspace :=
  b <- create_bases (ps_knots p) (ps_degs p) ;; Ok (mkPS (ps_knots p) (ps_degs p) b).

(* parameter_space.h:65-73 EvaluateAllNonZeroBasisFunctions (98-102 GetFirstNonZeroKnot) *)
Definition eval_all_nonzero (p : pspace) (d : nat) (u : F) : Res (list F) :=
  kv <- dget (ps_knots p) d ;; q <- dget (ps_degs p) d ;; fs <- dget (ps_bfs p) d ;;
  k <- knot_span kv u ;;
  mapM (fun i => b <- vget fs (k - q + i) ;; Ok (bf_eval b u)) (zseq 0 (Z.to_nat (q + 1))).

(* parameter_space.h:75-85 EvaluateAllNonZeroBasisFunctionDerivatives *)
Definition eval_all_nonzero_derivs (p : pspace) (d : nat) (u : F) (k : Z) : Res (list F) :=
  kv <- dget (ps_knots p) d ;; q <- dget (ps_degs p) d ;; fs <- dget (ps_bfs p) d ;;
  sp <- knot_span kv u ;;
  mapM (fun i => b <- vget fs (sp - q + i) ;; Ok (bf_deriv b u k)) (zseq 0 (Z.to_nat (q + 1))).

(* parameter_space.h:90, physical_space.h:65: NumericSettings<double>::AreEqual on two ints *)
Definition int_are_equal (a b : Z) : bool := num_are_equal (F := F) kEpsilon (nofZ a) (nofZ b).

(* parameter_space.h:87-96 AreEqual: degrees compared as doubles with the default tolerance *)
Definition ps_are_equal (tolerance : F) (p1 p2 : pspace) : bool :=
  list_equal int_are_equal (ps_degs p1) (ps_degs p2)
  && list_equal (kv_are_equal tolerance) (ps_knots p1) (ps_knots p2).

(* parameter_space.h:112-118 GetBasisFunctions *)
Definition get_basis_functions (p : pspace) (idx : list Z) (us : list F) : Res F :=
  foldM (fun v x => b <- vget (fst x) (fst (snd x)) ;; Ok (v * bf_eval b (snd (snd x)))%num)
        (combine (ps_bfs p) (combine idx us)) n1.

(* parameter_space.h:120-128 GetBasisFunctionDerivatives *)
Definition get_basis_function_derivs (p : pspace) (idx : list Z) (us : list F) (ders : list Z) : Res F :=
  foldM (fun v x => b <- vget (fst x) (fst (snd x)) ;;
                    Ok (v * bf_deriv b (fst (snd (snd x))) (snd (snd (snd x))))%num)
        (combine (ps_bfs p) (combine idx (combine us ders))) n1.

(* parameter_space.h:130-136 GetArrayOfFirstNonZeroBasisFunctions *)
Definition first_non_zero (p : pspace) (us : list F) : Res (list Z) :=
  mapM (fun x => k <- knot_span (fst x) (snd (snd x)) ;; Ok (k - fst (snd x)))
       (combine (ps_knots p) (combine (ps_degs p) us)).

(* parameter_space.h:138-147 ThrowIfParametricCoordinateOutsideKnotVectorRange *)
Definition throw_if_outside (p : pspace) (us : list F) : Res unit :=
  foldM (fun _ x => b <- in_range (fst x) (snd x) ;; if (b : bool) then Ok tt else Throw RangeError)
        (combine (ps_knots p) us) tt.

(* parameter_space.h:149-151 GetKnotVectorRange *)
Definition knot_vector_range (p : pspace) (d : nat) : Res F :=
  kv <- dget (ps_knots p) d ;; l <- last_knot kv ;; f <- get_knot kv 0 ;; Ok (l - f)%num.

(* parameter_space.h:153-156 InsertKnot *)
Definition ps_insert (p : pspace) (u : F) (d : nat) : Res pspace :=
  kv <- dget (ps_knots p) d ;; kv' <- kv_insert kv u ;;
  let knots := upd (ps_knots p) d kv' in
  b <- create_bases knots (ps_degs p) ;; Ok (mkPS knots (ps_degs p) b).

(* parameter_space.h:158-161 RemoveKnot *)
Definition ps_remove (p : pspace) (u : F) (d : nat) : Res pspace :=
  kv <- dget (ps_knots p) d ;; kv' <- kv_remove kv u ;;
  let knots := upd (ps_knots p) d kv' in
  b <- create_bases knots (ps_degs p) ;; Ok (mkPS knots (ps_degs p) b).

(* parameter_space.h:163-166 ElevateDegree, 168-171 ReduceDegree (delta = 1, -1) *)
Definition ps_change_degree (p : pspace) (d : nat) (delta : Z) : Res pspace :=
  q <- dget (ps_degs p) d ;;
  let degs := upd (ps_degs p) d (q + delta) in
  b <- create_bases (ps_knots p) degs ;; Ok (mkPS (ps_knots p) degs b).

(* parameter_space.h:173-180 IncrementMultiplicityOfAllKnots.  The target vector of unique_copy
   has GetNumberOfDifferentKnots() entries; a longer copy writes out of bounds. *)
Definition ps_increment_all (p : pspace) (d : nat) : Res pspace :=
  kv <- dget (ps_knots p) d ;;
  let uk := unique_copy kv in
  if num_different kv <? zlen uk then UB
  else foldM (fun p' u => ps_insert p' u d) uk p.

(* parameter_space.h:182-189 DecrementMultiplicityOfAllKnots *)
Definition ps_decrement_all (p : pspace) (d : nat) : Res pspace :=
  kv <- dget (ps_knots p) d ;;
  let uk := unique_copy kv in
  if num_different kv <? zlen uk then UB
  else foldM (fun p' u => ps_remove p' u d) uk p.

(* parameter_space.h:191-207 GetDividedKnotVectors *)
Definition divided_knot_vectors (p : pspace) (u : F) (d : nat) : Res (list (list F) * list (list F)) :=
  kv <- dget (ps_knots p) d ;; q <- dget (ps_degs p) d ;;
  k <- knot_span kv u ;;
  k1 <- mapM (get_knot kv) (zseq 0 (Z.to_nat (k + 1))) ;;
  k2 <- mapM (get_knot kv) (zseq (k - q) (Z.to_nat (zlen kv - (k - q)))) ;;
  Ok (upd (ps_knots p) d k1, upd (ps_knots p) d k2).

(* ------------------------------------------------------------------ *)
(* physical_space.h:177-179 members, and weighted_physical_space.h:122 weights_:
   [ph_wts = None] is a PhysicalSpace, [Some w] a WeightedPhysicalSpace. *)
Record phys := mkPhys {
  ph_dim : Z;
  ph_npts : list Z;
  ph_cps : list F;
  ph_wts : option (list F)
}.

(* physical_space.h:32-50 constructor *)
Definition phys_new (cps : list (list F)) (npts : list Z) : Res phys :=
  c0 <- vget cps 0 ;;
  let dim := zlen c0 in
  if negb (u64 (total npts) =? zlen cps) then Throw RuntimeError
  else
    flat <- foldM (fun acc cp => if zlen cp =? dim then Ok (acc ++ cp) else Throw RuntimeError) cps [] ;;
    Ok (mkPhys dim npts flat None).

(* weighted_physical_space.h:27-35 constructor *)
Definition wphys_new (cps : list (list F)) (wts : list F) (npts : list Z) : Res phys :=
  p <- phys_new cps npts ;;
  if zlen cps =? zlen wts then Ok (mkPhys (ph_dim p) (ph_npts p) (ph_cps p) (Some wts))
  else Throw RuntimeError.

(* physical_space.h:56-67 AreEqual, weighted_physical_space.h:41-48 *)
Definition phys_are_equal (tolerance : F) (p1 p2 : phys) : bool :=
  list_equal (num_are_equal tolerance) (ph_cps p1) (ph_cps p2)
  && list_equal int_are_equal (ph_npts p1) (ph_npts p2).
Definition wphys_are_equal (tolerance : F) (p1 p2 : phys) : bool :=
  match ph_wts p1, ph_wts p2 with
  | Some w1, Some w2 => list_equal (num_are_equal tolerance) w1 w2 && phys_are_equal tolerance p1 p2
  | None, None => phys_are_equal tolerance p1 p2
  | _, _ => false (* not well-typed in C++ *)
  end.

(* physical_space.h:69-78 GetControlPoint *)
Definition get_control_point (p : phys) (idx : list Z) : Res (list F) :=
  let first := ph_dim p * get1d (ph_npts p) idx in
  mapM (fun c => vget (ph_cps p) (first + c)) (zseq 0 (Z.to_nat (ph_dim p))).

(* physical_space.h:137-139, weighted_physical_space.h:62-67 GetWeight *)
Definition get_weight (p : phys) (idx : list Z) : Res F :=
  match ph_wts p with
  | None => Ok n1
  | Some w => vget w (get1d (ph_npts p) idx)
  end.

(* weighted_physical_space.h:50-60 GetHomogenousControlPoint *)
Definition get_homogeneous (p : phys) (idx : list Z) : Res (list F) :=
  match ph_wts p with
  | None => UB (* not well-typed in C++ *)
  | Some w =>
      let first := ph_dim p * get1d (ph_npts p) idx in
      cs <- mapM (fun c => x <- vget (ph_cps p) (first + c) ;;
                           wi <- idiv first (ph_dim p) ;;
                           wt <- vget w wi ;; Ok (x * wt)%num)
                 (zseq 0 (Z.to_nat (ph_dim p))) ;;
      wt <- vget w (get1d (ph_npts p) idx) ;;
      Ok (cs ++ [wt])
  end.

(* physical_space.h:80-91 SetControlPoint; [lens] is number_of_points_ after applying [before] *)
Definition set_control_point (p : phys) (lens idx : list Z) (cp : list F) : Res phys :=
  let first := ph_dim p * get1d lens idx in
  cps <- foldM (fun l c => x <- vget cp c ;; vset l (first + c) x) (zseq 0 (Z.to_nat (ph_dim p))) (ph_cps p) ;;
  Ok (mkPhys (ph_dim p) (ph_npts p) cps (ph_wts p)).

(* weighted_physical_space.h:82-90 SetWeight *)
Definition set_weight (p : phys) (lens idx : list Z) (wt : F) : Res phys :=
  match ph_wts p with
  | None => UB (* not well-typed in C++ *)
  | Some w => w' <- vset w (get1d lens idx) wt ;; Ok (mkPhys (ph_dim p) (ph_npts p) (ph_cps p) (Some w'))
  end.

(* number_of_points_ with entry d changed (before(number_of_points_[d])) *)
Definition npts_at (p : phys) (d : nat) (f : Z -> Z) : Res (list Z) :=
  n <- dget (ph_npts p) d ;; Ok (upd (ph_npts p) d (f n)).

(* physical_space.h:93-99, weighted_physical_space.h:92-97 AddControlPoints *)
Definition add_control_points (p : phys) (n : Z) : phys :=
  mkPhys (ph_dim p) (ph_npts p)
         (ph_cps p ++ repeat n0 (Z.to_nat n * Z.to_nat (ph_dim p)))
         (option_map (fun w => w ++ repeat n0 (Z.to_nat n)) (ph_wts p)).

(* v.erase(v.end() - n, v.end()) *)
Definition erase_tail {A} (l : list A) (n : Z) : Res (list A) :=
  if (0 <=? n) && (n <=? zlen l) then Ok (firstn (Z.to_nat (zlen l - n)) l) else UB.

(* physical_space.h:101-103, weighted_physical_space.h:99-102 RemoveControlPoints *)
Definition remove_control_points (p : phys) (n : Z) : Res phys :=
  cps <- erase_tail (ph_cps p) (n * ph_dim p) ;;
  match ph_wts p with
  | None => Ok (mkPhys (ph_dim p) (ph_npts p) cps None)
  | Some w => w' <- erase_tail w n ;; Ok (mkPhys (ph_dim p) (ph_npts p) cps (Some w'))
  end.

(* physical_space.h:105-107 GetNumberOfControlPoints *)
Definition num_control_points (p : phys) : Res Z := idiv (zlen (ph_cps p)) (ph_dim p).

(* physical_space.h:121-131 IncrementNumberOfPoints, DecrementNumberOfPoints, SetNumberOfPoints *)
Definition set_npts (p : phys) (lens : list Z) : phys :=
  mkPhys (ph_dim p) lens (ph_cps p) (ph_wts p).

(* physical_space.h:141-147 GetExpansion *)
Definition expansion (p : phys) : F :=
  fold_left (fun e c => if (e <? c)%num then c else e) (ph_cps p) n0.

(* physical_space.h:149-161 GetMaximumDistanceFromOrigin *)
Definition max_distance (p : phys) : Res F :=
  n <- num_control_points p ;;
  for_up 0 n (fun i m =>
    pt <- mapM (fun j => vget (ph_cps p) (i * ph_dim p + j)) (zseq 0 (Z.to_nat (ph_dim p))) ;;
    dist <- distance (repeat n0 (Z.to_nat (ph_dim p))) pt ;;
    Ok (if (m <? dist)%num then dist else m)) n0.

(* weighted_physical_space.h:69-75 GetMinimumWeight *)
Definition min_weight (p : phys) : Res F :=
  match ph_wts p with
  | None => UB (* not well-typed in C++ *)
  | Some w => w0 <- vget w 0 ;; Ok (fold_left (fun m x => if (x <? m)%num then x else m) w w0)
  end.

(* physical_space.h:163-174 GetDividedControlPoints *)
Definition divided_control_points (p : phys) (first len : Z) (d : nat) : Res (list (list F)) :=
  lens <- npts_at p d (fun _ => len) ;;
  mih_loop lens (fun h acc =>
    i <- dget (mcur h) d ;;
    cp <- get_control_point p (upd (mcur h) d (i + first)) ;; Ok (acc ++ [cp])) [].

(* weighted_physical_space.h:108-119 GetDividedWeights *)
Definition divided_weights (p : phys) (first len : Z) (d : nat) : Res (list F) :=
  lens <- npts_at p d (fun _ => len) ;;
  mih_loop lens (fun h acc =>
    i <- dget (mcur h) d ;;
    w <- get_weight p (upd (mcur h) d (i + first)) ;; Ok (acc ++ [w])) [].

End Spaces.
Arguments pspace : clear implicits.
Arguments phys : clear implicits.
