(* Model of the arithmetic on C++ int in evaluation: src/util/multi_index_handler.h,
   src/spl/physical_space.h, weighted_physical_space.h, parameter_space.h, spline.h and nurbs.h once
   more, where the result of every + - * on int that is not an int (32 bits) is undefined behaviour
   (signed overflow).  The files MultiIndex.v, Spaces.v and SplineEval.v use integers of any size. *)
From Coq Require Import ZArith List Bool.
From Verif Require Import Base MultiIndex KnotVec Basis VecUtils Spaces SplineEval.
Import ListNotations.
Open Scope Z_scope.

(* the result of an operation on int *)
Definition cint (z : Z) : Res Z := if (- 2 ^ 31 <=? z) && (z <? 2 ^ 31) then Ok z else UB.

(* multi_index_handler.h:118-128 Get1DIndex(length, indices); [before] holds length[i-1], ..., length[0] *)
Fixpoint get1d_int_from (before lens idx : list Z) (acc : Z) : Res Z :=
  match lens, idx with
  | l :: ls, i :: is =>
      temp <- foldM (fun t n => cint (t * n)) before i ;; acc' <- cint (acc + temp) ;; get1d_int_from (l :: before) ls is acc'
  | _, _ => Ok acc
  end.
Definition get1d_int (lens idx : list Z) : Res Z := get1d_int_from [] lens idx 0.

(* multi_index_handler.h:130-136 Get1DLength *)
Definition length_int (lens : list Z) : Res Z := foldM (fun a l => cint (a * l)) lens 1.

(* multi_index_handler.h:138-153 ExtractDimension *)
Definition extract_int (h : mih) (d : nat) : Res Z := get1d_int (remove_at d (mlen h) ++ [0]) (remove_at d (mcur h) ++ [0]).

(* multi_index_handler.h:102-108 GetDifferenceIndices *)
Definition difference_int (h : mih) : Res (list Z) :=
  mapM (fun lc => a <- cint (fst lc - snd lc) ;; cint (a - 1)) (combine (mlen h) (mcur h)).

(* for (int i = 0; i < handler.Get1DLength(); ++i, ++handler) body; i and the indices stay below the length.
   The condition is evaluated before every pass: the length is the same each time. *)
Definition mih_loop_int {St} (lens : list Z) (body : mih -> St -> Res St) (st : St) : Res St :=
  n <- length_int lens ;; mih_for (Z.to_nat n) (mih_new lens) body st.

(* nurbs.h:231-235 binomialCoefficient(int, int), for 0 <= subset <= number *)
Fixpoint binom_int (number subset : nat) : Res Z :=
  match number, subset with
  | _, O => Ok 1
  | O, S _ => Ok 1 (* as in SplineEval.v: never called so *)
  | S n, S k => if Nat.eqb n k then Ok 1 else a <- binom_int n k ;; b <- binom_int n (S k) ;; cint (a + b)
  end.
(* nurbs.h:237-243 *)
Definition binoms_int (numbers subsets : list Z) : Res Z :=
  foldM (fun bc x => b <- binom_int (Z.to_nat (fst x)) (Z.to_nat (snd x)) ;; cint (bc * b)) (combine numbers subsets) 1.

Section IntEval.
Context {F : NumOps}.
Implicit Types (s : spline F) (p : phys F) (us : list F).

(* std::transform with std::plus: spline.h:59, 78, nurbs.h:193, 206 *)
Definition add_int (a b : list Z) : Res (list Z) := mapM (fun x => cint (fst x + snd x)) (combine a b).

(* spline.h:279-285 *)
Definition num_to_evaluate_int s : Res (list Z) := mapM (fun q => cint (q + 1)) (ps_degs (sp_ps s)).

(* parameter_space.h:130-136, with knot_vector.cc:100-105: the difference of iterators is cast to int *)
Definition first_non_zero_int (ps : pspace F) us : Res (list Z) :=
  mapM (fun x => k <- knot_span (fst x) (snd (snd x)) ;; cint (i32 k - fst (snd x))) (combine (ps_knots ps) (combine (ps_degs ps) us)).

(* physical_space.h:69-78 *)
Definition get_control_point_int p (idx : list Z) : Res (list F) :=
  i <- get1d_int (ph_npts p) idx ;; first <- cint (ph_dim p * i) ;;
  mapM (fun c => o <- cint (first + c) ;; vget (ph_cps p) o) (zseq 0 (Z.to_nat (ph_dim p))).

(* spline.h:147-149 *)
Definition cp_value_int s (idx : list Z) (dim : Z) : Res F := cp <- get_control_point_int (sp_ph s) idx ;; vget cp dim.

(* physical_space.h:137-139, weighted_physical_space.h:62-67 *)
Definition get_weight_int p (idx : list Z) : Res F :=
  match ph_wts p with
  | None => Ok n1
  | Some w => i <- get1d_int (ph_npts p) idx ;; vget w i
  end.

(* weighted_physical_space.h:50-60 *)
Definition get_homogeneous_int p (idx : list Z) : Res (list F) :=
  match ph_wts p with
  | None => UB (* not well-typed in C++ *)
  | Some w =>
      i <- get1d_int (ph_npts p) idx ;; first <- cint (ph_dim p * i) ;;
      cs <- mapM (fun c => o <- cint (first + c) ;; x <- vget (ph_cps p) o ;; wi <- idiv first (ph_dim p) ;;
                           wt <- vget w wi ;; Ok (x * wt)%num) (zseq 0 (Z.to_nat (ph_dim p))) ;;
      j <- get1d_int (ph_npts p) idx ;; wt <- vget w j ;; Ok (cs ++ [wt])
  end.

(* nurbs.h:212-214 *)
Definition evaluated_weight_int s us (idx : list Z) : Res F :=
  b <- get_basis_functions (sp_ps s) idx us ;; w <- get_weight_int (sp_ph s) idx ;; Ok (b * w)%num.
(* nurbs.h:216-221 *)
Definition evaluated_deriv_weight_int s us (ders idx : list Z) : Res F :=
  b <- get_basis_function_derivs (sp_ps s) idx us ders ;; w <- get_weight_int (sp_ph s) idx ;; Ok (b * w)%num.
(* nurbs.h:187-197 *)
Definition weight_sum_int s us : Res F :=
  fnz <- first_non_zero_int (sp_ps s) us ;; lens <- num_to_evaluate_int s ;;
  mih_loop_int lens (fun h sum =>
    idx <- add_int (mcur h) fnz ;; x <- evaluated_weight_int s us idx ;; Ok (sum + x)%num) n0.
(* nurbs.h:199-210 *)
Definition deriv_weight_sum_int s us (ders : list Z) : Res F :=
  fnz <- first_non_zero_int (sp_ps s) us ;; lens <- num_to_evaluate_int s ;;
  mih_loop_int lens (fun h sum =>
    idx <- add_int (mcur h) fnz ;; x <- evaluated_deriv_weight_int s us ders idx ;; Ok (sum + x)%num) n0.

(* b_spline.h:118-122 and nurbs.h:135-146 *)
Definition evaluated_control_point_int s us (idx : list Z) (dim : Z) : Res F :=
  b <- get_basis_functions (sp_ps s) idx us ;;
  match ph_wts (sp_ph s) with
  | None => v <- cp_value_int s idx dim ;; Ok (b * v)%num
  | Some _ =>
      hcp <- get_homogeneous_int (sp_ph s) idx ;; v <- vget hcp dim ;;
      if sp_pdim s =? dim then Ok (b * v)%num
      else ws <- weight_sum_int s us ;; Ok (b * v / ws)%num
  end.

(* spline.h:49-65 Evaluate *)
Definition evaluate_int s us (dims : list Z) : Res (list F) :=
  _ <- throw_if_outside (sp_ps s) us ;;
  fnz <- first_non_zero_int (sp_ps s) us ;; lens <- num_to_evaluate_int s ;;
  mih_loop_int lens (fun h pt =>
    idx <- add_int (mcur h) fnz ;;
    mapM (fun x => e <- evaluated_control_point_int s us idx (snd x) ;; Ok (fst x + e)%num) (combine pt dims))
    (repeat n0 (length dims)).

(* nurbs.h:156-185, 223-229; [fuel] as in SplineEval.v *)
Fixpoint rational_deriv_int (fuel : nat) s us (ders idx : list Z) : Res F :=
  match fuel with
  | O => UB
  | S f =>
      if forallb (fun k => k =? 0) ders then
        b <- get_basis_functions (sp_ps s) idx us ;; w <- get_weight_int (sp_ph s) idx ;;
        ws <- weight_sum_int s us ;; Ok (b * w / ws)%num
      else
        a <- evaluated_deriv_weight_int s us ders idx ;;
        lens <- mapM (fun k => cint (k + 1)) ders ;;
        n <- length_int lens ;;
        sum <- mih_for (Z.to_nat (n - 1)) (mih_incr (mih_new lens)) (fun h sum =>
                 c <- binoms_int ders (mcur h) ;;
                 di <- difference_int h ;;
                 r <- rational_deriv_int f s us di idx ;;
                 dw <- deriv_weight_sum_int s us (mcur h) ;;
                 Ok (sum + nofZ c * r * dw)%num) n0 ;;
        ws <- weight_sum_int s us ;; Ok ((a - sum) / ws)%num
  end.

(* b_spline.h:124-130 and nurbs.h:148-154 *)
Definition evaluated_deriv_control_point_int s us (ders idx : list Z) (dim : Z) : Res F :=
  match ph_wts (sp_ph s) with
  | None => b <- get_basis_function_derivs (sp_ps s) idx us ders ;; v <- cp_value_int s idx dim ;; Ok (b * v)%num
  | Some _ => r <- rational_deriv_int (S (Z.to_nat (fold_right Z.add 0 ders))) s us ders idx ;;
              v <- cp_value_int s idx dim ;; Ok (r * v)%num
  end.

(* spline.h:67-84 EvaluateDerivative *)
Definition evaluate_derivative_int s us (dims ders : list Z) : Res (list F) :=
  _ <- throw_if_outside (sp_ps s) us ;;
  fnz <- first_non_zero_int (sp_ps s) us ;; lens <- num_to_evaluate_int s ;;
  mih_loop_int lens (fun h pt =>
    idx <- add_int (mcur h) fnz ;;
    mapM (fun x => e <- evaluated_deriv_control_point_int s us ders idx (snd x) ;; Ok (fst x + e)%num) (combine pt dims))
    (repeat n0 (length dims)).
End IntEval.
