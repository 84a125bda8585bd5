(* Model of construction and evaluation in src/spl/spline.h, b_spline.h and nurbs.h. *)
From Coq Require Import ZArith List Bool.
From Verif Require Import Base MultiIndex KnotVec Basis VecUtils Spaces.
Import ListNotations.
Open Scope Z_scope.

Section SplineEval.
Context {F : NumOps}.

(* spline.h:428 parameter_space_ and b_spline.h:245 / nurbs.h:444 physical_space_;
   a BSpline has [ph_wts = None], a NURBS [Some weights] *)
Record spline := mkSpline { sp_ps : pspace F; sp_ph : phys F }.

(* b_spline.h:35-42 constructor, nurbs.h:33-42 when weights are given *)
Definition spline_new (knots : list (list F)) (degs : list Z) (cps : list (list F))
    (wts : option (list F)) : Res spline :=
  p <- ps_new knots degs ;;
  let npts := map (fun kp => zlen (fst kp) - snd kp - 1) (combine knots degs) in
  ph <- match wts with None => phys_new cps npts | Some w => wphys_new cps w npts end ;;
  Ok (mkSpline p ph).

(* b_spline.h:48-51, nurbs.h:48-51 copy constructor (values; aliasing is in Heap.v) *)
Definition spline_copy (s : spline) : Res spline :=
  p <- ps_copy (sp_ps s) ;; Ok (mkSpline p (sp_ph s)).

(* b_spline.h:55-58, nurbs.h:61-64 AreEqual *)
Definition spline_are_equal (tolerance : F) (s1 s2 : spline) : bool :=
  ps_are_equal tolerance (sp_ps s1) (sp_ps s2) && wphys_are_equal tolerance (sp_ph s1) (sp_ph s2).

(* spline.h:123-125, 127-129, 143-145 *)
Definition sp_deg (s : spline) (d : nat) : Res Z := dget (ps_degs (sp_ps s)) d.
Definition sp_knots (s : spline) (d : nat) : Res (list F) := dget (ps_knots (sp_ps s)) d.
Definition sp_pdim (s : spline) : Z := ph_dim (sp_ph s).

(* spline.h:147-149 GetControlPoint(indices, dimension) *)
Definition cp_value (s : spline) (idx : list Z) (dim : Z) : Res F :=
  cp <- get_control_point (sp_ph s) idx ;; vget cp dim.

(* spline.h:279-285 GetNumberOfBasisFunctionsToEvaluate *)
Definition num_to_evaluate (s : spline) : list Z := map (fun q => q + 1) (ps_degs (sp_ps s)).

(* nurbs.h:212-214 GetEvaluatedWeight *)
Definition evaluated_weight (s : spline) (us : list F) (idx : list Z) : Res F :=
  b <- get_basis_functions (sp_ps s) idx us ;; w <- get_weight (sp_ph s) idx ;; Ok (b * w)%num.

(* nurbs.h:216-221 GetEvaluatedDerivativeWeight *)
Definition evaluated_deriv_weight (s : spline) (us : list F) (ders idx : list Z) : Res F :=
  b <- get_basis_function_derivs (sp_ps s) idx us ders ;;
  w <- get_weight (sp_ph s) idx ;; Ok (b * w)%num.

(* nurbs.h:187-197 GetEvaluatedWeightSum *)
Definition weight_sum (s : spline) (us : list F) : Res F :=
  fnz <- first_non_zero (sp_ps s) us ;;
  mih_loop (num_to_evaluate s) (fun h sum =>
    x <- evaluated_weight s us (map2 Z.add (mcur h) fnz) ;; Ok (sum + x)%num) n0.

(* nurbs.h:199-210 GetEvaluatedDerivativeWeightSum *)
Definition deriv_weight_sum (s : spline) (us : list F) (ders : list Z) : Res F :=
  fnz <- first_non_zero (sp_ps s) us ;;
  mih_loop (num_to_evaluate s) (fun h sum =>
    x <- evaluated_deriv_weight s us ders (map2 Z.add (mcur h) fnz) ;; Ok (sum + x)%num) n0.

(* b_spline.h:118-122 and nurbs.h:135-146 GetEvaluatedControlPoint *)
Definition evaluated_control_point (s : spline) (us : list F) (idx : list Z) (dim : Z) : Res F :=
  b <- get_basis_functions (sp_ps s) idx us ;;
  match ph_wts (sp_ph s) with
  | None => v <- cp_value s idx dim ;; Ok (b * v)%num
  | Some _ =>
      hcp <- get_homogeneous (sp_ph s) idx ;; v <- vget hcp dim ;;
      if sp_pdim s =? dim then Ok (b * v)%num
      else ws <- weight_sum s us ;; Ok (b * v / ws)%num
  end.

(* spline.h:49-65 Evaluate *)
Definition evaluate (s : spline) (us : list F) (dims : list Z) : Res (list F) :=
  _ <- throw_if_outside (sp_ps s) us ;;
  fnz <- first_non_zero (sp_ps s) us ;;
  mih_loop (num_to_evaluate s) (fun h pt =>
    let idx := map2 Z.add (mcur h) fnz in
    mapM (fun x => e <- evaluated_control_point s us idx (snd x) ;; Ok (fst x + e)%num) (combine pt dims))
    (repeat n0 (length dims)).

(* nurbs.h:231-235 binomialCoefficient(int, int), for 0 <= subset <= number *)
Fixpoint binom (number subset : nat) : Z :=
  match number, subset with
  | _, O => 1
  | O, S _ => 1 (* subset > number: the C++ recursion does not terminate; never called so *)
  | S n, S k => if Nat.eqb n k then 1 else binom n k + binom n (S k)
  end.
(* nurbs.h:237-243 *)
Definition binoms (numbers subsets : list Z) : Z :=
  fold_left (fun bc x => bc * binom (Z.to_nat (fst x)) (Z.to_nat (snd x))) (combine numbers subsets) 1.

(* nurbs.h:156-185 GetRationalBasisFunctionDerivative and GetDerivativesSum (with
   223-229 GetDerivativeHandler).  The recursion is on derivative orders whose sum decreases;
   [fuel] must exceed this sum (orders must not be negative). *)
Fixpoint rational_deriv (fuel : nat) (s : spline) (us : list F) (ders idx : list Z) : Res F :=
  match fuel with
  | O => UB
  | S f =>
      if forallb (fun k => k =? 0) ders then
        b <- get_basis_functions (sp_ps s) idx us ;; w <- get_weight (sp_ph s) idx ;;
        ws <- weight_sum s us ;; Ok (b * w / ws)%num
      else
        a <- evaluated_deriv_weight s us ders idx ;;
        let lens := map (fun k => k + 1) ders in
        sum <- mih_for (Z.to_nat (total lens - 1)) (mih_incr (mih_new lens)) (fun h sum =>
                 r <- rational_deriv f s us (difference_indices h) idx ;;
                 dw <- deriv_weight_sum s us (mcur h) ;;
                 Ok (sum + nofZ (binoms ders (mcur h)) * r * dw)%num) n0 ;;
        ws <- weight_sum s us ;; Ok ((a - sum) / ws)%num
  end.

(* b_spline.h:124-130 and nurbs.h:148-154 GetEvaluatedDerivativeControlPoint *)
Definition evaluated_deriv_control_point (s : spline) (us : list F) (ders idx : list Z) (dim : Z) : Res F :=
  match ph_wts (sp_ph s) with
  | None => b <- get_basis_function_derivs (sp_ps s) idx us ders ;;
            v <- cp_value s idx dim ;; Ok (b * v)%num
  | Some _ => r <- rational_deriv (S (Z.to_nat (fold_right Z.add 0 ders))) s us ders idx ;;
              v <- cp_value s idx dim ;; Ok (r * v)%num
  end.

(* spline.h:67-84 EvaluateDerivative *)
Definition evaluate_derivative (s : spline) (us : list F) (dims ders : list Z) : Res (list F) :=
  _ <- throw_if_outside (sp_ps s) us ;;
  fnz <- first_non_zero (sp_ps s) us ;;
  mih_loop (num_to_evaluate s) (fun h pt =>
    let idx := map2 Z.add (mcur h) fnz in
    mapM (fun x => e <- evaluated_deriv_control_point s us ders idx (snd x) ;; Ok (fst x + e)%num)
         (combine pt dims))
    (repeat n0 (length dims)).

End SplineEval.
Arguments spline : clear implicits.
