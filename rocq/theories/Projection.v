(* Model of src/spl/projection.h. *)
From Coq Require Import ZArith List Bool.
From Verif Require Import Base VecUtils KnotVec Basis Spaces SplineEval Iga.
Import ListNotations.
Open Scope Z_scope.

Section Projection.
Context {F : NumOps}.

(* the literal 0.5 *)
Definition half : F := (n1 / nofZ 2)%num.

(* projection.h:74-80 GetDimensions *)
Definition all_dimensions (pt : list F) : list Z := zseq 0 (length pt).

(* projection.h:82-103 FindInitialValue1D; the element list is that of direction 0.  Evaluating at
   the middle of the first element leaves out its lower bound (88-89, 91). *)
Definition initial_curve (pt : list F) (s : spline F) (dims : list Z) : Res (list F) :=
  kv <- sp_knots s 0 ;; p <- sp_deg s 0 ;; es <- elements kv p ;;
  e0 <- vget es 0 ;;
  let u0 := (half * (snd e0 - fst e0))%num in
  x0 <- evaluate s [u0] dims ;; d0 <- distance pt x0 ;;
  r <- for_up 1 (zlen es) (fun i (acc : F * F) =>
         e <- vget es i ;;
         let u := (half * (snd e - fst e) + fst e)%num in
         x <- evaluate s [u] dims ;; d <- distance pt x ;;
         Ok (if (d <? snd acc)%num then (u, d) else acc)) (u0, d0) ;;
  Ok [fst r].

(* projection.h:105-131 FindInitialValue2D *)
Definition initial_surface (sc : Z * Z) (pt : list F) (s : spline F) (dims : list Z) : Res (list F) :=
  kv1 <- sp_knots s 0 ;; kv2 <- sp_knots s 1 ;;
  first1 <- get_knot kv1 0 ;; last1 <- last_knot kv1 ;;
  first2 <- get_knot kv2 0 ;; last2 <- last_knot kv2 ;;
  x0 <- evaluate s [first1; first2] dims ;; d0 <- distance pt x0 ;;
  r <- for_up 1 (fst sc + 1) (fun i acc => for_up 1 (snd sc + 1) (fun j (acc : list F * F) =>
         let us := [nofZ i * (last1 - first1) / nofZ (fst sc); nofZ j * (last2 - first2) / nofZ (snd sc)]%num in
         x <- evaluate s us dims ;; d <- distance pt x ;;
         Ok (if (d <? snd acc)%num then (us, d) else acc)) acc) ([first1; first2], d0) ;;
  Ok (fst r).

(* projection.h:133-139 UpdateProjectedPoint *)
Definition update_point (us delta : list F) : list F := map2 nadd us delta.

(* projection.h:141-151 CheckParametricCoordinates: all coordinates against knot vector 0 *)
Definition check_coordinates (s : spline F) (us : list F) : Res (list F) :=
  mapM (fun u => kv <- sp_knots s 0 ;; lo <- get_knot kv 0 ;;
                 if (u <? lo)%num then Ok lo
                 else hi <- last_knot kv ;; Ok (if (hi <? u)%num then hi else u)) us.

(* projection.h:153-161 UpdateConverged *)
Definition is_converged (delta : list F) (tolerance : F) : bool :=
  forallb (fun d => negb (tolerance <=? nabs d)%num) delta.

(* projection.h:163-175 GetQ; -distance is -1 * distance *)
Definition tangent_point (pt cur d1 d2 : list F) : Res (list F) :=
  n <- cross_product d1 d2 ;;
  let nn := scale_vector n (n1 / two_norm n)%num in
  x <- scalar_product cur nn ;; y <- scalar_product pt nn ;;
  difference pt (scale_vector nn (nofZ (-1) * (x - y))%num).

(* projection.h:177-186 GetDelta1D *)
Definition delta_curve (cur deriv pt : list F) : Res (list F) :=
  v <- difference pt cur ;; a <- scalar_product deriv v ;; b <- scalar_product deriv deriv ;; Ok [a / b]%num.

(* projection.h:188-202 GetDelta2D *)
Definition delta_surface (cur d1 d2 pt : list F) : Res (list F) :=
  q <- tangent_point pt cur d1 d2 ;; diff <- difference q cur ;;
  a <- scalar_product d1 d1 ;; b <- scalar_product d2 d1 ;; c <- scalar_product diff d1 ;;
  d <- scalar_product d2 d2 ;; e <- scalar_product diff d2 ;;
  let delta2 := ((a * e - b * c) / (a * d - b * b))%num in
  let delta1 := ((c - b * delta2) / a)%num in
  Ok [delta1; delta2].

(* one execution of the loop body (projection.h:60-65, 38-44) *)
Definition step_curve (pt : list F) (s : spline F) (tolerance : F) (us : list F) : Res (list F * bool) :=
  let dims := all_dimensions pt in
  deriv <- evaluate_derivative s us dims [1] ;; cur <- evaluate s us dims ;;
  delta <- delta_curve cur deriv pt ;;
  us' <- check_coordinates s (update_point us delta) ;;
  Ok (us', is_converged delta tolerance).
Definition step_surface (pt : list F) (s : spline F) (tolerance : F) (us : list F) : Res (list F * bool) :=
  let dims := all_dimensions pt in
  d1 <- evaluate_derivative s us dims [1; 0] ;; d2 <- evaluate_derivative s us dims [0; 1] ;;
  cur <- evaluate s us dims ;;
  delta <- delta_surface cur d1 d2 pt ;;
  us' <- check_coordinates s (update_point us delta) ;;
  Ok (us', is_converged delta tolerance).

(* while (!converged) { body; if (++iteration > 1000) break; } (projection.h:37-48, 59-69), run for at
   most [fuel] executions of the body; None: the loop is still running then. *)
Fixpoint newton (step : list F -> Res (list F * bool)) (fuel : nat) (iteration : Z) (us : list F) : Res (option (list F)) :=
  match fuel with
  | O => Ok None
  | S f =>
      r <- step us ;;
      if 1000 <? iteration + 1 then Ok (Some (fst r))
      else if snd r then Ok (Some (fst r)) else newton step f (iteration + 1) (fst r)
  end.

(* projection.h:52-71 ProjectionOnCurve *)
Definition project_curve (fuel : nat) (pt : list F) (s : spline F) (tolerance : F) : Res (option (list F)) :=
  us <- initial_curve pt s (all_dimensions pt) ;; newton (step_curve pt s tolerance) fuel 0 us.

(* projection.h:29-50 ProjectionOnSurface *)
Definition project_surface (fuel : nat) (pt : list F) (s : spline F) (sc : Z * Z) (tolerance : F) : Res (option (list F)) :=
  us <- initial_surface sc pt s (all_dimensions pt) ;; newton (step_surface pt s tolerance) fuel 0 us.
End Projection.
