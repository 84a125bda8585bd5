(* Properties of degree elevation, degree reduction and the geometric comparison: C29 to C31. *)
From Coq Require Import ZArith List Reals Floats.
From Verif Require Import Base MultiIndexSpec KnotVecSpec Spaces SplineEval SplineDegree SplineSpec DegreeSpec DegreeThms.
Import ListNotations.
Open Scope Z_scope.

(* C29, refuted: elevating a straight line leaves NaN in the control net *)
Theorem C29_elevation_refuted : exists (s s' : spline Fops) (v v' : float),
  spline_new (F := Fops) [[0; 0; 1; 1]%float] [1] [[0]; [1]]%float None = Ok s /\
  elevate_degree s 0 = Ok s' /\
  evaluate s [0.5%float] [0] = Ok [v] /\ PrimFloat.eqb v 0.5 = true /\
  evaluate s' [0.5%float] [0] = Ok [v'] /\ PrimFloat.eqb v' v' = false /\
  geometrically_equal s' s kEpsilon 100 = Ok true.
Proof. exact elevate_nan. Qed.
Print Assumptions C29_elevation_refuted.

(* C29, the extent of the defect: for every degree p >= 1 and every segment, the homogeneous curve loses
   exactly the term of the new point p, which stays zero (also its weight) *)
Theorem C29_elevation_defect : forall dz p pdim lines cps, 1 <= p -> 0 <= pdim -> 0 <= lines ->
  segment_shape p lines (pdim + 1) cps ->
  exists new, elevate_segment (F := Rops dz) p pdim lines cps (elevation_coefficients (F := Rops dz) p) = Ok new /\
    segment_shape (p + 1) lines (pdim + 1) new /\
    (forall i c, 0 <= i < lines -> 0 <= c <= pdim -> value new (p + 1) i p c = 0%R) /\
    (forall i c u, 0 <= i < lines -> 0 <= c <= pdim ->
       bezier (p + 1) (fun j => value new (p + 1) i j c) u =
       (bezier p (fun j => value cps p i j c) u -
        bernstein (p + 1) p u * elevated (p + 1) (fun j => value cps p i j c) p)%R).
Proof. exact elevation_defect. Qed.
Print Assumptions C29_elevation_defect.

(* C29: degree 0 is elevated correctly *)
Theorem C29_elevation_degree_zero : forall dz pdim lines cps, 0 <= pdim -> 0 <= lines ->
  segment_shape 0 lines (pdim + 1) cps ->
  exists new, elevate_segment (F := Rops dz) 0 pdim lines cps (elevation_coefficients (F := Rops dz) 0) = Ok new /\
    segment_shape 1 lines (pdim + 1) new /\ elevation_of 1 lines (pdim + 1) cps new.
Proof. exact elevation_degree_zero. Qed.
Print Assumptions C29_elevation_degree_zero.

Example C29_example : segment_shape 2 2 (1 + 1) ex_quadratic.
Proof. exact ex_shape. Qed.

(* C30: the reduced segment deviates from the given one by at most the error that is compared with the
   tolerance; the error is 0 exactly for degree elevations, and these are inverted *)
Theorem C30_reduction : forall dz p pdim lines cps, 2 <= p -> 0 <= pdim -> 0 <= lines ->
  segment_shape p lines (pdim + 1) cps ->
  exists new err,
    (forall tol, reduce_segment (F := Rops dz) p pdim lines cps tol = Ok (new, if Rlt_dec err tol then true else false)) /\
    segment_shape (p - 1) lines (pdim + 1) new /\ (0 <= err)%R /\
    (forall i c u, 0 <= i < lines -> 0 <= c <= pdim -> (0 <= u <= 1)%R ->
       (Rabs (bezier p (fun j => value cps p i j c) u - bezier (p - 1) (fun j => value new (p - 1) i j c) u) <= err)%R) /\
    (err = 0%R <-> exists P, segment_shape (p - 1) lines (pdim + 1) P /\ elevation_of p lines (pdim + 1) P cps) /\
    (forall P, segment_shape (p - 1) lines (pdim + 1) P -> elevation_of p lines (pdim + 1) P cps -> new = P).
Proof. exact reduction_exact. Qed.
Print Assumptions C30_reduction.

(* C30: what is called elevation keeps the curve *)
Theorem C30_elevation_keeps_curve : forall p f u, 1 <= p -> bezier p (elevated p f) u = bezier (p - 1) f u.
Proof. exact DegreeFacts.bezier_elevated. Qed.
Print Assumptions C30_elevation_keeps_curve.

(* C30: degree 1 reads index -1 *)
Theorem C30_degree_one_refuted : forall dz pdim lines cps tol, 0 <= pdim -> 1 <= lines ->
  segment_shape 1 lines (pdim + 1) cps -> reduce_segment (F := Rops dz) 1 pdim lines cps tol = UB.
Proof. exact reduction_degree_one. Qed.
Print Assumptions C30_degree_one_refuted.

Example C30_example : segment_shape 3 2 (1 + 1) ex_cubic /\ segment_shape (3 - 1) 2 (1 + 1) ex_quadratic /\
  elevation_of 3 2 (1 + 1) ex_quadratic ex_cubic.
Proof. exact ex_elevation. Qed.

(* C31: over domains that start at 0 the comparison is total, and true exactly when all samples are close *)
Theorem C31_geometric_equality : forall dz (a b : spline (Rops dz)) (tol : R) number,
  well_formed a -> well_formed b -> 1 <= number -> ph_dim (sp_ph a) <= ph_dim (sp_ph b) ->
  Forall2 (fun kv kv' => first_knot kv = 0%R /\ first_knot kv' = 0%R /\ final_knot kv' = final_knot kv) (knots_of a) (knots_of b) ->
  exists r, geometrically_equal a b tol number = Ok r /\
    (r = true <-> forall idx, in_box (map (fun _ => number + 1) (degs_of a)) idx ->
       exists va vb, evaluate a (sample (knots_of a) number idx) (zseq 0 (Z.to_nat (ph_dim (sp_ph a)))) = Ok va /\
         evaluate b (sample (knots_of a) number idx) (zseq 0 (Z.to_nat (ph_dim (sp_ph a)))) = Ok vb /\ (euclid va vb <= tol)%R).
Proof. exact geometric_equality_sound. Qed.
Print Assumptions C31_geometric_equality.

(* C31, refuted elsewhere: no spline with a domain that starts elsewhere can be compared with itself *)
Theorem C31_shifted_domain_refuted : forall dz (s : spline (Rops dz)) (tol : R) number d kv,
  well_formed s -> 1 <= number -> (0 <= tol)%R ->
  nth_error (knots_of s) d = Some kv -> first_knot kv <> 0%R ->
  geometrically_equal s s tol number = Throw RangeError.
Proof. exact geometric_equality_shifted. Qed.
Print Assumptions C31_shifted_domain_refuted.

(* C31, refuted for NaN: a line whose control points are NaN is accepted as equal to a line without NaN *)
Theorem C31_nan_refuted : exists s t : spline Fops,
  spline_new (F := Fops) [[0; 0; 1; 1]%float] [1] [[nan]; [nan]]%float None = Ok s /\
  spline_new (F := Fops) [[0; 0; 1; 1]%float] [1] [[0]; [1]]%float None = Ok t /\
  geometrically_equal s t kEpsilon 100 = Ok true /\ geometrically_equal t s kEpsilon 100 = Ok true.
Proof. exact compare_nan. Qed.
Print Assumptions C31_nan_refuted.

Example C31_example : exists a b s : spline (Rops (fun x => x)),
  well_formed a /\ well_formed b /\ ph_dim (sp_ph a) <= ph_dim (sp_ph b) /\
  Forall2 (fun kv kv' => first_knot kv = 0%R /\ first_knot kv' = 0%R /\ final_knot kv' = final_knot kv) (knots_of a) (knots_of b) /\
  well_formed s /\ nth_error (knots_of s) 0 = Some [1; 1; 2; 2]%R /\ first_knot [1; 1; 2; 2]%R <> 0%R.
Proof. exact ex_compare. Qed.
