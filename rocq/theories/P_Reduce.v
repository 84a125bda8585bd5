(* Properties of the degree reduction of splines: C83. *)
From Coq Require Import ZArith List Reals.
From Verif Require Import Base KnotVecSpec Spaces SplineEval SplineDegree SplineSpec EditSpec UniqueSpec DegreeSpec ReduceSpec ReduceThms.
Import ListNotations.
Open Scope Z_scope.

(* C83: success depends on the tolerance through one threshold; a refused reduction returns the spline
   as it was, although it had been taken apart into Bezier segments *)
Theorem C83_threshold : forall dz (s : spline (Rops dz)) d kv p, well_formed s -> regular s -> direction s d kv p -> 2 <= p ->
  Forall2 full_support (knots_of s) (degs_of s) -> interior_at_most kv p -> bezier_size kv p ->
  exists e, (0 <= e)%R /\ (forall tol, (tol <= e)%R -> reduce_degree s d tol = Ok (false, s)) /\
    forall tol r, (e < tol)%R -> reduce_degree s d tol = Ok r -> fst r = true.
Proof. exact reduce_threshold. Qed.
Print Assumptions C83_threshold.

(* C83: if s describes the same map as a spline q of degree p - 1, reduction returns q *)
Theorem C83_exact : forall dz (q s : spline (Rops dz)) d kq kp p, well_formed q -> regular q -> direction q d kq (p - 1) -> 2 <= p ->
  Forall2 full_support (knots_of q) (degs_of q) -> interior_at_most kq (p - 1) -> bezier_size kq p ->
  well_formed s -> regular s -> knots_of s = upd (knots_of q) d kp -> degs_of s = upd (degs_of q) d p -> one_copy_more kq kp -> same_sums q s ->
  forall tol, (0 < tol)%R -> reduce_degree s d tol = Ok (true, q).
Proof. exact reduce_exact. Qed.
Print Assumptions C83_exact.

(* C83: a spline in Bezier form moves by no more than the threshold *)
Theorem C83_bezier : forall dz (s : spline (Rops dz)) d kv p, well_formed s -> regular s -> direction s d kv p -> 2 <= p ->
  Forall2 full_support (knots_of s) (degs_of s) -> interior_exactly kv p -> bezier_size kv p ->
  exists e s', (0 <= e)%R /\ (forall tol, (tol <= e)%R -> reduce_degree s d tol = Ok (false, s)) /\
    (forall tol, (e < tol)%R -> reduce_degree s d tol = Ok (true, s')) /\
    well_formed s' /\ degs_of s' = upd (degs_of s) d (p - 1) /\
    (exists kv', knots_of s' = upd (knots_of s) d kv' /\ one_copy_more kv' kv) /\
    ph_dim (sp_ph s') = ph_dim (sp_ph s) /\ (is_bspline s' <-> is_bspline s) /\ (regular s' -> close_sums s s' e).
Proof. exact reduce_bezier. Qed.
Print Assumptions C83_bezier.
