(* Properties of the memory safety of degree changes: C84. *)
From Coq Require Import ZArith List Reals Floats.
From Verif Require Import Base MultiIndexSpec KnotVecSpec Spaces SplineEval SplineDegree SplineSpec EditSpec RemoveSpec UniqueSpec DegreeSpec ReduceSpec
  DegreeSafeSpec DegreeSafe DegreeSafeThms DegreeSafeExamples RemoveExamples ReduceExamples.
Import ListNotations.
Open Scope Z_scope.

(* C84: elevation stays inside the arrays, keeps every break and leaves at least one copy more of every
   interior knot, whatever the (wrong, C29) new control points are *)
Theorem C84_elevation_safe : forall dz (s : spline (Rops dz)) d kv p, well_formed s -> regular s -> direction s d kv p -> 1 <= p ->
  Forall2 full_support (knots_of s) (degs_of s) -> interior_at_most kv p -> bezier_size kv (p + 1) ->
  exists s' kv', elevate_degree s d = Ok s' /\ well_formed s' /\ degs_of s' = upd (degs_of s) d (p + 1) /\
    ph_dim (sp_ph s') = ph_dim (sp_ph s) /\ (is_bspline s' <-> is_bspline s) /\
    knots_of s' = upd (knots_of s) d kv' /\ same_breaks kv kv' /\
    forall x, In x kv -> (first_knot kv < x < final_knot kv)%R ->
      Z.of_nat (occurrences kv x) + 1 <= Z.of_nat (occurrences kv' x) <= p + 1.
Proof. exact elevate_safe. Qed.
Print Assumptions C84_elevation_safe.

Example C84_elevation_safe_example : well_formed (rs (Some rw)) /\ regular (rs (Some rw)) /\ direction (rs (Some rw)) 0 rk 2 /\
  Forall2 full_support (knots_of (rs (Some rw))) (degs_of (rs (Some rw))) /\ interior_at_most rk 2 /\ bezier_size rk (2 + 1).
Proof. exact (ex_elevate_safe (Some rw) (or_intror eq_refl)). Qed.

(* C84: the control net after the elevation of a spline in Bezier form: on every line and in every
   segment k the point k (p + 1) + p is the quotient 0 / 0, all the others are right *)
Theorem C84_elevation_net : forall dz (s : spline (Rops dz)) d kv p, well_formed s -> regular s -> direction s d kv p -> 1 <= p ->
  Forall2 full_support (knots_of s) (degs_of s) -> interior_exactly kv p -> bezier_size kv (p + 1) ->
  exists s' kv', elevate_degree s d = Ok s' /\ well_formed s' /\ degs_of s' = upd (degs_of s) d (p + 1) /\
    ph_dim (sp_ph s') = ph_dim (sp_ph s) /\ (is_bspline s' <-> is_bspline s) /\
    knots_of s' = upd (knots_of s) d kv' /\ one_copy_more kv kv' /\
    forall idx k j, in_box (npts_of s') idx -> nth d idx 0 = k * (p + 1) + j -> 0 <= k -> 0 <= j <= p + 1 -> (k + 1) * (p + 1) < nth d (npts_of s') 0 ->
      (j = p -> (~ is_bspline s -> weight s' idx = 0%R) /\ forall c, 0 <= c < ph_dim (sp_ph s) -> coordinate s' idx c = dz 0%R) /\
      (j <> p -> forall c, 0 <= c <= ph_dim (sp_ph s) -> hpart s' idx c = elevated (p + 1) (fun j' => hpart s (upd idx d (k * p + j')) c) j).
Proof. exact elevate_bezier. Qed.
Print Assumptions C84_elevation_net.

Example C84_elevation_net_example : forall pts, zlen pts = 5 -> well_formed (bs pts) /\ regular (bs pts) /\ direction (bs pts) 0 bk 2 /\
  Forall2 full_support (knots_of (bs pts)) (degs_of (bs pts)) /\ interior_exactly bk 2 /\ bezier_size bk (2 + 1).
Proof. exact ex_elevate_bezier. Qed.

(* C84: reduction stays inside the arrays if no interior knot is simple *)
Theorem C84_reduction_safe : forall dz (s : spline (Rops dz)) d kv p, well_formed s -> regular s -> direction s d kv p -> 2 <= p ->
  Forall2 full_support (knots_of s) (degs_of s) -> interior_between kv 2 p -> bezier_size kv p ->
  forall tol, exists ok s', reduce_degree s d tol = Ok (ok, s') /\ well_formed s' /\
    ph_dim (sp_ph s') = ph_dim (sp_ph s) /\ (is_bspline s' <-> is_bspline s) /\ (ok = false -> s' = s) /\
    (ok = true -> degs_of s' = upd (degs_of s) d (p - 1) /\
       exists kv', knots_of s' = upd (knots_of s) d kv' /\ same_breaks kv kv' /\
         forall x, In x kv -> (first_knot kv < x < final_knot kv)%R ->
           Z.of_nat (occurrences kv x) - 1 <= Z.of_nat (occurrences kv' x) <= p - 1).
Proof. exact reduce_safe. Qed.
Print Assumptions C84_reduction_safe.

Example C84_reduction_safe_example : forall pts, zlen pts = 5 -> well_formed (bs pts) /\ regular (bs pts) /\ direction (bs pts) 0 bk 2 /\
  Forall2 full_support (knots_of (bs pts)) (degs_of (bs pts)) /\ interior_between bk 2 2 /\ bezier_size bk 2.
Proof. exact ex_reduce_safe. Qed.

(* C84, refuted without that condition: if s describes the same map as q, which has degree p - 1, and has
   one simple knot x besides the copies it needs, behind all other interior knots, the reduction removes x
   entirely and then reads behind the end of the knot vector - for every positive tolerance *)
Theorem C84_reduction_reads_past : forall dz (q s : spline (Rops dz)) d kq kp p x, well_formed q -> regular q -> direction q d kq (p - 1) -> 2 <= p ->
  Forall2 full_support (knots_of q) (degs_of q) -> interior_at_most kq (p - 1) -> bezier_size kp p -> in_last_span kq x ->
  well_formed s -> regular s -> knots_of s = upd (knots_of q) d kp -> degs_of s = upd (degs_of q) d p -> one_copy_more_and x kq kp -> same_sums q s ->
  forall tol, (0 < tol)%R -> reduce_degree s d tol = UB.
Proof. exact reduce_reads_past. Qed.
Print Assumptions C84_reduction_reads_past.

Example C84_reduction_reads_past_example : well_formed ls /\ regular ls /\ direction ls 0 lk 1 /\ Forall2 full_support (knots_of ls) (degs_of ls) /\
  interior_at_most lk 1 /\ bezier_size rk 2 /\ in_last_span lk 1 /\
  exists s, well_formed s /\ regular s /\ knots_of s = upd (knots_of ls) 0 rk /\ degs_of s = upd (degs_of ls) 0 2 /\ one_copy_more_and 1 lk rk /\ same_sums ls s.
Proof. exact ex_reads_past. Qed.

Theorem C84_reduction_double_refuted : exists s : spline Fops,
  spline_new (F := Fops) [[0; 0; 0; 1; 2; 2; 2]%float] [2] [[0]; [0.5]; [1.5]; [2]]%float None = Ok s /\
  reduce_degree s 0 0x1p-20%float = UB.
Proof. exact reads_past_double. Qed.
Print Assumptions C84_reduction_double_refuted.
