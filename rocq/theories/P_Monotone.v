(* Properties of splines with growing control points: C92. *)
From Coq Require Import ZArith List Reals.
From Verif Require Import Base KnotVecSpec Spaces SplineEval SplineSpec MonotoneSpec Monotone RationalGrowth MonotoneExamples.
Import ListNotations.
Open Scope Z_scope.

(* C92: a coordinate that does not fall from control point to control point in one direction does not fall along that direction of the
   evaluated spline; the knots may have any multiplicity, so this also holds across jumps *)
Theorem C92_monotone : forall dz (s : spline (Rops dz)) us d v c,
  well_formed s -> is_bspline s -> in_domain s us -> in_domain s (upd us d v) -> (d < length us)%nat ->
  0 <= c < ph_dim (sp_ph s) -> (nth d us 0 <= v)%R -> never_falls s d c ->
  exists x y, evaluate s us [c] = Ok [x] /\ evaluate s (upd us d v) [c] = Ok [y] /\ (x <= y)%R.
Proof. exact evaluation_monotone. Qed.
Print Assumptions C92_monotone.

(* C92: if it grows, and the degree is not zero, the evaluated coordinate grows *)
Theorem C92_strict : forall dz (s : spline (Rops dz)) us d v c p,
  well_formed s -> is_bspline s -> in_domain s us -> in_domain s (upd us d v) -> nth_error (degs_of s) d = Some p -> 1 <= p ->
  0 <= c < ph_dim (sp_ph s) -> (nth d us 0 < v)%R -> always_grows s d c ->
  exists x y, evaluate s us [c] = Ok [x] /\ evaluate s (upd us d v) [c] = Ok [y] /\ (x < y)%R.
Proof. exact evaluation_strict. Qed.
Print Assumptions C92_strict.

(* C92: a curve with one growing coordinate passes no point twice *)
Theorem C92_injective : forall dz (s : spline (Rops dz)) u v c p,
  well_formed s -> is_bspline s -> degs_of s = [p] -> 1 <= p -> in_domain s [u] -> in_domain s [v] ->
  0 <= c < ph_dim (sp_ph s) -> always_grows s 0 c -> evaluate s [u] [c] = evaluate s [v] [c] -> u = v.
Proof. exact curve_injective. Qed.
Print Assumptions C92_injective.

(* C92 for curves with positive weights; without strictness see C78_monotone *)
Theorem C92_rational : forall dz (s : spline (Rops dz)) kv p c u v,
  well_formed s -> is_bspline s \/ positive_weights s -> knots_of s = [kv] -> degs_of s = [p] -> 1 <= p -> 0 <= c < ph_dim (sp_ph s) ->
  (forall i, 0 <= i -> i + 1 < zlen kv - p - 1 -> (coordinate s [i] c < coordinate s [(i + 1)%Z] c)%R) ->
  (first_knot kv <= u)%R -> (u < v)%R -> (v <= final_knot kv)%R ->
  exists x y, evaluate s [u] [c] = Ok [x] /\ evaluate s [v] [c] = Ok [y] /\ (x < y)%R.
Proof. exact rational_curve_strict. Qed.
Print Assumptions C92_rational.

Example C92_example : exists s : spline (Rops (fun x => x)),
  well_formed s /\ is_bspline s /\ in_domain s [(1/2)%R; (1/4)%R] /\ in_domain s (upd [(1/2)%R; (1/4)%R] 0 (3/2)%R) /\
  nth_error (degs_of s) 0 = Some 2 /\ 0 <= 0 < ph_dim (sp_ph s) /\ always_grows s 0 0 /\ always_grows s 1 1 /\ never_falls s 1 0.
Proof. exact ex_grows. Qed.
Example C92_curve_example : exists s : spline (Rops (fun x => x)), well_formed s /\ is_bspline s /\ degs_of s = [2] /\ in_domain s [1/2]%R /\ in_domain s [3/2]%R /\
  0 <= 0 < ph_dim (sp_ph s) /\ always_grows s 0 0.
Proof. exact ex_growing_curve. Qed.
Example C92_rational_example : exists s : spline (Rops (fun x => x)), well_formed s /\ positive_weights s /\ knots_of s = [[0; 0; 0; 1; 2; 2; 2]]%R /\ degs_of s = [2] /\
  0 <= 0 < ph_dim (sp_ph s) /\ forall i, 0 <= i -> i + 1 < 4 -> (coordinate s [i] 0 < coordinate s [(i + 1)%Z] 0)%R.
Proof. exact ex_growing_rational. Qed.
