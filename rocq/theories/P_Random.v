(* Properties of the random splines: C59. *)
From Coq Require Import ZArith List Bool Reals.
From Verif Require Import Base KnotVecSpec Spaces SplineEval SplineSpec Random RandomSpec RandomThms.
Import ListNotations.
Open Scope Z_scope.

(* C59: whatever numbers are drawn, the random B-spline is well formed, clamped and within the limits *)
Theorem C59_random_bspline : forall (dz : R -> R) trunc pick dim (low high : R) max_degree dimension i, truncates trunc -> within_limits pick ->
  (low < high)%R -> (IZR (2 * max_degree) * tolerance <= high - low)%R -> 1 <= max_degree < 2 ^ 28 -> 1 <= dimension -> (3 * max_degree) ^ Z.of_nat dim < 2 ^ 64 ->
  exists s k, random_bspline (F := Rops dz) trunc pick dim low high max_degree dimension i = Ok (s, k) /\
  well_formed s /\ is_bspline s /\ Forall2 exact_ends (knots_of s) (degs_of s) /\
  Forall (fun kv => first_knot kv = low /\ final_knot kv = high) (knots_of s) /\ random_result s dim low high max_degree dimension.
Proof. exact random_bsplines. Qed.
Print Assumptions C59_random_bspline.

Theorem C59_random_nurbs : forall (dz : R -> R) trunc pick dim (low high : R) max_degree dimension i, truncates trunc -> within_limits pick ->
  (low < high)%R -> (IZR (2 * max_degree) * tolerance <= high - low)%R -> 1 <= max_degree < 2 ^ 28 -> 1 <= dimension -> (3 * max_degree) ^ Z.of_nat dim < 2 ^ 64 ->
  exists s k w, random_nurbs (F := Rops dz) trunc pick dim low high max_degree dimension i = Ok (s, k) /\
  well_formed s /\ ph_wts (sp_ph s) = Some w /\ Forall (fun x => 1 / 10 <= x <= 2)%R w /\ Forall2 exact_ends (knots_of s) (degs_of s) /\
  Forall (fun kv => first_knot kv = low /\ final_knot kv = high) (knots_of s) /\ random_result s dim low high max_degree dimension.
Proof. exact random_nurbss. Qed.
Print Assumptions C59_random_nurbs.

(* without a maximal degree of at least 1 the distribution is called with a negative number of trials *)
Theorem C59_no_degree : forall (dz : R -> R) trunc pick dim (low high : R) max_degree dimension i, truncates trunc ->
  (1 <= dim)%nat -> - 2 ^ 30 < max_degree <= 0 ->
  random_bspline (F := Rops dz) trunc pick dim low high max_degree dimension i = UB /\
  random_nurbs (F := Rops dz) trunc pick dim low high max_degree dimension i = UB.
Proof. exact random_without_degree. Qed.
Print Assumptions C59_no_degree.

Example C59_example : truncates drop_fraction /\ within_limits (fun _ t => t / 2) /\ (0 < 1)%R /\ (IZR (2 * 3) * tolerance <= 1 - 0)%R /\ 1 <= 3 < 2 ^ 28 /\
  1 <= 2 /\ (3 * 3) ^ Z.of_nat 2 < 2 ^ 64.
Proof. exact ex_random. Qed.
