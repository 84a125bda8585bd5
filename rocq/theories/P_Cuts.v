(* Properties of repeated subdivision: C87. *)
From Coq Require Import ZArith List Reals.
From Verif Require Import Base MultiIndex KnotVecSpec Spaces SplineEval SplineEdit SplineSpec EditSpec OrderSpec CutsClose CutsExamples.
Import ListNotations.
Open Scope Z_scope.

(* C87: cutting at u and the upper piece at v gives the same three splines as cutting at v and the lower piece at u *)
Theorem C87_cuts_in_one_direction : forall dz (s : spline (Rops dz)) d kv p u v,
  well_formed s -> regular s -> Forall2 at_most_full (knots_of s) (degs_of s) ->
  direction s d kv p -> (first_knot kv < u < v)%R -> (v < final_knot kv)%R -> separated (u :: v :: kv) ->
  zlen kv + p + 1 < 2 ^ 31 -> total (upd (npts_of s) d (nth d (npts_of s) 0 + 2 * (p + 1))) < 2 ^ 64 ->
  exists low middle high above below s1 s2 s3 s4,
    subdivide s u d = Ok (low, above, s1) /\ subdivide above v d = Ok (middle, high, s2) /\
    subdivide s v d = Ok (below, high, s3) /\ subdivide below u d = Ok (low, middle, s4).
Proof. exact cuts_same_direction. Qed.
Print Assumptions C87_cuts_in_one_direction.

(* cuts in two directions: the four quarters do not depend on which cut comes first *)
Theorem C87_cuts_in_two_directions : forall dz (s : spline (Rops dz)) d d' kv kv' p p' u v,
  well_formed s -> regular s -> Forall2 at_most_full (knots_of s) (degs_of s) ->
  d <> d' -> direction s d kv p -> direction s d' kv' p' -> insertable kv p u 0 -> insertable kv' p' v 0 ->
  zlen kv < 2 ^ 31 -> zlen kv' < 2 ^ 31 ->
  total (upd (upd (npts_of s) d (nth d (npts_of s) 0 + p + 1)) d' (nth d' (npts_of s) 0 + p' + 1)) < 2 ^ 64 ->
  exists low high below above q1 q2 q3 q4 s1 s2 s3 s4 s5 s6,
    subdivide s u d = Ok (low, high, s1) /\ subdivide low v d' = Ok (q1, q2, s2) /\ subdivide high v d' = Ok (q3, q4, s3) /\
    subdivide s v d' = Ok (below, above, s4) /\ subdivide below u d = Ok (q1, q3, s5) /\ subdivide above u d = Ok (q2, q4, s6).
Proof. exact cuts_two_directions. Qed.
Print Assumptions C87_cuts_in_two_directions.

Example C87_example : exists s : spline (Rops (fun x => x)),
  well_formed s /\ positive_weights s /\ Forall2 at_most_full (knots_of s) (degs_of s) /\
  direction s 0 [0; 0; 0; 1; 2; 2; 2]%R 2 /\ direction s 1 [0; 0; 1; 1]%R 1 /\
  (first_knot [0; 0; 0; 1; 2; 2; 2] < 1/2 < 1)%R /\ (1 < final_knot [0; 0; 0; 1; 2; 2; 2])%R /\ separated [1/2; 1; 0; 0; 0; 1; 2; 2; 2]%R /\
  insertable [0; 0; 0; 1; 2; 2; 2]%R 2 1 0 /\ insertable [0; 0; 1; 1]%R 1 (1/2) 0 /\
  total (upd (npts_of s) 0 (nth 0 (npts_of s) 0 + 2 * (2 + 1))) < 2 ^ 64 /\
  total (upd (upd (npts_of s) 0 (nth 0 (npts_of s) 0 + 2 + 1)) 1 (nth 1 (npts_of s) 0 + 1 + 1)) < 2 ^ 64.
Proof. exact ex_cuts. Qed.
