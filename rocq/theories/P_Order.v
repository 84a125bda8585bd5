(* Properties of sequences of knot insertions: C86. *)
From Coq Require Import ZArith List Reals Permutation.
From Verif Require Import Base KnotVecSpec Spaces SplineEval SplineEdit SplineSpec EditSpec OrderSpec OrderThms OrderExamples.
Import ListNotations.
Open Scope Z_scope.

(* C86: two sequences of InsertKnot and RefineKnots calls that ask for the same knots in every direction, in whatever
   order, with whatever grouping and with the directions mixed at will, both succeed and leave exactly the same spline:
   same knots, degrees, control points and weights *)
Theorem C86_order_of_insertions : forall dz (s : spline (Rops dz)) (es es' : list insertion),
  well_formed s -> regular s -> Forall2 at_most_full (knots_of s) (degs_of s) ->
  permitted s es -> permitted s es' -> (forall d, Permutation (asked_in es d) (asked_in es' d)) ->
  exists s', calls s es = Ok s' /\ calls s es' = Ok s' /\ well_formed s' /\ regular s' /\ degs_of s' = degs_of s /\
    (forall d kv, nth_error (knots_of s) d = Some kv -> exists kv', nth_error (knots_of s') d = Some kv' /\
      nondecreasing kv' /\ Permutation kv' (asked_in es d ++ kv)) /\
    (forall us dims, length us = length (knots_of s) -> valid_dims s dims -> evaluate s' us dims = evaluate s us dims).
Proof. exact order_of_calls. Qed.
Print Assumptions C86_order_of_insertions.

Example C86_example : exists s : spline (Rops (fun x => x)),
  well_formed s /\ positive_weights s /\ Forall2 at_most_full (knots_of s) (degs_of s) /\
  permitted s [InsertIt (1/2) 0 1; InsertIt (1/2) 1 2; RefineIt [1; 3/2]%R 0]%R /\
  permitted s [RefineIt [3/2; 1/2]%R 0; RefineIt [1/2]%R 1; InsertIt 1 0 1; InsertIt (1/2) 1 1]%R /\
  (forall d, Permutation (asked_in one_order d) (asked_in other_order d)).
Proof. exact ex_order. Qed.
