(* Properties of refinement and subdivision together: C89. *)
From Coq Require Import ZArith List Reals.
From Verif Require Import Base MultiIndex KnotVecSpec Spaces SplineEval SplineEdit SplineSpec EditSpec OrderSpec OrderExamples RefineCutSpec RefineCut RefineCutExamples.
Import ListNotations.
Open Scope Z_scope.

(* C89: cutting a refined spline gives the refined pieces of the cut spline: each piece receives the inserted knots of its
   side (copies of u itself are not needed), and all inserted knots of the other directions *)
Theorem C89_refine_and_cut : forall dz (s s' : spline (Rops dz)) d kv p u es es1 es2,
  well_formed s -> regular s -> Forall2 at_most_full (knots_of s) (degs_of s) -> direction s d kv p ->
  permitted s es -> (first_knot kv < u < final_knot kv)%R -> separated (u :: asked_in es d ++ kv) ->
  zlen kv + zlen (asked_in es d) + p + 1 <= 2 ^ 31 ->
  calls s es = Ok s' -> total (upd (npts_of s') d (nth d (npts_of s') 0 + p + 1)) < 2 ^ 64 ->
  names s es1 -> names s es2 -> asks_below es d u es1 -> asks_above es d u es2 ->
  exists low high low' high' t t',
    subdivide s u d = Ok (low, high, t) /\ subdivide s' u d = Ok (low', high', t') /\
    calls low es1 = Ok low' /\ calls high es2 = Ok high'.
Proof. exact refine_and_cut. Qed.
Print Assumptions C89_refine_and_cut.

Example C89_example : exists s s' : spline (Rops (fun x => x)), well_formed s /\ positive_weights s /\ Forall2 at_most_full (knots_of s) (degs_of s) /\
  direction s 0 [0; 0; 0; 1; 2; 2; 2]%R 2 /\ permitted s one_order /\ asked_in one_order 0 = [1/2; 1; 3/2]%R /\
  separated (1 :: asked_in one_order 0 ++ [0; 0; 0; 1; 2; 2; 2])%R /\ calls s one_order = Ok s' /\
  total (upd (npts_of s') 0 (nth 0 (npts_of s') 0 + 2 + 1)) < 2 ^ 64 /\
  names s low_calls /\ names s high_calls /\ asks_below one_order 0 1 low_calls /\ asks_above one_order 0 1 high_calls.
Proof. exact ex_refine_cut. Qed.
