(* Properties of knot removal after refinement: C91. *)
From Coq Require Import ZArith List Reals Permutation.
From Verif Require Import Base KnotVecSpec Spaces SplineEval SplineEdit SplineSpec EditSpec OrderSpec OrderExamples UndoSpec Undo UndoExamples.
Import ListNotations.
Open Scope Z_scope.

(* C91: any part of the knots that a sequence of calls has inserted can be removed again, in any order and with any
   tolerances, zero included; every copy is removed and what is left is exactly the spline with only the other knots inserted *)
Theorem C91_undo : forall dz (s : spline (Rops dz)) (es es2 : list insertion) (rs : list removal),
  well_formed s -> regular s -> Forall2 at_most_full (knots_of s) (degs_of s) ->
  permitted s es -> permitted s es2 -> proper_removals s rs ->
  (forall d, Permutation (asked_in es d) (removed_in rs d ++ asked_in es2 d)) ->
  (forall d kv p, direction s d kv p -> zlen kv + zlen (asked_in es d) < 2 ^ 31 /\
     forall u, In u (removed_in rs d) -> Z.of_nat (occurrences (asked_in es d ++ kv) u) <= p) ->
  exists s' s2, calls s es = Ok s' /\ calls s es2 = Ok s2 /\ all_removed s' rs s2.
Proof. exact undo_any_order. Qed.
Print Assumptions C91_undo.

Example C91_example : exists s : spline (Rops (fun x => x)), well_formed s /\ positive_weights s /\ Forall2 at_most_full (knots_of s) (degs_of s) /\
  permitted s one_order /\ permitted s left_in /\ proper_removals s taken_out /\
  (forall d, Permutation (asked_in one_order d) (removed_in taken_out d ++ asked_in left_in d)) /\
  (forall d kv p, direction s d kv p -> zlen kv + zlen (asked_in one_order d) < 2 ^ 31 /\
     forall u, In u (removed_in taken_out d) -> Z.of_nat (occurrences (asked_in one_order d ++ kv) u) <= p).
Proof. exact ex_undo. Qed.
