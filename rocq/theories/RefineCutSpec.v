(* Vocabulary for statements about refining before or after a cut. *)
From Coq Require Import ZArith List Reals.
From Verif Require Import Base KnotVecSpec Spaces SplineEval SplineSpec OrderSpec.
Import ListNotations.
Open Scope Z_scope.

Section Spec.
Context {dz : R -> R}.
Implicit Types s : spline (Rops dz).
(* the calls name directions of the spline and insert at least one copy *)
Definition names s (es : list insertion) : Prop :=
  Forall (fun e => (direction_of e < length (knots_of s))%nat /\ match e with InsertIt _ _ r => 1 <= r | _ => True end) es.
End Spec.

(* es1 asks for the knots of es that lie below (above) u in direction d, and for all of them in the other directions *)
Definition asks_below (es : list insertion) (d : nat) (u : R) (es1 : list insertion) : Prop :=
  (forall d' x, d' <> d \/ (x < u)%R -> occurrences (asked_in es1 d') x = occurrences (asked_in es d') x) /\
  (forall x, (u <= x)%R -> occurrences (asked_in es1 d) x = 0%nat).
Definition asks_above (es : list insertion) (d : nat) (u : R) (es2 : list insertion) : Prop :=
  (forall d' x, d' <> d \/ (u < x)%R -> occurrences (asked_in es2 d') x = occurrences (asked_in es d') x) /\
  (forall x, (x <= u)%R -> occurrences (asked_in es2 d) x = 0%nat).
