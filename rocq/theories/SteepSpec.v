(* Vocabulary of C93: the steepness of the control polygon. *)
From Coq Require Import ZArith List Reals.
From Verif Require Import Base MultiIndexSpec Spaces SplineEval SplineSpec GrevilleSpec MonotoneSpec.
Open Scope Z_scope.

Section Spec.
Context {dz : R -> R}.
Implicit Types s : spline (Rops dz).

(* the polygon through the control points along direction d, drawn over the means of p consecutive knots, is nowhere steeper than K *)
Definition polygon_within s (d : nat) (c : Z) (K : R) : Prop := forall kv p idx,
  nth_error (knots_of s) d = Some kv -> nth_error (degs_of s) d = Some p -> in_box (npts_of s) idx -> in_box (npts_of s) (next_in d idx) ->
  (Rabs (coordinate s (next_in d idx) c - coordinate s idx c) <= K * (greville kv p (nth d idx 0 + 1)%Z - greville kv p (nth d idx 0%Z)))%R.
End Spec.
