(* Vocabulary of C95: the range of a coordinate of the control points. *)
From Coq Require Import ZArith List Reals.
From Verif Require Import Base MultiIndexSpec Spaces SplineEval SplineSpec.
Open Scope Z_scope.

Section Spec.
Context {dz : R -> R}.
Implicit Types s : spline (Rops dz).

(* coordinate c of every control point lies between lo and hi *)
Definition points_between s (c : Z) (lo hi : R) : Prop := forall idx, in_box (npts_of s) idx -> (lo <= coordinate s idx c <= hi)%R.
End Spec.
