(* Vocabulary of C92: control points whose coordinates grow along one direction. *)
From Coq Require Import ZArith List Reals.
From Verif Require Import Base MultiIndexSpec Spaces SplineEval SplineSpec.
Open Scope Z_scope.

(* the control point after idx in direction d *)
Definition next_in (d : nat) (idx : list Z) : list Z := upd idx d (nth d idx 0 + 1).

Section Spec.
Context {dz : R -> R}.
Implicit Types s : spline (Rops dz).

(* coordinate c does not fall from one control point to the next in direction d *)
Definition never_falls s (d : nat) (c : Z) : Prop := forall idx, in_box (npts_of s) idx -> in_box (npts_of s) (next_in d idx) ->
  (coordinate s idx c <= coordinate s (next_in d idx) c)%R.
(* it grows *)
Definition always_grows s (d : nat) (c : Z) : Prop := forall idx, in_box (npts_of s) idx -> in_box (npts_of s) (next_in d idx) ->
  (coordinate s idx c < coordinate s (next_in d idx) c)%R.
End Spec.
