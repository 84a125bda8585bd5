(* Vocabulary of C98: how much a coordinate varies along the control points of one row, and along a list of values. *)
From Coq Require Import ZArith List Reals.
From Verif Require Import Base RSum MultiIndexSpec Spaces SplineEval SplineSpec.
Import ListNotations.
Open Scope Z_scope.

(* the way from value to value *)
Fixpoint variation (l : list R) : R :=
  match l with
  | x :: r => match r with y :: _ => Rabs (y - x) + variation r | [] => 0 end
  | [] => 0
  end%R.

Section Spec.
Context {dz : R -> R}.
Implicit Types s : spline (Rops dz).

(* the control points of the row through idx in direction d, one after the other *)
Definition row_of s (d : nat) (c : Z) (idx : list Z) : list R :=
  map (fun i => coordinate s (upd idx d (Z.of_nat i)) c) (seq 0 (Z.to_nat (nth d (npts_of s) 0))).
(* no row varies by more than K *)
Definition rows_within s (d : nat) (c : Z) (K : R) : Prop := forall idx, in_box (npts_of s) idx -> (variation (row_of s d c idx) <= K)%R.
End Spec.
