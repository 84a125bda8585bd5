(* Vocabulary for statements about sequences of knot removals. *)
From Coq Require Import ZArith List Reals.
From Verif Require Import Base KnotVecSpec Spaces SplineEval SplineEdit SplineSpec EditSpec OrderSpec.
Import ListNotations.
Open Scope Z_scope.

(* one call RemoveKnot(u, d, tol, r) (spline.h:189-207) *)
Inductive removal := RemoveIt (u : R) (d : nat) (tol : R) (r : Z).

(* the copies that a sequence of calls removes in direction d *)
Fixpoint removed_in (rs : list removal) (d : nat) : list R :=
  match rs with
  | [] => []
  | RemoveIt u d' _ r :: t => (if Nat.eqb d' d then repeat u (Z.to_nat r) else []) ++ removed_in t d
  end.

Section Spec.
Context {dz : R -> R}.
Implicit Types s : spline (Rops dz).

(* one call after the other, each of which removes as many copies as it is asked for; the last one leaves s' *)
Fixpoint all_removed s (rs : list removal) s' : Prop :=
  match rs with
  | [] => s' = s
  | RemoveIt u d tol r :: t => exists s1, remove_knot (F := Rops dz) s u d tol r = Ok (r, s1) /\ all_removed s1 t s'
  end.

(* the calls name directions of the spline, remove at least one copy and have non-negative tolerances *)
Definition proper_removals s (rs : list removal) : Prop :=
  Forall (fun e => match e with RemoveIt _ d tol r => (d < length (knots_of s))%nat /\ (0 <= tol)%R /\ 1 <= r end) rs.
End Spec.
