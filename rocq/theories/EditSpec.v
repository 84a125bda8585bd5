(* Vocabulary for statements about knot insertion, removal and subdivision. *)
From Coq Require Import ZArith List Reals.
From Verif Require Import Base KnotVecSpec Spaces SplineEval SplineSpec.
Import ListNotations.
Open Scope Z_scope.

(* u may be inserted r times into kv: strictly inside the domain, equal to a knot or at least the
   tolerance away from all of them, and not more than p+1 copies afterwards *)
Definition insertable (kv : list R) (p : Z) (u : R) (r : Z) : Prop :=
  (first_knot kv < u < final_knot kv)%R /\ separated (u :: kv) /\ Z.of_nat (occurrences kv u) + r <= p + 1.

(* the same for a list of knots *)
Definition all_insertable (kv : list R) (p : Z) (new : list R) : Prop :=
  Forall (fun u => (first_knot kv < u < final_knot kv)%R) new /\ separated (new ++ kv) /\
  forall u, In u new -> Z.of_nat (occurrences (new ++ kv) u) <= p + 1.

Section Spec.
Context {dz : R -> R}.
Implicit Types s : spline (Rops dz).

(* a B-spline or a NURBS with positive weights *)
Definition regular s : Prop := is_bspline s \/ positive_weights s.

(* direction d *)
Definition direction s (d : nat) (kv : list R) (p : Z) : Prop :=
  nth_error (knots_of s) d = Some kv /\ nth_error (degs_of s) d = Some p.
End Spec.
