(* Vocabulary for statements about parameter spaces. *)
From Coq Require Import ZArith List Reals.
From Verif Require Import KnotVecSpec.
Open Scope Z_scope.

(* at least 2p+2 knots, the first p+1 equal, the last p+1 equal *)
Definition clamped (kv : list R) (p : Z) : Prop :=
  2 * p + 2 <= Z.of_nat (length kv) /\
  forall j, Z.of_nat j <= p ->
    knot kv j = first_knot kv /\ knot kv (length kv - 1 - j) = final_knot kv.

(* a knot vector and degree the rest of the library can work with *)
Definition good_direction (kv : list R) (p : Z) : Prop :=
  0 <= p /\ clamped kv p /\ nondecreasing kv /\ separated kv /\ (first_knot kv < final_knot kv)%R.
