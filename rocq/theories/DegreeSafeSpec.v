(* Vocabulary for statements about memory safety of degree changes (C84). *)
From Coq Require Import ZArith List Reals.
From Verif Require Import Base KnotVecSpec.
Import ListNotations.
Open Scope Z_scope.

(* knots strictly between the ends occur at least lo and at most hi times *)
Definition interior_between (kv : list R) (lo hi : Z) : Prop :=
  forall x, In x kv -> (first_knot kv < x < final_knot kv)%R -> lo <= Z.of_nat (occurrences kv x) <= hi.

(* the same knots, not counting copies *)
Definition same_breaks (kv kv' : list R) : Prop := forall x, In x kv' <-> In x kv.

(* kp has one copy more of every knot of kq, and one copy of x besides *)
Definition one_copy_more_and (x : R) (kq kp : list R) : Prop := forall y,
  occurrences kp y = (occurrences kq y + (if in_dec Req_EM_T y kq then 1 else 0) + (if Req_EM_T y x then 1 else 0))%nat.

(* x lies between the last knot of kq but one, not counting copies, and the last *)
Definition in_last_span (kq : list R) (x : R) : Prop :=
  (first_knot kq < x < final_knot kq)%R /\ forall y, In y kq -> (y < final_knot kq)%R -> (y < x)%R.
