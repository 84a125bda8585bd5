(* Vocabulary for statements about knot vectors (real numbers). *)
From Coq Require Import List Reals.
Open Scope R_scope.

(* the library tolerance, 10 * 2^-52 (src/util/numeric_settings.h:27-29) *)
Definition tolerance : R := 10 / 2 ^ 52.

(* knot number i *)
Definition knot (kv : list R) (i : nat) : R := nth i kv 0.
Definition first_knot (kv : list R) : R := nth 0 kv 0.
Definition final_knot (kv : list R) : R := nth (length kv - 1) kv 0.

Definition nondecreasing (kv : list R) : Prop :=
  forall i j, (i <= j)%nat -> (j < length kv)%nat -> knot kv i <= knot kv j.

(* any two different knots differ by at least the tolerance *)
Definition separated (kv : list R) : Prop :=
  forall i j, (i < length kv)%nat -> (j < length kv)%nat ->
    knot kv i < knot kv j -> knot kv i + tolerance <= knot kv j.

Definition near (u v : R) : Prop := Rabs (u - v) < tolerance.

(* number of occurrences *)
Definition occurrences (kv : list R) (u : R) : nat := count_occ Req_EM_T kv u.

(* number of different values *)
Definition distinct_values (kv : list R) : nat := length (nodup Req_EM_T kv).
