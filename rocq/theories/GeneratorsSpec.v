(* Vocabulary for statements about generated surfaces. *)
From Coq Require Import ZArith List Reals.
From Verif Require Import Base RSum BasisSpec.
Open Scope Z_scope.

(* knot number i of n knots for degree p over [0,1]: p+1 zeros, equal steps, p+1 ones *)
Definition uniform_knot (p n i : Z) : R :=
  if i <=? p then 0%R else if i <? n - p - 1 then (IZR (i - p) / IZR (n - 2 * p - 1))%R else 1%R.

(* number i of m equally spaced numbers from -1 to 1 *)
Definition spread (m i : Z) : R := (-1 + 2 * IZR i / IZR (m - 1))%R.

(* the curve with these coefficients *)
Definition spread_curve (kv : list R) (p m : Z) (u : R) : R :=
  lsum (fun i => cox_de_boor kv (Z.to_nat p) (Z.to_nat i) u * spread m i)%R (zseq 0 (Z.to_nat m)).
