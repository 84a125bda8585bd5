(* Vocabulary for statements about double arithmetic: the real number a double stands for, and exact counterparts
   of vectors and control points. *)
From Coq Require Import ZArith List Reals Floats.
From Flocq Require Import BinarySingleNaN PrimFloat.
From Verif Require Import Base RSum KnotVecSpec BasisSpec SpacesSpec SplineSpec.
Import ListNotations.
Open Scope R_scope.

(* the value of a finite double; infinities and NaN are excluded by [finite] wherever it is used *)
Definition dval (x : float) : R := B2R (Prim2B x).
Definition finite (x : float) : Prop := PrimFloat.is_finite x = true.

(* unit roundoff and half the smallest positive double *)
Definition roundoff : R := / 2 ^ 53.
Definition underflow : R := / 2 ^ 1075.

(* finite and at most 2^500 in absolute value, so that sums, products and inverses below do not overflow *)
Definition moderate (x : float) : Prop := finite x /\ Rabs (dval x) <= 2 ^ 500.

(* a direction whose knots are moderate doubles and whose values form a usable knot vector *)
Definition double_direction (kv : list float) (p : Z) : Prop := Forall moderate kv /\ good_direction (map dval kv) p.

(* a parameter inside the domain of one direction *)
Definition double_parameter (kv : list float) (u : float) : Prop :=
  finite u /\ first_knot (map dval kv) <= dval u <= final_knot (map dval kv).

(* number of control points per direction *)
Definition point_counts {A} (knots : list (list A)) (degs : list Z) : list Z := map2 (fun kv p => zlen kv - p - 1)%Z knots degs.

(* coordinate c of the exact point: sum over all control points of N_i(u) P_i *)
Definition exact_coordinate (knots : list (list R)) (degs : list Z) (cps : list (list R)) (us : list R) (c : Z) : R :=
  lsum (fun idx => basis_product knots degs us idx *
                   nth (Z.to_nat c) (nth (Z.to_nat (position (point_counts knots degs) idx)) cps []) 0)
       (all_indices (point_counts knots degs)).

(* numbers of operations: 6p+1 per direction, the number of summands, and the exponent of the underflow term *)
Definition degree_cost (degs : list Z) : Z := fold_right (fun p a => 6 * p + 1 + a)%Z 0%Z degs.
Definition summands (degs : list Z) : Z := fold_right (fun p a => (p + 1) * a)%Z 1%Z degs.
Definition depth (degs : list Z) : Z := fold_right (fun p a => p + 2 + a)%Z 1%Z degs.
