(* Vocabulary for NURBS in double arithmetic. *)
From Coq Require Import ZArith List Reals Floats.
From Verif Require Import Base RSum SplineSpec DoubleSpec.
Import ListNotations.
Open Scope R_scope.

(* a weight between 2^-100 and 2^100 *)
Definition double_weight (w : float) : Prop := finite w /\ / 2 ^ 100 <= dval w <= 2 ^ 100.

(* the exact point: sum of N_i w_i P_i divided by the sum of N_i w_i, over all control points *)
Definition exact_weight (knots : list (list R)) (degs : list Z) (wts : list R) (us : list R) : R :=
  lsum (fun idx => basis_product knots degs us idx * nth (Z.to_nat (position (point_counts knots degs) idx)) wts 0)
       (all_indices (point_counts knots degs)).
Definition exact_rational (knots : list (list R)) (degs : list Z) (cps : list (list R)) (wts : list R) (us : list R) (c : Z) : R :=
  lsum (fun idx => basis_product knots degs us idx *
                   (nth (Z.to_nat (position (point_counts knots degs) idx)) wts 0 *
                    nth (Z.to_nat c) (nth (Z.to_nat (position (point_counts knots degs) idx)) cps []) 0))
       (all_indices (point_counts knots degs)) / exact_weight knots degs wts us.
