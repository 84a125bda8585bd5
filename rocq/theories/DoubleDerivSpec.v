(* Vocabulary for statements about derivatives computed in double arithmetic. *)
From Coq Require Import ZArith List Reals.
From Verif Require Import Base RSum KnotVecSpec BasisSpec SpacesSpec SplineSpec DoubleSpec.
Import ListNotations.
Open Scope R_scope.

(* The m-th derivative of a basis function by the formula of the literature. *)
Fixpoint cox_derivative (kv : list R) (m p i : nat) (u : R) : R :=
  match m, p with
  | O, _ => cox_de_boor kv p i u
  | S _, O => 0
  | S m', S q => INR p * (quotient (cox_derivative kv m' q i u) (knot kv (i + p) - knot kv i)
                          - quotient (cox_derivative kv m' q (i + 1) u) (knot kv (i + p + 1) - knot kv (i + 1)))
  end.

(* the product of the derivatives of the orders ders *)
Fixpoint derivative_product (knots : list (list R)) (degs : list Z) (us : list R) (ders : list Z) (idx : list Z) : R :=
  match knots, degs, us, ders, idx with
  | kv :: knots', p :: degs', u :: us', m :: ders', i :: idx' =>
      cox_derivative kv (Z.to_nat m) (Z.to_nat p) (Z.to_nat i) u * derivative_product knots' degs' us' ders' idx'
  | _, _, _, _, _ => 1
  end.

(* coordinate c of the exact derivative *)
Definition exact_derivative (knots : list (list R)) (degs : list Z) (cps : list (list R)) (us : list R) (ders : list Z) (c : Z) : R :=
  lsum (fun idx => derivative_product knots degs us ders idx *
                   nth (Z.to_nat c) (nth (Z.to_nat (position (point_counts knots degs) idx)) cps []) 0)
       (all_indices (point_counts knots degs)).

(* different knots are at least h apart *)
Definition spaced (h : R) (kv : list R) : Prop := forall x y, In x kv -> In y kv -> x < y -> h <= y - x.

(* how large the derivatives can become: (2p/h)^m for every direction *)
Definition growth1 (h : R) (p m : Z) : R := (2 * IZR (Z.max 1 p) / h) ^ Z.to_nat m.
Definition growth (h : R) (degs ders : list Z) : R := fold_right Rmult 1 (map2 (growth1 h) degs ders).

(* number of operations *)
Definition derivative_cost (degs ders : list Z) : Z := fold_right Z.add 0%Z (map2 (fun p m => 6 * p + 2 * m + 3)%Z degs ders).
