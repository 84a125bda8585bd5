(* Vocabulary for statements about derivatives at the corners of the domain. *)
From Coq Require Import ZArith List Reals.
From Verif Require Import Base KnotVecSpec.
Import ListNotations.
Open Scope Z_scope.

(* the control point index next to the end *)
Definition end_neighbour (n : Z) (e : bool) : Z := if e then n - 2 else 1.

(* p over the length of the support that the end shares with its neighbour, negative at the last knot *)
Definition end_slope (kv : list R) (p : Z) (e : bool) : R :=
  if e then (- (IZR p / (final_knot kv - knot kv (length kv - Z.to_nat p - 2))))%R
       else (IZR p / (knot kv (S (Z.to_nat p)) - first_knot kv))%R.

(* first order in direction d *)
Definition unit_order (n d : nat) : list Z := upd (repeat 0 n) d 1.

(* a knot vector without knots inside the domain *)
Definition bezier_knots (kv : list R) (p : Z) : Prop :=
  exists a b, kv = repeat a (S (Z.to_nat p)) ++ repeat b (S (Z.to_nat p)).

(* the Bernstein polynomials over the domain of kv, and their products *)
Definition bernstein (kv : list R) (p i : nat) (u : R) : R :=
  let x := ((u - first_knot kv) / (final_knot kv - first_knot kv))%R in (C p i * x ^ i * (1 - x) ^ (p - i))%R.
Fixpoint bernstein_product (knots : list (list R)) (degs : list Z) (us : list R) (idx : list Z) : R :=
  match knots, degs, us, idx with
  | kv :: knots', p :: degs', u :: us', i :: idx' =>
      (bernstein kv (Z.to_nat p) (Z.to_nat i) u * bernstein_product knots' degs' us' idx')%R
  | _, _, _, _ => 1%R
  end.
