(* Vocabulary for statements about the solvability of the assembled systems. *)
From Coq Require Import ZArith List Reals.
From Verif Require Import Base RSum MultiIndexSpec KnotVecSpec Spaces SplineSpec SplineEval Iga IgaSpec IgaSystem IgaSystemSpec.
Import ListNotations.
Open Scope R_scope.

(* an integration rule with distinct points in (-1, 1), positive weights and more points than every degree *)
Definition dense_rule (rl : list (R * R)) (degs : list Z) : Prop :=
  inner_rule rl /\ NoDup (map fst rl) /\ Forall (fun q => 0 < snd q) rl /\ Forall (fun p => p < Z.of_nat (length rl))%Z degs.
(* no p + 1 knots inside the domain are equal: neighbouring elements share a basis function *)
Definition linked_direction (kv : list R) (p : Z) : Prop :=
  forall i : nat, (1 <= i)%nat -> (Z.of_nat i < Z.of_nat (length kv) - p - 1)%Z -> knot kv i < knot kv (i + Z.to_nat p).
(* the Jacobian determinant is positive inside all elements *)
Definition nondegenerate {dz} (mdet : list (list R) -> R) (s : spline (Rops dz)) : Prop :=
  forall lists es us, element_lists s = Ok lists -> in_box (map (fun l => Z.of_nat (length l)) lists) es -> strictly_inside lists es us ->
  exists j, jacobian_determinant (F := Rops dz) mdet s us = Ok j /\ 0 < j.
(* the derivative of the geometry can be inverted by minv inside all elements *)
Definition invertible {dz} (minv : list (list R) -> Res (list (list R))) (s : spline (Rops dz)) : Prop :=
  forall lists es us, element_lists s = Ok lists -> in_box (map (fun l => Z.of_nat (length l)) lists) es -> strictly_inside lists es us ->
  invertible_at minv s us.
(* the sum of c_i m_ij c_j over all control points *)
Definition quadratic_form (npts : list Z) (m : list (list R)) (c : list R) : R :=
  lsum (fun a => lsum (fun b => component c (position npts a) * entry m (position npts a) (position npts b) * component c (position npts b))
       (all_indices npts)) (all_indices npts).
(* a solver that returns the solution of every system with n unknowns that has exactly one *)
Definition correct_solver (n : Z) (msolve : list (list R) -> list R -> Res (list R)) : Prop :=
  forall m b x, square n m -> Z.of_nat (length b) = n -> solves n m b x -> (forall y, solves n m b y -> y = x) -> msolve m b = Ok x.
