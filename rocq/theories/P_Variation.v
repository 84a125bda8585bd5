(* C78: a plane does not meet a curve more often than its control polygon. *)
From Coq Require Import ZArith List Reals.
From Verif Require Import Base RSum KnotVecSpec Spaces SpacesSpec SplineEval SplineSpec VariationSpec VariationThms.
Import ListNotations.
Open Scope Z_scope.

(* If points of a curve lie alternately on the two sides of a plane, so do as many of its control points in the same order;
   each of them is on the side of the point of the curve and its basis function's support contains the parameter. *)
Theorem C78_variation_diminishing : forall (dz : R -> R) (s : spline (Rops dz)) (kv : list R) (p : Z) (a : Z -> R) (b : R) (us : list R) (vs : list (list R)),
  well_formed s -> is_bspline s \/ positive_weights s -> knots_of s = [kv] -> degs_of s = [p] -> linked Rlt us ->
  Forall2 (fun u v => evaluate s [u] (zseq 0 (Z.to_nat (ph_dim (sp_ph s)))) = Ok v) us vs ->
  Forall (fun v => side a b v <> 0%R) vs -> alternating (map (side a b) vs) ->
  exists is, linked Z.lt is /\ length is = length us /\
    forall n u v i, nth_error us n = Some u -> nth_error vs n = Some v -> nth_error is n = Some i ->
      0 <= i < zlen kv - p - 1 /\ (knot kv (Z.to_nat i) <= u <= knot kv (Z.to_nat (i + p + 1)))%R /\
      (0 < side a b v * side a b (curve_point s i))%R.
Proof. exact variation_diminishing. Qed.
Print Assumptions C78_variation_diminishing.

(* A coordinate that does not decrease along the control points does not decrease along the curve. *)
Theorem C78_monotone : forall (dz : R -> R) (s : spline (Rops dz)) (kv : list R) (p c : Z) (u v : R),
  well_formed s -> is_bspline s \/ positive_weights s -> knots_of s = [kv] -> degs_of s = [p] -> 0 <= c < ph_dim (sp_ph s) ->
  (forall i j, 0 <= i <= j -> j < zlen kv - p - 1 -> (coordinate s [i] c <= coordinate s [j] c)%R) ->
  (first_knot kv <= u)%R -> (u <= v)%R -> (v <= final_knot kv)%R ->
  exists x y, evaluate s [u] [c] = Ok [x] /\ evaluate s [v] [c] = Ok [y] /\ (x <= y)%R.
Proof. exact monotone_curve. Qed.
Print Assumptions C78_monotone.

Example C78_example : exists s : spline (Rops (fun x => x)), well_formed s /\ positive_weights s /\
  knots_of s = [[0; 0; 0; 1; 1; 2; 2; 2]%R] /\ degs_of s = [2] /\ ph_dim (sp_ph s) = 2 /\
  linked Rlt [0; 1; 2]%R /\
  Forall2 (fun u v => evaluate s [u] (zseq 0 (Z.to_nat (ph_dim (sp_ph s)))) = Ok v) [0; 1; 2]%R [[0; 0]; [2; 3]; [4; 0]]%R /\
  map (side (fun c => if Z.eq_dec c 1 then 1%R else 0%R) (-1)) [[0; 0]; [2; 3]; [4; 0]]%R = [-1; 2; -1]%R /\
  alternating [-1; 2; -1]%R /\
  (forall i j, 0 <= i <= j -> j < 5 -> (coordinate s [i] 0 <= coordinate s [j] 0)%R).
Proof. exact ex_variation. Qed.
