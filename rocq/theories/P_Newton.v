(* Property C45: the iterations of point projection. *)
From Coq Require Import ZArith List Lia Reals.
From Verif Require Import Base KnotVecSpec Spaces SplineEval SplineSpec Iga Projection ProjectionFacts ProjectionThms NewtonSpec NewtonFacts.
Import ListNotations.
Open Scope Z_scope.

(* The result for a curve comes from the nearest middle of a knot interval by walking to the foot of the perpendicular
   on the tangent, limited to the domain, until a correction is smaller than the tolerance or 1001 steps are done. *)
Theorem C45_curve_iterates : forall dz (s : spline (Rops dz)) (pt kv : list R) p tol,
  well_formed s -> knots_of s = [kv] -> degs_of s = [p] -> zlen pt <= ph_dim (sp_ph s) -> first_knot kv = 0%R ->
  exists (u0 : R) us, project_curve (F := Rops dz) (Z.to_nat 1001) pt s tol = Ok (Some us) /\
    nearest_middle s kv p pt u0 /\ iterates (curve_step s kv pt) tol [u0] us.
Proof. exact @curve_iterates. Qed.
Print Assumptions C45_curve_iterates.

Example C45_curve_iterates_example : let s := ex_segment [0; 0; 1; 1]%R in
  well_formed s /\ knots_of s = [[0; 0; 1; 1]%R] /\ degs_of s = [1] /\ zlen [7; 7]%R <= ph_dim (sp_ph s) /\ first_knot [0; 0; 1; 1]%R = 0%R.
Proof. split; [apply ex_segment_ok|]. repeat split; cbn; lia. Qed.

(* For a surface in space from the nearest sample by walking to the foot of the perpendicular on the tangent plane. *)
Theorem C45_surface_iterates : forall dz (s : spline (Rops dz)) k1 k2 p1 p2 (pt : list R),
  well_formed s -> knots_of s = [k1; k2] -> degs_of s = [p1; p2] -> zlen pt <= ph_dim (sp_ph s) ->
  first_knot k1 = 0%R -> first_knot k2 = 0%R -> forall m n tol, length pt = 3%nat -> final_knot k1 = final_knot k2 -> 1 <= m -> 1 <= n ->
  exists us0 us, project_surface (F := Rops dz) (Z.to_nat 1001) pt s (m, n) tol = Ok (Some us) /\
    nearest_sample s (final_knot k1) (final_knot k2) m n pt us0 /\ iterates (surface_step s k1 k2 pt) tol us0 us.
Proof. exact @surface_iterates. Qed.
Print Assumptions C45_surface_iterates.

Example C45_surface_iterates_example : well_formed ex_plane /\ knots_of ex_plane = [[0; 0; 1; 1]%R; [0; 0; 1; 1]%R] /\ degs_of ex_plane = [1; 1] /\
  zlen [1; 1; 5]%R <= ph_dim (sp_ph ex_plane) /\ first_knot [0; 0; 1; 1]%R = 0%R /\ length [1; 1; 5]%R = 3%nat.
Proof. split; [apply ex_plane_ok|]. repeat split; cbn; lia. Qed.
