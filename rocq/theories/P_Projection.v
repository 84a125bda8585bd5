(* Properties C45, C50 (point projection) and the derivative part of C49. *)
From Coq Require Import ZArith List Lia Reals Lra Floats.
From Verif Require Import Base RSum KnotVecSpec Spaces SplineEval SplineSpec DegreeSpec Iga
  Projection ProjectionFacts ProjectionThms.
From Verif Require Import GrevilleSpec SlopeFacts VecSpec.
Import ListNotations.
Open Scope Z_scope.

(* C45: at most 1001 executions of the loop body, in reals and in doubles, for every input *)
Theorem C45_curve_terminates : forall (F : NumOps) (pt : list F) s tol fuel, (Z.to_nat 1001 <= fuel)%nat ->
  project_curve fuel pt s tol <> Ok None /\ project_curve fuel pt s tol = project_curve (Z.to_nat 1001) pt s tol.
Proof. exact terminates_curve. Qed.
Print Assumptions C45_curve_terminates.

Theorem C45_surface_terminates : forall (F : NumOps) (pt : list F) s sc tol fuel, (Z.to_nat 1001 <= fuel)%nat ->
  project_surface fuel pt s sc tol <> Ok None /\ project_surface fuel pt s sc tol = project_surface (Z.to_nat 1001) pt s sc tol.
Proof. exact terminates_surface. Qed.
Print Assumptions C45_surface_terminates.

(* the bound is reached: with tolerance 0 the loop is still running after 1000 executions *)
Example C45_terminates_example : exists (s : spline Fops), spline_new (F := Fops) [[0; 0; 1; 1]%float] [1] [[0]; [1]]%float None = Ok s /\
  project_curve (F := Fops) (Z.to_nat 1000) [0.5]%float s 0%float = Ok None /\
  project_curve (F := Fops) (Z.to_nat 1001) [0.5]%float s 0%float = Ok (Some [0.5]%float).
Proof. exact curve_thousand. Qed.

(* C45: the result lies in the domain of the curve *)
Theorem C45_curve_in_domain : forall dz (s : spline (Rops dz)) (pt : list R) tol,
  well_formed s -> length (knots_of s) = 1%nat -> zlen pt <= ph_dim (sp_ph s) ->
  Forall (fun kv => first_knot kv = 0%R) (knots_of s) ->
  exists u : R, project_curve (F := Rops dz) (Z.to_nat 1001) pt s tol = Ok (Some [u]) /\ in_domain s [u].
Proof. exact @curve_in_domain. Qed.
Print Assumptions C45_curve_in_domain.

Example C45_curve_in_domain_example : well_formed (ex_segment [0; 0; 1; 1]%R) /\ length (knots_of (ex_segment [0; 0; 1; 1]%R)) = 1%nat /\
  zlen [7; 7]%R <= ph_dim (sp_ph (ex_segment [0; 0; 1; 1]%R)) /\ Forall (fun kv => first_knot kv = 0%R) (knots_of (ex_segment [0; 0; 1; 1]%R)).
Proof. split; [apply ex_segment_ok|]. split; [reflexivity|]. split; [cbn; lia|]. repeat constructor. Qed.

(* the search for the first guess samples the first element at half its length, counted from 0 *)
Theorem C45_shifted_curve_refuted : forall dz (s : spline (Rops dz)) (pt : list R) tol kv p e0 es fuel,
  well_formed s -> knots_of s = [kv] -> degs_of s = [p] -> zlen pt <= ph_dim (sp_ph s) ->
  elements (F := Rops dz) kv p = Ok (e0 :: es) -> ~ in_domain s [((snd e0 - fst e0) / 2)%R] ->
  project_curve (F := Rops dz) fuel pt s tol = Throw RangeError.
Proof. exact @curve_shifted. Qed.
Print Assumptions C45_shifted_curve_refuted.

Example C45_shifted_curve_example : well_formed (ex_segment [2; 2; 3; 3]%R) /\ elements (F := Rops (fun x => x)) [2; 2; 3; 3]%R 1 = Ok [(2, 3)%R] /\
  ~ in_domain (ex_segment [2; 2; 3; 3]%R) [((snd (2, 3) - fst (2, 3)) / 2)%R].
Proof. exact ex_shifted. Qed.

(* a constant curve: the result is NaN *)
Theorem C45_constant_curve_refuted : exists (s : spline Fops) (u : float),
  spline_new (F := Fops) [[0; 0; 1; 1]%float] [1] [[1]; [1]]%float None = Ok s /\
  project_curve (F := Fops) (Z.to_nat 1001) [0.5]%float s 0x1p-13%float = Ok (Some [u]) /\ (u =? u)%float = false.
Proof. exact curve_degenerate. Qed.
Print Assumptions C45_constant_curve_refuted.

(* C45 for surfaces with the same domain [0, last] in both directions *)
Theorem C45_surface_in_domain : forall dz (s : spline (Rops dz)) k1 k2 p1 p2 (pt : list R),
  well_formed s -> knots_of s = [k1; k2] -> degs_of s = [p1; p2] -> zlen pt <= ph_dim (sp_ph s) ->
  first_knot k1 = 0%R -> first_knot k2 = 0%R -> forall sc tol, final_knot k1 = final_knot k2 -> (3 <= length pt)%nat ->
  exists u v : R, project_surface (F := Rops dz) (Z.to_nat 1001) pt s sc tol = Ok (Some [u; v]) /\ in_domain s [u; v].
Proof. exact @surface_in_domain. Qed.
Print Assumptions C45_surface_in_domain.

(* points of the plane: out-of-bounds accesses in the cross product *)
Theorem C45_plane_surface_ub : forall dz (s : spline (Rops dz)) k1 k2 p1 p2 (pt : list R),
  well_formed s -> knots_of s = [k1; k2] -> degs_of s = [p1; p2] -> zlen pt <= ph_dim (sp_ph s) ->
  first_knot k1 = 0%R -> first_knot k2 = 0%R -> forall sc tol, (length pt < 3)%nat ->
  project_surface (F := Rops dz) (Z.to_nat 1001) pt s sc tol = UB.
Proof. exact @surface_flat_ub. Qed.
Print Assumptions C45_plane_surface_ub.

(* both coordinates are compared with the knots of direction 0 *)
Theorem C45_surface_throws_refuted : exists (s : spline Fops),
  spline_new (F := Fops) [[0; 0; 2; 2]; [0; 0; 1; 1]]%float [1; 1] [[0; 0; 0]; [1; 0; 0]; [0; 1; 0]; [1; 1; 0]]%float None = Ok s /\
  project_surface (F := Fops) (Z.to_nat 1001) [0.5; 1.5; 1]%float s (10, 10) 0x1p-17%float = Throw RangeError.
Proof. exact surface_throws. Qed.
Print Assumptions C45_surface_throws_refuted.

(* a point of the surface is not found *)
Theorem C45_surface_wrong_refuted : exists (s : spline Fops) (x y : float),
  spline_new (F := Fops) [[0; 0; 1; 1]; [0; 0; 2; 2]]%float [1; 1] [[0; 0; 0]; [1; 0; 0]; [0; 1; 0]; [1; 1; 0]]%float None = Ok s /\
  evaluate (F := Fops) s [0.5; 1.5]%float [0; 1; 2] = Ok [0.5; 0.75; 0]%float /\
  project_surface (F := Fops) (Z.to_nat 1001) [0.5; 0.75; 0]%float s (10, 10) 0x1p-17%float = Ok (Some [x; y]) /\
  (x =? 0.5)%float = true /\ (y =? 1)%float = true.
Proof. exact surface_wrong. Qed.
Print Assumptions C45_surface_wrong_refuted.

(* rounding of the sample positions of the first guess *)
Theorem C45_sample_rounding_refuted : exists (s : spline Fops),
  spline_new (F := Fops) [[0; 0; 0x1.99b10af89584cp-3; 0x1.99b10af89584cp-3]; [0; 0; 0x1.99b10af89584cp-3; 0x1.99b10af89584cp-3]]%float [1; 1]
    [[0; 0; 0]; [1; 0; 0]; [0; 1; 0]; [1; 1; 0]]%float None = Ok s /\
  project_surface (F := Fops) (Z.to_nat 1001) [0.5; 0.5; 1]%float s (10, 10) 0x1p-17%float = Throw RangeError.
Proof. exact surface_sample. Qed.
Print Assumptions C45_sample_rounding_refuted.

(* C50: on a straight curve the result is a nearest point of the curve *)
Theorem C50_straight_curve : forall dz (s : spline (Rops dz)) kv p (pt : list R) (a b : Z -> R),
  well_formed s -> is_bspline s -> knots_of s = [kv] -> degs_of s = [p] -> 1 <= p -> zlen pt <= ph_dim (sp_ph s) ->
  (forall i c, 0 <= i < zlen kv - p - 1 -> 0 <= c < zlen pt -> coordinate s [i] c = (a c + b c * greville kv p i)%R) ->
  forall tol, first_knot kv = 0%R -> (exists c, 0 <= c < zlen pt /\ b c <> 0%R) ->
  exists (u : R) x, project_curve (F := Rops dz) (Z.to_nat 1001) pt s tol = Ok (Some [u]) /\ in_domain s [u] /\
    evaluate s [u] (zseq 0 (length pt)) = Ok x /\
    forall v, in_domain s [v] -> exists y, evaluate s [v] (zseq 0 (length pt)) = Ok y /\ (euclid pt x <= euclid pt y)%R.
Proof. exact @line_nearest. Qed.
Print Assumptions C50_straight_curve.

Example C50_straight_curve_example : well_formed (ex_segment [0; 0; 1; 1]%R) /\ is_bspline (ex_segment [0; 0; 1; 1]%R) /\
  knots_of (ex_segment [0; 0; 1; 1]%R) = [[0; 0; 1; 1]%R] /\ degs_of (ex_segment [0; 0; 1; 1]%R) = [1] /\ first_knot [0; 0; 1; 1]%R = 0%R /\
  (forall i c, 0 <= i < zlen [0; 0; 1; 1]%R - 1 - 1 -> 0 <= c < zlen [7; 7]%R -> coordinate (ex_segment [0; 0; 1; 1]%R) [i] c =
     ((fun c : Z => if (c =? 0)%Z then 0 else 1) c + (fun c : Z => if (c =? 0)%Z then 3 else 4) c * greville [0; 0; 1; 1] 1 i)%R).
Proof. exact ex_segment_ok. Qed.

(* C50: on a plane surface the result is the foot of the perpendicular if it belongs to the surface *)
Theorem C50_plane_surface : forall dz (s : spline (Rops dz)) k1 k2 p1 p2 (pt : list R) (a b1 b2 : Z -> R),
  well_formed s -> is_bspline s -> knots_of s = [k1; k2] -> degs_of s = [p1; p2] -> 1 <= p1 -> 1 <= p2 -> zlen pt <= ph_dim (sp_ph s) ->
  first_knot k1 = 0%R -> first_knot k2 = 0%R ->
  (forall i j c, 0 <= i < zlen k1 - p1 - 1 -> 0 <= j < zlen k2 - p2 - 1 -> 0 <= c < zlen pt ->
     coordinate s [i; j] c = (a c + b1 c * greville k1 p1 i + b2 c * greville k2 p2 j)%R) ->
  forall sc tol (u v : R) x, length pt = 3%nat -> final_knot k1 = final_knot k2 ->
  (dot (map b1 [0; 1; 2]%Z) (map b1 [0; 1; 2]%Z) * dot (map b2 [0; 1; 2]%Z) (map b2 [0; 1; 2]%Z)
   - dot (map b1 [0; 1; 2]%Z) (map b2 [0; 1; 2]%Z) * dot (map b1 [0; 1; 2]%Z) (map b2 [0; 1; 2]%Z) <> 0)%R ->
  in_domain s [u; v] -> evaluate s [u; v] [0; 1; 2] = Ok x ->
  dot (map2 Rminus pt x) (map b1 [0; 1; 2]) = 0%R -> dot (map2 Rminus pt x) (map b2 [0; 1; 2]) = 0%R ->
  project_surface (F := Rops dz) (Z.to_nat 1001) pt s sc tol = Ok (Some [u; v]).
Proof. exact @plane_foot. Qed.
Print Assumptions C50_plane_surface.

(* also an example for C45_surface_in_domain: the point (1,1,5) over the parallelogram *)
Example C50_plane_surface_example : well_formed ex_plane /\ is_bspline ex_plane /\
  knots_of ex_plane = [[0; 0; 1; 1]%R; [0; 0; 1; 1]%R] /\ degs_of ex_plane = [1; 1] /\
  (forall i j c, 0 <= i < zlen [0; 0; 1; 1]%R - 1 - 1 -> 0 <= j < zlen [0; 0; 1; 1]%R - 1 - 1 -> 0 <= c < zlen [1; 1; 5]%R -> coordinate ex_plane [i; j] c =
     (0 + (fun c : Z => if (c =? 0)%Z then 1 else 0) c * greville [0; 0; 1; 1] 1 i
        + (fun c : Z => if (c =? 0)%Z then 1 else if (c =? 1)%Z then 2 else 0) c * greville [0; 0; 1; 1] 1 j)%R) /\
  in_domain ex_plane [1/2; 1/2]%R /\ evaluate ex_plane [1/2; 1/2]%R [0; 1; 2] = Ok [1; 1; 0]%R.
Proof. exact ex_plane_ok. Qed.

(* C49: the first derivatives of such a spline are constant, at the knots too *)
Theorem C49_linear_derivative : forall dz (s : spline (Rops dz)) us c a bs d,
  well_formed s -> is_bspline s -> in_domain s us -> 0 <= c < ph_dim (sp_ph s) ->
  Forall (fun p => 1 <= p) (degs_of s) -> length bs = length (knots_of s) -> (d < length (degs_of s))%nat ->
  (forall idx, In idx (all_indices (npts_of s)) -> coordinate s idx c = a + greville_combination (knots_of s) (degs_of s) bs idx)%R ->
  evaluate_derivative s us [c] (upd (repeat 0 (length (degs_of s))) d 1) = Ok [nth d bs 0%R].
Proof. exact @linear_derivative. Qed.
Print Assumptions C49_linear_derivative.
