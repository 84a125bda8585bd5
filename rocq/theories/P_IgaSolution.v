(* Properties of the spline and the file that hold a solution: C58. *)
From Coq Require Import ZArith List Bool Reals.
From Verif Require Import Base MultiIndex MultiIndexSpec KnotVecSpec Spaces SplineEval SplineSpec Convert Vtk VtkSpec IgaSystem IgaSystemSpec
  IgaSolutionThms IgaSolutionExamples.
Import ListNotations.
Open Scope Z_scope.

(* C58: the solution spline is the geometry with the field of the coefficients as one more coordinate *)
Theorem C58_solution_spline : forall (dz : R -> R) (s : spline (Rops dz)) solution w, well_formed s -> ph_wts (sp_ph s) = Some w -> total (npts_of s) < 2 ^ 64 ->
  total (npts_of s) <= zlen solution -> exists sol,
  solution_spline (F := Rops dz) s solution = Ok sol /\ well_formed sol /\
  knots_of sol = knots_of s /\ degs_of sol = degs_of s /\ npts_of sol = npts_of s /\ ph_dim (sp_ph sol) = ph_dim (sp_ph s) + 1 /\
  forall us, in_domain s us -> weight_function s us <> 0%R ->
    (forall c, 0 <= c < ph_dim (sp_ph s) -> evaluate sol us [c] = evaluate s us [c]) /\
    evaluate sol us [ph_dim (sp_ph s)] = Ok [combination s solution us].
Proof. exact @solution_as_spline. Qed.
Print Assumptions C58_solution_spline.

(* entry k of the point data is the field at the parameters of point k of the file *)
Theorem C58_point_data : forall (dz : R -> R) (s : spline (Rops dz)) solution w (sc : list Z), well_formed s -> ph_wts (sp_ph s) = Some w -> Forall (fun x => 0 < x)%R w ->
  total (npts_of s) < 2 ^ 64 -> total (npts_of s) <= zlen solution ->
  length sc = length (degs_of s) -> Forall (fun n => 1 <= n) sc -> (1 <= length (degs_of s) <= 3)%nat ->
  exists data f, solution_data (F := Rops dz) s solution sc = Ok data /\
  write_vtk (F := Rops dz) [AnyN (zlen (degs_of s)) s] [sc] = Ok f /\ zlen data = vf_npoints f /\
  forall idx, in_box (samples sc) idx ->
    nth_error data (Z.to_nat (position (samples sc) idx)) = Some (combination s solution (parameters (knots_of s) sc idx)) /\
    nth_error (vf_rows f) (Z.to_nat (position (samples sc) idx)) = Some (row s sc idx).
Proof. exact @solution_file. Qed.
Print Assumptions C58_point_data.

Example C58_example : forall dz, exists s : spline (Rops dz),
  spline_new (F := Rops dz) [[0; 0; 1; 1]]%R [1] [[0; 1]; [2; 3]]%R (Some [1; 2]%R) = Ok s /\ well_formed s /\ ph_wts (sp_ph s) = Some [1; 2]%R /\
  Forall (fun x => 0 < x)%R [1; 2]%R /\ total (npts_of s) < 2 ^ 64 /\ total (npts_of s) <= zlen [5; 7]%R /\
  length [4] = length (degs_of s) /\ Forall (fun n => 1 <= n) [4] /\ (1 <= length (degs_of s) <= 3)%nat /\
  in_box (samples [4]) [2] /\ ph_dim (sp_ph s) = 2.
Proof. exact ex_solution. Qed.
