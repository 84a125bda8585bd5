(* C43 VTK files. *)
From Coq Require Import ZArith List Reals Floats.
From Verif Require Import Base MultiIndexSpec SpacesThms SplineEval SplineSpec EvalThms Convert ConvertSpec Vtk VtkSpec VtkFacts VtkThms.
Import ListNotations.
Open Scope Z_scope.

(* the sections of the file, and its counts *)
Theorem C43_written : forall dz (jobs : list (@job dz)), Forall good_job jobs ->
  exists f, write_vtk (F := Rops dz) (map object jobs) (map divisions jobs) = Ok f /\
    vf_rows f = flat_map rows_of jobs /\ vf_npoints f = zlen (vf_rows f) /\
    vf_cells f = all_cells 0 (map divisions jobs) /\ vf_ncells f = zlen (vf_cells f) /\ vf_nentries f = entries (vf_cells f) /\
    vf_types f = flat_map (fun j => repeat (vtk_type (length (divisions j))) (Z.to_nat (size (divisions j)))) jobs /\
    vf_ntypes f = zlen (vf_types f).
Proof. exact @vtk_written. Qed.
Print Assumptions C43_written.

(* the points of the spline after pre: sample point idx is line position idx of its part *)
Theorem C43_points : forall dz (pre : list (@job dz)) j post idx, Forall good_job (pre ++ j :: post) -> in_box (samples (divisions j)) idx ->
  exists f, write_vtk (F := Rops dz) (map object (pre ++ j :: post)) (map divisions (pre ++ j :: post)) = Ok f /\
    nth_error (vf_rows f) (Z.to_nat (zlen (flat_map rows_of pre) + position (samples (divisions j)) idx)) =
    Some (row (content j) (divisions j) idx).
Proof. exact @vtk_point. Qed.
Print Assumptions C43_points.

(* the cells of the spline after pre: cell c refers to the lines of its own corners, all of them
   lines of this spline *)
Theorem C43_cells : forall dz (pre : list (@job dz)) j post c, Forall good_job (pre ++ j :: post) -> in_box (divisions j) c ->
  exists f, write_vtk (F := Rops dz) (map object (pre ++ j :: post)) (map divisions (pre ++ j :: post)) = Ok f /\
    exists line, nth_error (vf_cells f) (Z.to_nat (zlen (all_cells 0 (map divisions pre)) + position (divisions j) c)) = Some line /\
      hd 0 line = zlen (tl line) /\
      Forall2 (fun e r => nth_error (vf_rows f) (Z.to_nat r) = Some (row (content j) (divisions j) (map2 Z.add c e)) /\
                          zlen (flat_map rows_of pre) <= r < zlen (flat_map rows_of pre) + zlen (rows_of j))
              (corners (length (divisions j))) (tl line).
Proof. exact @vtk_cell. Qed.
Print Assumptions C43_cells.

(* what the writer refuses *)
Theorem C43_not_spline : forall dz (objects : list (any (spline (Rops dz)))) scattering,
  ~ Forall is_spline objects -> write_vtk (F := Rops dz) objects scattering = Throw RuntimeError.
Proof. exact @vtk_not_spline. Qed.
Print Assumptions C43_not_spline.

Theorem C43_wrong_sizes : forall dz (objects : list (any (spline (Rops dz)))) scattering, Forall is_spline objects ->
  ~ Forall2 (fun a (sc : list Z) => spline_dim a (zlen sc)) objects scattering ->
  write_vtk (F := Rops dz) objects scattering = Throw RuntimeError.
Proof. exact @vtk_wrong_sizes. Qed.
Print Assumptions C43_wrong_sizes.

Theorem C43_four_parameters : forall dz (pre : list (@job dz)) a sc (rest : list (any (spline (Rops dz)) * list Z)), Forall good_job pre ->
  Forall (fun p => spline_dim (fst p) (zlen (snd p)) /\ 1 <= zlen (snd p) <= 4) ((a, sc) :: rest) -> zlen sc = 4 ->
  write_vtk (F := Rops dz) (map object pre ++ a :: map fst rest) (map divisions pre ++ sc :: map snd rest) = Throw RuntimeError.
Proof. exact @vtk_four. Qed.
Print Assumptions C43_four_parameters.

(* in double arithmetic the last sample parameter can exceed the last knot: a line over [0, 0.1] (0.1 = 0x1.999999999999ap-4) can
   be written with two cells but not with three *)
Theorem C43_rounding_refuted : exists s f,
  spline_new (F := Fops) [[0; 0; 0x1.999999999999ap-4; 0x1.999999999999ap-4]%float] [1] [[0]; [1]]%float None = Ok s /\
  write_vtk (F := Fops) [AnyB 1 s] [[2]] = Ok f /\ write_vtk (F := Fops) [AnyB 1 s] [[3]] = Throw RangeError.
Proof. exact vtk_rounding. Qed.
Print Assumptions C43_rounding_refuted.

Example C43_example : exists b n : spline (Rops (fun x => x)),
  spline_new (F := Rops (fun x => x)) ex_knots ex_degs ex_points None = Ok b /\
  spline_new (F := Rops (fun x => x)) ex_knots ex_degs ex_points (Some ex_weights) = Ok n /\
  Forall good_job ([mkJob (AnyB 2 b) b [2; 3]] ++ mkJob (AnyN 2 n) n [1; 1] :: []) /\
  in_box (samples [1; 1]) [1; 0] /\ in_box [1; 1] [0; 0].
Proof. exact ex_jobs. Qed.
Example C43_example_cells : all_cells 0 [[2; 1]; [1; 1; 1]] =
  [[4; 0; 1; 4; 3]; [4; 1; 2; 5; 4]; [8; 6; 7; 9; 8; 10; 11; 13; 12]].
Proof. exact ex_cells. Qed.
Example C43_example_refused : exists s : spline (Rops (fun x => x)),
  ~ Forall is_spline [AnyB 2 s; AnyOther] /\ Forall is_spline [AnyB 2 s] /\
  ~ Forall2 (fun a (sc : list Z) => spline_dim a (zlen sc)) [AnyB 2 s] [[5]] /\
  Forall (fun p : any (spline (Rops (fun x => x))) * list Z => spline_dim (fst p) (zlen (snd p)) /\ 1 <= zlen (snd p) <= 4)
    [(AnyB 4 s, [1; 1; 1; 1])] /\ zlen [1; 1; 1; 1] = 4.
Proof. exact ex_refused. Qed.
