(* Resolution of VTK files: C94. *)
From Coq Require Import ZArith List Reals.
From Verif Require Import Base RSum Spaces SplineEval SplineSpec Convert Vtk VtkSpec SteepSpec SteepExamples ResolveSpec Resolve ResolveExamples.
Import ListNotations.
Open Scope Z_scope.

(* C94: for every parameter of a B-spline in the file there is a cell of this spline whose corner points are all as close to the
   point of the spline as the control polygon and the lengths of the cells allow *)
Theorem C94_cells_follow : forall dz (pre : list (@job dz)) j post us (Ks : Z -> list R),
  Forall good_job (pre ++ j :: post) -> is_bspline (content j) -> Forall (fun p => 1 <= p) (degs_of (content j)) -> in_domain (content j) us ->
  (forall c, Forall (fun K => 0 <= K)%R (Ks c)) ->
  (forall c d, 0 <= c < ph_dim (sp_ph (content j)) -> (d < length us)%nat -> polygon_within (content j) d c (nth d (Ks c) 0%R)) ->
  exists f n line, write_vtk (F := Rops dz) (map object (pre ++ j :: post)) (map divisions (pre ++ j :: post)) = Ok f /\
    zlen (all_cells 0 (map divisions pre)) <= n < zlen (all_cells 0 (map divisions pre)) + size (divisions j) /\
    nth_error (vf_cells f) (Z.to_nat n) = Some line /\ zlen (tl line) = hd 0 line /\
    Forall (fun r => exists pt, nth_error (vf_rows f) (Z.to_nat r) = Some pt /\
      forall c, 0 <= c < 3 -> c < ph_dim (sp_ph (content j)) -> exists x, evaluate (content j) us [c] = Ok [x] /\
        (Rabs (nth (Z.to_nat c) pt 0 - x) <= lsum (fun d => nth d (Ks c) 0 * cell_length (knots_of (content j)) (divisions j) d) (seq 0 (length us)))%R) (tl line).
Proof. exact @cells_follow. Qed.
Print Assumptions C94_cells_follow.

Example C94_example : exists b : spline (Rops (fun x => x)), Forall good_job ([] ++ mkJob (AnyB 2 b) b [2; 3] :: []) /\
  is_bspline b /\ Forall (fun p => 1 <= p) (degs_of b) /\ in_domain b [(1/2)%R; (1/4)%R] /\ (forall c, Forall (fun K => 0 <= K)%R (ex_slopes c)) /\
  (forall c d, 0 <= c < ph_dim (sp_ph b) -> (d < 2)%nat -> polygon_within b d c (nth d (ex_slopes c) 0%R)) /\
  lsum (fun d => nth d (ex_slopes 1) 0 * cell_length (knots_of b) [2; 3]%Z d)%R (seq 0 2) = 5%R.
Proof. exact ex_resolve. Qed.
