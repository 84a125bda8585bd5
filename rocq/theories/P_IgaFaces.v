(* Properties of the boundary splines and of the Neumann boundary integrals: C57. *)
From Coq Require Import ZArith List Bool Reals Floats.
From Verif Require Import Base RSum MultiIndex MultiIndexSpec Spaces SplineEval SplineSpec Iga IgaSpec IgaSystem IgaSystemSpec
  IgaFaceThms IgaNeumannThms IgaSystemExamples IgaFaceExamples.
Import ListNotations.
Open Scope Z_scope.

(* C57: the connectivity of a boundary lists the numbers of the control points with the first or last index *)
Theorem C57_connectivity : forall npts d n, pos_lens npts -> nth_error npts d = Some n -> exists lo hi,
  boundary_connectivity npts d = Ok (lo, hi) /\
  zlen lo = total (remove_at d npts) /\ zlen hi = total (remove_at d npts) /\
  forall js, in_box (remove_at d npts) js ->
    nth_error lo (Z.to_nat (position (remove_at d npts) js)) = Some (position npts (put_at d 0 js)) /\
    nth_error hi (Z.to_nat (position (remove_at d npts) js)) = Some (position npts (put_at d (n - 1) js)).
Proof. exact connectivity. Qed.
Print Assumptions C57_connectivity.

(* with equal control point counts every boundary spline has the control points and weights of its face, and
   with equal knots and degrees it is the face *)
Theorem C57_boundary_splines : forall (dz : R -> R) (s : spline (Rops dz)) n, well_formed s -> Forall2 exact_ends (knots_of s) (degs_of s) -> total (npts_of s) < 2 ^ 64 ->
  Forall (eq n) (npts_of s) -> exists bs,
  boundary_splines s = Ok bs /\ length bs = length (degs_of s) /\
  forall d a b, nth_error bs d = Some (a, b) ->
  well_formed a /\ well_formed b /\ face_points_of s d false a /\ face_points_of s d true b /\
  knots_of a = firstn (pred (length (degs_of s))) (knots_of s) /\ knots_of b = firstn (pred (length (degs_of s))) (knots_of s) /\
  (remove_at d (knots_of s) = firstn (pred (length (degs_of s))) (knots_of s) ->
   remove_at d (degs_of s) = firstn (pred (length (degs_of s))) (degs_of s) -> face_of s d false a /\ face_of s d true b).
Proof. exact @boundary_faces. Qed.
Print Assumptions C57_boundary_splines.

(* with different counts no Neumann condition can be used *)
Theorem C57_different_counts : forall (dz : R -> R) (s : spline (Rops dz)) d, well_formed s -> total (npts_of s) < 2 ^ 64 ->
  (d < length (npts_of s))%nat -> nth d (npts_of s) 0 <> last (npts_of s) 0 ->
  boundary_splines s = Throw RuntimeError /\
  forall mdet rl v neumann, right_side_neumann (F := Rops dz) mdet s rl v neumann = Throw RuntimeError.
Proof. exact @boundary_rejected. Qed.
Print Assumptions C57_different_counts.

(* with equal counts but different knots the boundary spline is not the face: at 0.5 it has second coordinate
   0.5 where the surface has 1 *)
Theorem C57_face_refuted : exists (s : spline Fops) a b rest x y,
  uneven = Ok s /\ boundary_splines (F := Fops) s = Ok ((a, b) :: rest) /\
  evaluate (F := Fops) a [0.5]%float [0; 1] = Ok x /\ evaluate (F := Fops) s [0; 0.5]%float [0; 1] = Ok y /\
  (nth 1 x 0 =? 0.5)%float = true /\ (nth 1 y 0 =? 1)%float = true.
Proof. exact faces_differ. Qed.
Print Assumptions C57_face_refuted.

(* the Neumann condition adds to each control point of a face the integral of its basis function times the flux *)
Theorem C57_neumann : forall (dz : R -> R) (mdet : list (list R) -> R) (s : spline (Rops dz)) rl kv p,
  well_formed s -> regular s -> Forall2 exact_ends (knots_of s) (degs_of s) -> total (npts_of s) < 2 ^ 64 -> inner_rule rl ->
  (2 <= length (degs_of s))%nat -> Forall (eq kv) (knots_of s) -> Forall (eq p) (degs_of s) -> exists bs,
  boundary_splines s = Ok bs /\ length bs = length (degs_of s) /\
  (forall d a b, nth_error bs d = Some (a, b) -> face_of s d false a /\ face_of s d true b) /\
  forall neumann v, length neumann = length (degs_of s) ->
  (forall d g h, nth_error neumann d = Some (g, h) -> zlen g = total (remove_at d (npts_of s)) /\ zlen h = total (remove_at d (npts_of s))) ->
  zlen v = total (npts_of s) -> exists v' T,
  right_side_neumann (F := Rops dz) mdet s rl v neumann = Ok v' /\ zlen v' = total (npts_of s) /\
  (forall d a b g h js, nth_error bs d = Some (a, b) -> nth_error neumann d = Some (g, h) -> in_box (remove_at d (npts_of s)) js ->
     face_load mdet rl a g js (T d false js) /\ face_load mdet rl b h js (T d true js)) /\
  forall idx, in_box (npts_of s) idx ->
  component v' (position (npts_of s) idx) =
  (component v (position (npts_of s) idx) +
   lsum (fun d => (if (nth d idx 0 =? 0)%Z then T d false (remove_at d idx) else 0) +
                  (if (nth d idx 0 =? nth d (npts_of s) 0 - 1)%Z then T d true (remove_at d idx) else 0))
        (seq 0 (length (degs_of s))))%R.
Proof. exact @neumann_vector. Qed.
Print Assumptions C57_neumann.

Theorem C57_neumann_curve : forall (dz : R -> R) (mdet : list (list R) -> R) (s : spline (Rops dz)) rl v neumann, length (degs_of s) = 1%nat ->
  right_side_neumann (F := Rops dz) mdet s rl v neumann = Throw RuntimeError.
Proof. exact @neumann_curve. Qed.
Print Assumptions C57_neumann_curve.

Example C57_example : forall dz, exists s : spline (Rops dz),
  spline_new (F := Rops dz) patch_knots [1; 1] patch_points None = Ok s /\ well_formed s /\ regular s /\
  Forall2 exact_ends (knots_of s) (degs_of s) /\ total (npts_of s) < 2 ^ 64 /\ inner_rule middle_rule /\
  (2 <= length (degs_of s))%nat /\ Forall (eq [0; 0; 1; 1]%R) (knots_of s) /\ Forall (eq 1) (degs_of s) /\ Forall (eq 2) (npts_of s) /\
  (forall d g h, nth_error [([1; 2], [3; 4]); ([5; 6], [7; 8])]%R d = Some (g, h) ->
     zlen g = total (remove_at d (npts_of s)) /\ zlen h = total (remove_at d (npts_of s))) /\
  zlen [0; 0; 0; 0]%R = total (npts_of s) /\ in_box (npts_of s) [1; 0] /\ position (npts_of s) [1; 0] = 1.
Proof. exact ex_faces. Qed.
Example C57_example_counts : forall dz, exists s : spline (Rops dz), well_formed s /\ total (npts_of s) < 2 ^ 64 /\
  (0 < length (npts_of s))%nat /\ nth 0 (npts_of s) 0 <> last (npts_of s) 0.
Proof. exact ex_rejected. Qed.
