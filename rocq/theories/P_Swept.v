(* C60: swept surfaces. *)
From Coq Require Import ZArith List Bool Reals Floats.
From Verif Require Import Base RSum MultiIndex MultiIndexSpec KnotVecSpec SpacesSpec Spaces SplineEval SplineSpec Swept SweptSpec SweptThms SweptExamples.
Import ListNotations.
Open Scope Z_scope.

(* A section curve is swept along a trajectory that starts at the parameter 0.  If every one of the n sections has a normal (the
   predicate normals), the surface exists and is well formed.  Its knots are the means of neighbouring parameters.  Its control
   points are those of the section curve, stretched and put into the right-handed orthonormal frame at the section.  Its weights are
   products.  At both ends the surface shows the section curve in the frame there. *)
Theorem C60_swept : forall dz (t c : spline (Rops dz)) kt pt n scaling z, well_formed t -> well_formed c -> knots_of t = [kt] -> degs_of t = [pt] -> length (knots_of c) = 1%nat ->
  positive_weights t -> positive_weights c -> ph_dim (sp_ph t) = 3 -> 3 <= ph_dim (sp_ph c) -> first_knot kt = 0%R ->
  1 <= pt -> pt + 1 <= n <= zlen scaling -> n * total (npts_of c) < 2 ^ 64 -> (tolerance * IZR (n - 1) <= final_knot kt)%R ->
  normals t (final_knot kt) n n z ->
  let last := final_knot kt in let f i := nth (Z.to_nat i) scaling origin in
  exists s kv, swept_surface t c n scaling = Ok s /\ well_formed s /\ positive_weights s /\
    knots_of s = kv :: knots_of c /\ degs_of s = pt :: degs_of c /\ npts_of s = n :: npts_of c /\ ph_dim (sp_ph s) = 3 /\
    (forall i, 0 <= i < n + pt + 1 -> knot kv (Z.to_nat i) = mean_knot pt n (last / IZR (n - 1)) i) /\
    (forall i, 0 <= i < n -> let x := unit_of (derivative_at t 1 (sample last n i)) in orthonormal x (outer (z i) x) (z i)) /\
    (forall i j, 0 <= i < n -> 0 <= j < total (npts_of c) ->
       control_point s [i; j] = section_at t last n z (f i) i (control_point c [j]) /\
       weight s [i; j] = (weight c [j] * weight_function t [sample last n i])%R) /\
    (forall v, in_domain c [v] ->
       evaluate s [0%R; v] [0; 1; 2] = Ok (listed (section_at t last n z (f 0) 0 (at_point c v))) /\
       evaluate s [last; v] [0; 1; 2] = Ok (listed (section_at t last n z (f (n - 1)) (n - 1) (at_point c v)))).
Proof. exact @swept. Qed.
Print Assumptions C60_swept.

Example C60_swept_example : forall dz : R -> R, exists (t c : spline (Rops dz)) (z : Z -> space_point),
  spline_new (F := Rops dz) [[0; 0; 0; 1; 1; 1]%R] [2] [[0; 0; 0]; [1; 0; 0]; [1; 1; 0]]%R (Some [1; 1; 1]%R) = Ok t /\
  spline_new (F := Rops dz) [[0; 0; 1; 1]%R] [1] [[0; -(1); 0]; [0; 1; 1]]%R (Some [1; 2]%R) = Ok c /\
  well_formed t /\ well_formed c /\ knots_of t = [[0; 0; 0; 1; 1; 1]%R] /\ degs_of t = [2] /\ length (knots_of c) = 1%nat /\
  positive_weights t /\ positive_weights c /\ ph_dim (sp_ph t) = 3 /\ 3 <= ph_dim (sp_ph c) /\ first_knot [0; 0; 0; 1; 1; 1]%R = 0%R /\
  4 * total (npts_of c) < 2 ^ 64 /\ (tolerance * IZR (4 - 1) <= final_knot [0; 0; 0; 1; 1; 1]%R)%R /\
  normals t (final_knot [0; 0; 0; 1; 1; 1]%R) 4 4 z /\ z 3 = (0, 0, 1)%R.
Proof. exact @ex_swept. Qed.
Print Assumptions C60_swept_example.

(* Neighbouring sections whose normals are orthogonal are rejected. *)
Theorem C60_swept_jump : forall dz (t c : spline (Rops dz)) kt n scaling z k, well_formed t -> well_formed c -> knots_of t = [kt] -> length (knots_of c) = 1%nat ->
  positive_weights t -> positive_weights c -> ph_dim (sp_ph t) = 3 -> 3 <= ph_dim (sp_ph c) -> first_knot kt = 0%R -> n <= zlen scaling ->
  1 <= k < n -> normals t (final_knot kt) n k z ->
  let u := sample (final_knot kt) n k in let b := outer (derivative_at t 1 u) (derivative_at t 2 u) in
  b <> origin -> inner (unit_of b) (z (k - 1)) = 0%R ->
  swept_surface t c n scaling = Throw RuntimeError.
Proof. exact @swept_jump. Qed.
Print Assumptions C60_swept_jump.

Example C60_swept_jump_example : forall dz : R -> R, exists (t c : spline (Rops dz)) (z : Z -> space_point),
  spline_new (F := Rops dz) [[0; 0; 0; 1; 1; 2; 2; 2]%R] [2] [[0; 0; 0]; [1; 0; 0]; [1; 1; 0]; [1; 2; 0]; [1; 2; 1]]%R (Some [1; 1; 1; 1; 1]%R) = Ok t /\
  spline_new (F := Rops dz) [[0; 0; 1; 1]%R] [1] [[0; -(1); 0]; [0; 1; 1]]%R (Some [1; 2]%R) = Ok c /\
  well_formed t /\ well_formed c /\ knots_of t = [[0; 0; 0; 1; 1; 2; 2; 2]%R] /\ length (knots_of c) = 1%nat /\
  positive_weights t /\ positive_weights c /\ ph_dim (sp_ph t) = 3 /\ 3 <= ph_dim (sp_ph c) /\ first_knot [0; 0; 0; 1; 1; 2; 2; 2]%R = 0%R /\
  normals t (final_knot [0; 0; 0; 1; 1; 2; 2; 2]%R) 3 1 z /\
  let u := sample (final_knot [0; 0; 0; 1; 1; 2; 2; 2]%R) 3 1 in let b := outer (derivative_at t 1 u) (derivative_at t 2 u) in
  b <> origin /\ inner (unit_of b) (z (1 - 1)) = 0%R.
Proof. exact @ex_jump. Qed.
Print Assumptions C60_swept_jump_example.

(* A trajectory that starts after the parameter 0 cannot be swept along. *)
Theorem C60_swept_late : forall dz (t c : spline (Rops dz)) kt n scaling, well_formed t -> well_formed c -> knots_of t = [kt] -> length (knots_of c) = 1%nat ->
  3 <= ph_dim (sp_ph t) -> (0 < first_knot kt)%R -> 1 <= n -> swept_surface t c n scaling = Throw RangeError.
Proof. exact @swept_late. Qed.
Print Assumptions C60_swept_late.

Example C60_swept_late_example : forall dz : R -> R, exists t c : spline (Rops dz),
  spline_new (F := Rops dz) [[1; 1; 2; 2]%R] [1] [[0; 0; 0]; [1; 0; 0]]%R (Some [1; 1]%R) = Ok t /\
  spline_new (F := Rops dz) [[0; 0; 1; 1]%R] [1] [[0; -(1); 0]; [0; 1; 1]]%R (Some [1; 2]%R) = Ok c /\
  well_formed t /\ well_formed c /\ knots_of t = [[1; 1; 2; 2]%R] /\ length (knots_of c) = 1%nat /\ 3 <= ph_dim (sp_ph t) /\
  (0 < first_knot [1; 1; 2; 2]%R)%R.
Proof. exact @ex_late. Qed.
Print Assumptions C60_swept_late_example.

(* The knot vector from averages of n parameters: p + 1 zeros, the means of p neighbours, p + 1 times the last parameter. *)
Theorem C60_averages : forall dz (coords : list R) p n, 1 <= p -> p + 1 <= n -> n = zlen coords ->
  exists kv, averaged_knots (F := Rops dz) coords p n = Ok kv /\ zlen kv = n + p + 1 /\
    forall i, 0 <= i < n + p + 1 -> knot kv (Z.to_nat i) =
      if i <=? p then 0%R else if i <? n then (lsum (fun j => nth (Z.to_nat j) coords 0%R) (zseq (i - p) (Z.to_nat p)) / IZR p)%R else last coords 0%R.
Proof. exact averages. Qed.
Print Assumptions C60_averages.

Example C60_averages_example : averaged_knots (F := Rops (fun x => x)) [0; 1; 2; 5; 9]%R 2 5 = Ok [0; 0; 0; 3 / 2; 7 / 2; 9; 9; 9]%R.
Proof. exact ex_averages. Qed.
Print Assumptions C60_averages_example.

(* A straight trajectory need not have a normal in the sense above: then no coordinate of the surface is a number (doubles). *)
Theorem C60_straight_refuted : exists (t c s : spline Fops),
  spline_new (F := Fops) [[0; 0; 1; 1]%float] [1] [[0; 0; 1]; [1; 0; 1]]%float (Some [1; 1]%float) = Ok t /\
  spline_new (F := Fops) [[0; 0; 1; 1]%float] [1] [[0; 0; 0]; [0; 1; 0]]%float (Some [1; 1]%float) = Ok c /\
  swept_surface (F := Fops) t c 2 [(1, 1, 1); (1, 1, 1)]%float = Ok s /\
  zlen (ph_cps (sp_ph s)) = 12 /\ forall x : float, In x (ph_cps (sp_ph s)) -> (x =? x)%float = false.
Proof. exact swept_straight. Qed.
Print Assumptions C60_straight_refuted.

(* Normals that reverse from one section to the next are not rejected: the section is turned over between the second and the
   third of four sections (doubles). *)
Theorem C60_flip_refuted : exists (t c s : spline Fops),
  spline_new (F := Fops) [[0; 0; 0; 0; 1; 1; 1; 1]%float] [3] [[0; 0; 0]; [1; 1; 0]; [2; -1; 0]; [3; 0; 0]]%float (Some [1; 1; 1; 1]%float) = Ok t /\
  spline_new (F := Fops) [[0; 0; 1; 1]%float] [1] [[0; 0; 0]; [0; 0; 1]]%float (Some [1; 1]%float) = Ok c /\
  swept_surface (F := Fops) t c 4 [(1, 1, 1); (1, 1, 1); (1, 1, 1); (1, 1, 1)]%float = Ok s /\
  (nth (Z.to_nat (3 * (1 + 4 * 1) + 2)) (ph_cps (sp_ph s)) 0 =? -1)%float = true /\ (nth (Z.to_nat (3 * (2 + 4 * 1) + 2)) (ph_cps (sp_ph s)) 0 =? 1)%float = true.
Proof. exact swept_flip. Qed.
Print Assumptions C60_flip_refuted.

(* In doubles the last parameter can lie beyond the last knot: then the surface is rejected for rounding alone. *)
Theorem C60_rounding_refuted : exists (t c : spline Fops),
  spline_new (F := Fops) [[0; 0; 0; 7; 7; 7]%float] [2] [[0; 0; 0]; [1; 0; 0]; [1; 1; 0]]%float (Some [1; 1; 1]%float) = Ok t /\
  spline_new (F := Fops) [[0; 0; 1; 1]%float] [1] [[0; 0; 0]; [0; 1; 0]]%float (Some [1; 1]%float) = Ok c /\
  swept_surface (F := Fops) t c 26 (repeat (1, 1, 1)%float (Z.to_nat 26)) = Throw RangeError.
Proof. exact swept_rounding. Qed.
Print Assumptions C60_rounding_refuted.
