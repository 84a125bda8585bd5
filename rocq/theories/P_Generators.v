(* Properties C46, C47, C49: translational surfaces, the square generator, linear precision. *)
From Coq Require Import ZArith List Lia Reals Lra Floats.
From Verif Require Import Base MultiIndex RSum KnotVecSpec Spaces SplineEval SplineSpec
  Generators GeneratorsSpec GeneratorsFacts GeneratorsThms GrevilleSpec GrevilleFacts.
Import ListNotations.
Open Scope Z_scope.

(* C46.  The surface of a trajectory t and a cross section c. *)
Theorem C46_sum : forall dz (t c : spline (Rops dz)), well_formed t -> well_formed c ->
  length (knots_of t) = 1%nat -> length (knots_of c) = 1%nat ->
  positive_weights t -> positive_weights c ->
  ph_dim (sp_ph t) <= ph_dim (sp_ph c) -> total (npts_of t) * total (npts_of c) < 2 ^ 64 ->
  exists s, translational_surface t c = Ok s /\ well_formed s /\ positive_weights s /\
    knots_of s = knots_of t ++ knots_of c /\ degs_of s = degs_of t ++ degs_of c /\ ph_dim (sp_ph s) = ph_dim (sp_ph t) /\
    forall u v dims, in_domain t [u] -> in_domain c [v] -> valid_dims t dims ->
      exists a b, evaluate t [u] dims = Ok a /\ evaluate c [v] dims = Ok b /\ evaluate s [u; v] dims = Ok (map2 Rplus a b).
Proof. exact @translational. Qed.
Print Assumptions C46_sum.

(* a cross section with fewer coordinates is read out of bounds *)
Theorem C46_short_section : forall dz (t c : spline (Rops dz)), well_formed t -> well_formed c ->
  length (knots_of t) = 1%nat -> length (knots_of c) = 1%nat ->
  ph_dim (sp_ph c) < ph_dim (sp_ph t) -> translational_surface t c = UB.
Proof. exact @translational_short. Qed.
Print Assumptions C46_short_section.

Example C46_example : well_formed ex_trajectory /\ well_formed ex_section /\ positive_weights ex_trajectory /\ positive_weights ex_section /\
  length (knots_of ex_trajectory) = 1%nat /\ length (knots_of ex_section) = 1%nat /\
  ph_dim (sp_ph ex_trajectory) <= ph_dim (sp_ph ex_section) /\ total (npts_of ex_trajectory) * total (npts_of ex_section) < 2 ^ 64 /\
  in_domain ex_trajectory [1/2]%R /\ in_domain ex_section [1/3]%R /\ valid_dims ex_trajectory [0; 1].
Proof. exact ex_curves. Qed.

(* C47 *)
Theorem C47_shape : forall dz p n, 1 <= p -> 2 * p + 2 <= n < 2 ^ 31 ->
  exists s, create_square (F := Rops dz) p n = Ok s /\ well_formed s /\ is_bspline s /\ ph_dim (sp_ph s) = 2 /\
    degs_of s = [p; p] /\ npts_of s = [n - p - 1; n - p - 1] /\
    (exists kv, knots_of s = [kv; kv] /\ zlen kv = n /\ forall i, 0 <= i < n -> knot kv (Z.to_nat i) = uniform_knot p n i) /\
    forall x y, 0 <= x < n - p - 1 -> 0 <= y < n - p - 1 ->
      coordinate s [x; y] 0 = spread (n - p - 1) x /\ coordinate s [x; y] 1 = spread (n - p - 1) y.
Proof. exact @square_shape. Qed.
Print Assumptions C47_shape.

Theorem C47_corners : forall dz p n (s : spline (Rops dz)), 1 <= p -> 2 * p + 2 <= n < 2 ^ 31 -> create_square p n = Ok s ->
  evaluate s [0; 0]%R [0; 1] = Ok [-1; -1]%R /\ evaluate s [1; 0]%R [0; 1] = Ok [1; -1]%R /\
  evaluate s [0; 1]%R [0; 1] = Ok [-1; 1]%R /\ evaluate s [1; 1]%R [0; 1] = Ok [1; 1]%R.
Proof. exact @square_corners. Qed.
Print Assumptions C47_corners.

(* the first coordinate depends on u only, the second is the same function of v; all points are inside the square *)
Theorem C47_product : forall dz p n (s : spline (Rops dz)) u v, 1 <= p -> 2 * p + 2 <= n < 2 ^ 31 -> create_square p n = Ok s ->
  (0 <= u <= 1)%R -> (0 <= v <= 1)%R ->
  exists kv, knots_of s = [kv; kv] /\
    evaluate s [u; v] [0; 1] = Ok [spread_curve kv p (n - p - 1) u; spread_curve kv p (n - p - 1) v] /\
    (-1 <= spread_curve kv p (n - p - 1) u <= 1)%R /\ (-1 <= spread_curve kv p (n - p - 1) v <= 1)%R.
Proof. exact @square_product. Qed.
Print Assumptions C47_product.

(* degree 1 or no interior knots (the default square): the map is affine *)
Theorem C47_affine : forall dz p n (s : spline (Rops dz)) u v, 1 <= p -> 2 * p + 2 <= n < 2 ^ 31 -> create_square p n = Ok s ->
  p = 1 \/ n = 2 * p + 2 -> (0 <= u <= 1)%R -> (0 <= v <= 1)%R -> evaluate s [u; v] [0; 1] = Ok [2 * u - 1; 2 * v - 1]%R.
Proof. exact @square_affine. Qed.
Print Assumptions C47_affine.

Theorem C47_too_few_knots : forall dz p n, n < 2 * p + 2 -> create_square (F := Rops dz) p n = UB.
Proof. exact @square_too_few. Qed.
Print Assumptions C47_too_few_knots.

(* in double arithmetic the corner (1,1) can be missed *)
Theorem C47_rounding_refuted : exists s x y, create_square (F := Fops) 1 6 = Ok s /\
  evaluate s [1; 1]%float [0; 1] = Ok [x; y] /\ (x <? 1)%float = true /\ (y <? 1)%float = true.
Proof. exact square_rounding. Qed.
Print Assumptions C47_rounding_refuted.

Example C47_example : exists s : spline (Rops (fun x => x)), create_square 2 9 = Ok s /\ 1 <= 2 /\ 2 * 2 + 2 <= 9 < 2 ^ 31.
Proof. destruct (C47_shape (fun x => x) 2 9 ltac:(lia) ltac:(lia)) as (s & E & _). exists s. split; [exact E | lia]. Qed.

(* C49: control points that are an affine function of the knot means are reproduced *)
Theorem C49_linear_precision : forall dz (s : spline (Rops dz)) us c a bs, well_formed s -> is_bspline s -> in_domain s us ->
  0 <= c < ph_dim (sp_ph s) -> Forall (fun p => 1 <= p) (degs_of s) -> length bs = length (knots_of s) ->
  (forall idx, In idx (all_indices (npts_of s)) -> coordinate s idx c = a + greville_combination (knots_of s) (degs_of s) bs idx)%R ->
  evaluate s us [c] = Ok [a + combination bs us]%R.
Proof. exact @linear_precision. Qed.
Print Assumptions C49_linear_precision.

Example C49_example : well_formed ex_flat /\ is_bspline ex_flat /\ in_domain ex_flat [7/4]%R /\
  Forall (fun p => 1 <= p) (degs_of ex_flat) /\
  (forall idx, In idx (all_indices (npts_of ex_flat)) -> coordinate ex_flat idx 0 = 0 + greville_combination (knots_of ex_flat) (degs_of ex_flat) [1]%R idx)%R.
Proof. exact ex_flat_ok. Qed.
