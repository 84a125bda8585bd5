(* C76: tangents at the corners of the domain, and splines without interior knots. *)
From Coq Require Import ZArith List Reals.
From Verif Require Import Base RSum MultiIndex KnotVecSpec BasisSpec Spaces SpacesSpec SplineEval SplineSpec TangentSpec TangentFacts BernsteinFacts TangentThms.
Import ListNotations.
Open Scope Z_scope.

(* The first derivative at a corner is a multiple of the vector to the next control point, for NURBS times the quotient of the weights. *)
Theorem C76_corner_tangent : forall (dz : R -> R) (s : spline (Rops dz)) (ends : list bool) (d : nat) (kv : list R) (p : Z) (e : bool) (dims : list Z),
  well_formed s -> Forall2 exact_ends (knots_of s) (degs_of s) -> length ends = length (knots_of s) -> valid_dims s dims ->
  nth_error (knots_of s) d = Some kv -> nth_error (degs_of s) d = Some p -> nth_error ends d = Some e -> 1 <= p ->
  let corner := map2 end_index (npts_of s) ends in
  let next := upd corner d (end_neighbour (nth d (npts_of s) 0) e) in
  weight s corner <> 0%R ->
  evaluate_derivative s (map2 end_value (knots_of s) ends) dims (unit_order (length (knots_of s)) d) =
  Ok (map (fun c => end_slope kv p e * (weight s next / weight s corner) * (coordinate s next c - coordinate s corner c))%R dims).
Proof. exact corner_tangent. Qed.
Print Assumptions C76_corner_tangent.

Example C76_corner_tangent_example : exists s : spline (Rops (fun x => x)), well_formed s /\
  Forall2 exact_ends (knots_of s) (degs_of s) /\ length [true; false] = length (knots_of s) /\ valid_dims s [0; 1] /\
  nth_error (knots_of s) 0 = Some [0; 0; 0; 1; 2; 2; 2]%R /\ nth_error (degs_of s) 0 = Some 2 /\
  let corner := map2 end_index (npts_of s) [true; false] in
  let next := upd corner 0 (end_neighbour (nth 0 (npts_of s) 0) true) in
  corner = [3; 0] /\ next = [2; 0] /\ weight s corner = 3%R /\ weight s next = 1%R /\
  end_slope [0; 0; 0; 1; 2; 2; 2]%R 2 true = (- 2)%R /\
  coordinate s corner 0 = 4%R /\ coordinate s next 0 = 3%R /\
  evaluate_derivative s [2; 0]%R [0] [1; 0] = Ok [(2 / 3)%R].
Proof. exact ex_tangent. Qed.

(* Without interior knots Evaluate gives the (rational) Bezier form. *)
Theorem C76_bezier_form : forall (dz : R -> R) (s : spline (Rops dz)) (us : list R) (dims : list Z),
  well_formed s -> is_bspline s \/ positive_weights s -> Forall2 bezier_knots (knots_of s) (degs_of s) ->
  in_domain s us -> valid_dims s dims ->
  let n := map (fun p => p + 1) (degs_of s) in
  evaluate s us dims = Ok (map (fun c =>
    lsum (fun idx => bernstein_product (knots_of s) (degs_of s) us idx * (weight s idx * coordinate s idx c))%R (all_indices n) /
    lsum (fun idx => bernstein_product (knots_of s) (degs_of s) us idx * weight s idx)%R (all_indices n))%R dims).
Proof. exact bezier_form. Qed.
Print Assumptions C76_bezier_form.

Example C76_bezier_form_example : exists b n : spline (Rops (fun x => x)),
  well_formed b /\ is_bspline b /\ well_formed n /\ positive_weights n /\
  Forall2 bezier_knots (knots_of b) (degs_of b) /\ Forall2 bezier_knots (knots_of n) (degs_of n) /\
  in_domain b [1/2; 2]%R /\ in_domain n [2; 1]%R /\ valid_dims b [0; 1] /\ valid_dims n [1] /\
  bernstein [0; 0; 0; 2; 2; 2]%R 2 1 1 = (1 / 2)%R.
Proof. exact ex_bezier. Qed.
