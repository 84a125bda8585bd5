(* C75: the control points are determined by the map, and each one acts on its support only. *)
From Coq Require Import ZArith List Reals.
From Verif Require Import Base RSum MultiIndex MultiIndexSpec KnotVecSpec Spaces SpacesSpec SplineEval SplineSpec UniqueSpec UniqueFacts UniqueThms.
Import ListNotations.
Open Scope Z_scope.

(* Two splines over the same knots that agree between two neighbouring knots have the same control points there. *)
Theorem C75_local_points : forall (dz : R -> R) (s s' : spline (Rops dz)) (ks : list Z) (c : Z),
  well_formed s -> well_formed s' -> sp_ps s' = sp_ps s ->
  ph_dim (sp_ph s') = ph_dim (sp_ph s) -> ph_wts (sp_ph s') = ph_wts (sp_ph s) -> is_bspline s \/ positive_weights s ->
  0 <= c < ph_dim (sp_ph s) -> (exists us, inside_spans (knots_of s) ks us) ->
  (forall us, inside_spans (knots_of s) ks us -> evaluate s' us [c] = evaluate s us [c]) ->
  forall idx, used_there (degs_of s) ks idx -> coordinate s' idx c = coordinate s idx c.
Proof. exact local_points. Qed.
Print Assumptions C75_local_points.

Example C75_local_points_example : exists s s' : spline (Rops (fun x => x)),
  well_formed s /\ well_formed s' /\ sp_ps s' = sp_ps s /\ ph_dim (sp_ph s') = ph_dim (sp_ph s) /\
  ph_wts (sp_ph s') = ph_wts (sp_ph s) /\ (is_bspline s \/ positive_weights s) /\ 0 <= 1 < ph_dim (sp_ph s) /\
  (exists us, inside_spans (knots_of s) [2; 1] us) /\
  (forall us, inside_spans (knots_of s) [2; 1] us -> evaluate s' us [1] = evaluate s us [1]) /\
  used_there (degs_of s) [2; 1] [2; 1] /\
  coordinate s' [3; 0] 1 <> coordinate s [3; 0] 1 /\
  Forall2 full_support (knots_of s) (degs_of s).
Proof. exact ex_unique. Qed.

(* If every control point has a support, two splines that agree everywhere have the same control points. *)
Theorem C75_points : forall (dz : R -> R) (s s' : spline (Rops dz)),
  well_formed s -> well_formed s' -> sp_ps s' = sp_ps s ->
  ph_dim (sp_ph s') = ph_dim (sp_ph s) -> ph_wts (sp_ph s') = ph_wts (sp_ph s) -> is_bspline s \/ positive_weights s ->
  Forall2 full_support (knots_of s) (degs_of s) ->
  (forall us c, in_domain s us -> 0 <= c < ph_dim (sp_ph s) -> evaluate s' us [c] = evaluate s us [c]) ->
  ph_cps (sp_ph s') = ph_cps (sp_ph s).
Proof. exact all_points. Qed.
Print Assumptions C75_points.

(* Without a support the claim fails: the middle one of three equal knots of a curve of degree 1. *)
Theorem C75_points_unsupported : exists s s' : spline (Rops (fun x => x)),
  well_formed s /\ well_formed s' /\ is_bspline s /\ sp_ps s' = sp_ps s /\
  ph_dim (sp_ph s') = ph_dim (sp_ph s) /\ ph_wts (sp_ph s') = ph_wts (sp_ph s) /\
  (forall us c, in_domain s us -> 0 <= c < ph_dim (sp_ph s) -> evaluate s' us [c] = evaluate s us [c]) /\
  ph_cps (sp_ph s') <> ph_cps (sp_ph s).
Proof. exact lost_point. Qed.
Print Assumptions C75_points_unsupported.

(* Moving one control point moves the value by its rational basis function times the displacement. *)
Theorem C75_moved_point : forall (dz : R -> R) (s s' : spline (Rops dz)) (us : list R) (c : Z) (idx : list Z),
  well_formed s -> well_formed s' -> sp_ps s' = sp_ps s ->
  ph_dim (sp_ph s') = ph_dim (sp_ph s) -> ph_wts (sp_ph s') = ph_wts (sp_ph s) -> is_bspline s \/ positive_weights s ->
  in_domain s us -> 0 <= c < ph_dim (sp_ph s) -> in_box (npts_of s) idx ->
  (forall j, in_box (npts_of s) j -> j <> idx -> coordinate s' j c = coordinate s j c) ->
  exists v v' : R, evaluate s us [c] = Ok [v] /\ evaluate s' us [c] = Ok [v'] /\
    (v' = v + basis_product (knots_of s) (degs_of s) us idx * weight s idx / weight_function s us *
              (coordinate s' idx c - coordinate s idx c))%R.
Proof. exact moved_point. Qed.
Print Assumptions C75_moved_point.

(* Outside the support of that control point nothing changes. *)
Theorem C75_far_point : forall (dz : R -> R) (s s' : spline (Rops dz)) (us : list R) (c : Z) (idx : list Z),
  well_formed s -> well_formed s' -> sp_ps s' = sp_ps s ->
  ph_dim (sp_ph s') = ph_dim (sp_ph s) -> ph_wts (sp_ph s') = ph_wts (sp_ph s) -> is_bspline s \/ positive_weights s ->
  in_domain s us -> 0 <= c < ph_dim (sp_ph s) -> in_box (npts_of s) idx ->
  (forall j, in_box (npts_of s) j -> j <> idx -> coordinate s' j c = coordinate s j c) ->
  off_support (knots_of s) (degs_of s) us idx ->
  evaluate s' us [c] = evaluate s us [c].
Proof. exact far_point. Qed.
Print Assumptions C75_far_point.

Example C75_moved_point_example : exists s s' : spline (Rops (fun x => x)),
  well_formed s /\ well_formed s' /\ sp_ps s' = sp_ps s /\ ph_dim (sp_ph s') = ph_dim (sp_ph s) /\
  ph_wts (sp_ph s') = ph_wts (sp_ph s) /\ (is_bspline s \/ positive_weights s) /\ 0 <= 1 < ph_dim (sp_ph s) /\
  in_domain s [3/2; 1/4]%R /\ in_domain s [1/2; 1/4]%R /\ in_box (npts_of s) [3; 0] /\
  (forall j, in_box (npts_of s) j -> j <> [3; 0] -> coordinate s' j 1 = coordinate s j 1) /\
  off_support (knots_of s) (degs_of s) [1/2; 1/4]%R [3; 0] /\ ~ off_support (knots_of s) (degs_of s) [3/2; 1/4]%R [3; 0].
Proof. exact ex_unique_move. Qed.
