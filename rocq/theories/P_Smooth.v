(* Control points after refinement: C95. *)
From Coq Require Import ZArith List Reals.
From Verif Require Import Base KnotVecSpec Spaces SplineEval SplineEdit SplineSpec EditSpec MonotoneSpec SteepSpec SmoothSpec Smooth SmoothExamples.
Import ListNotations.
Open Scope Z_scope.

(* C95: the control points stay in the range of the old ones *)
Theorem C95_range : forall dz (s : spline (Rops dz)) new d kv p c lo hi,
  well_formed s -> regular s -> direction s d kv p -> all_insertable kv p new -> zlen kv + zlen new <= 2 ^ 31 ->
  0 <= c < ph_dim (sp_ph s) -> points_between s c lo hi -> exists s', refine_knots s new d = Ok s' /\ points_between s' c lo hi.
Proof. exact refine_between. Qed.
Print Assumptions C95_range.

(* C95: a coordinate that does not fall along direction e does not fall afterwards *)
Theorem C95_monotone : forall dz (s : spline (Rops dz)) new d kv p c e,
  well_formed s -> is_bspline s -> direction s d kv p -> all_insertable kv p new -> zlen kv + zlen new <= 2 ^ 31 ->
  0 <= c < ph_dim (sp_ph s) -> never_falls s e c -> exists s', refine_knots s new d = Ok s' /\ never_falls s' e c.
Proof. exact refine_falls. Qed.
Print Assumptions C95_monotone.

(* C95: the control polygon does not become steeper *)
Theorem C95_steepness : forall dz (s : spline (Rops dz)) new d kv p c e K,
  well_formed s -> is_bspline s -> Forall (fun p => 1 <= p) (degs_of s) -> direction s d kv p -> all_insertable kv p new -> zlen kv + zlen new <= 2 ^ 31 ->
  0 <= c < ph_dim (sp_ph s) -> polygon_within s e c K -> exists s', refine_knots s new d = Ok s' /\ polygon_within s' e c K.
Proof. exact refine_polygon. Qed.
Print Assumptions C95_steepness.

(* C95: InsertKnot with several copies is a refinement, so all of this holds for it *)
Theorem C95_copies : forall dz (s : spline (Rops dz)) d kv p u r,
  well_formed s -> regular s -> direction s d kv p -> insertable kv p u r -> 0 <= r -> zlen kv + r <= 2 ^ 31 ->
  all_insertable kv p (repeat u (Z.to_nat r)) /\ insert_knot s u d r = refine_knots s (repeat u (Z.to_nat r)) d.
Proof. exact copies_refine. Qed.
Print Assumptions C95_copies.

Example C95_example : exists b n : spline (Rops (fun x => x)), well_formed b /\ is_bspline b /\ Forall (fun p => 1 <= p) (degs_of b) /\ well_formed n /\ positive_weights n /\
  direction b 0 [0; 0; 0; 1; 2; 2; 2]%R 2 /\ direction n 0 [0; 0; 0; 1; 2; 2; 2]%R 2 /\ all_insertable [0; 0; 0; 1; 2; 2; 2]%R 2 [1; 1/2; 1]%R /\ insertable [0; 0; 0; 1; 2; 2; 2]%R 2 1%R 2 /\
  0 <= 0 < ph_dim (sp_ph b) /\ 0 <= 1 < ph_dim (sp_ph b) /\ 0 <= 1 < ph_dim (sp_ph n) /\
  never_falls b 0 0 /\ never_falls b 1 1 /\ polygon_within b 0 1 4%R /\ polygon_within b 1 1 3%R /\ points_between n 1 0%R 5%R.
Proof. exact ex_smooth. Qed.
