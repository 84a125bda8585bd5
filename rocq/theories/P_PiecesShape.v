(* Control points of the pieces of a subdivision: C97. *)
From Coq Require Import ZArith List Reals.
From Verif Require Import Base MultiIndex MultiIndexSpec KnotVecSpec Spaces SpacesSpec SplineEval SplineEdit SplineSpec EditSpec MonotoneSpec SteepSpec SmoothSpec PiecesShape PiecesShapeExamples.
Import ListNotations.
Open Scope Z_scope.

(* C97: the control points of both pieces and of the receiver stay in the range of the old ones *)
Theorem C97_range : forall dz (s : spline (Rops dz)) d kv p u c lo hi,
  well_formed s -> regular s -> direction s d kv p -> insertable kv p u 0 -> zlen kv < 2 ^ 30 ->
  total (upd (npts_of s) d (nth d (npts_of s) 0 + p + 1)) < 2 ^ 64 -> 0 <= c < ph_dim (sp_ph s) -> points_between s c lo hi ->
  exists s1 s2 s', subdivide s u d = Ok (s1, s2, s') /\ points_between s1 c lo hi /\ points_between s2 c lo hi /\ points_between s' c lo hi.
Proof. exact pieces_between. Qed.
Print Assumptions C97_range.

(* C97: a coordinate that does not fall along direction e falls in no piece *)
Theorem C97_monotone : forall dz (s : spline (Rops dz)) d kv p u c e,
  well_formed s -> is_bspline s -> direction s d kv p -> insertable kv p u 0 -> zlen kv < 2 ^ 30 ->
  total (upd (npts_of s) d (nth d (npts_of s) 0 + p + 1)) < 2 ^ 64 -> 0 <= c < ph_dim (sp_ph s) -> never_falls s e c ->
  exists s1 s2 s', subdivide s u d = Ok (s1, s2, s') /\ never_falls s1 e c /\ never_falls s2 e c /\ never_falls s' e c.
Proof. exact pieces_fall. Qed.
Print Assumptions C97_monotone.

(* C97: the control polygon of no piece is steeper *)
Theorem C97_steepness : forall dz (s : spline (Rops dz)) d kv p u c e K,
  well_formed s -> is_bspline s -> Forall (fun p => 1 <= p) (degs_of s) -> direction s d kv p -> insertable kv p u 0 -> zlen kv < 2 ^ 30 ->
  total (upd (npts_of s) d (nth d (npts_of s) 0 + p + 1)) < 2 ^ 64 -> 0 <= c < ph_dim (sp_ph s) -> polygon_within s e c K ->
  exists s1 s2 s', subdivide s u d = Ok (s1, s2, s') /\ polygon_within s1 e c K /\ polygon_within s2 e c K /\ polygon_within s' e c K.
Proof. exact pieces_polygon. Qed.
Print Assumptions C97_steepness.

Example C97_example : exists b n : spline (Rops (fun x => x)), well_formed b /\ is_bspline b /\ Forall (fun p => 1 <= p) (degs_of b) /\ well_formed n /\ regular n /\
  direction b 0 [0; 0; 0; 1; 2; 2; 2]%R 2 /\ direction n 0 [0; 0; 0; 1; 2; 2; 2]%R 2 /\ insertable [0; 0; 0; 1; 2; 2; 2]%R 2 1%R 0 /\ zlen [0; 0; 0; 1; 2; 2; 2]%R < 2 ^ 30 /\
  total (upd (npts_of b) 0 (nth 0 (npts_of b) 0 + 2 + 1)) < 2 ^ 64 /\ total (upd (npts_of n) 0 (nth 0 (npts_of n) 0 + 2 + 1)) < 2 ^ 64 /\
  0 <= 0 < ph_dim (sp_ph b) /\ 0 <= 1 < ph_dim (sp_ph b) /\ 0 <= 1 < ph_dim (sp_ph n) /\
  never_falls b 0 0 /\ never_falls b 1 1 /\ polygon_within b 0 1 4%R /\ polygon_within b 1 1 3%R /\ points_between n 1 0%R 5%R.
Proof. exact ex_pieces. Qed.
