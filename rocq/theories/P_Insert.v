(* Properties of knot insertion and refinement: C21 to C24. *)
From Coq Require Import ZArith List Reals Floats Permutation.
From Verif Require Import Base KnotVecSpec Basis Spaces SpacesSpec SplineEval SplineEdit SplineSpec EditSpec InsertThms InsertRepeat.
Import ListNotations.
Open Scope Z_scope.

(* C21 *)
Theorem C21_insertion_preserves_bspline : forall dz (s : spline (Rops dz)) d kv p u r,
  well_formed s -> is_bspline s -> direction s d kv p -> insertable kv p u r -> 0 <= r -> zlen kv < 2 ^ 31 ->
  exists s', insert_knot s u d r = Ok s' /\ is_bspline s' /\
    forall us dims, length us = length (knots_of s) -> valid_dims s dims -> evaluate s' us dims = evaluate s us dims.
Proof. exact insert_bspline. Qed.
Print Assumptions C21_insertion_preserves_bspline.

(* C22 *)
Theorem C22_insertion_preserves_nurbs : forall dz (s : spline (Rops dz)) d kv p u r,
  well_formed s -> positive_weights s -> direction s d kv p -> insertable kv p u r -> 0 <= r -> zlen kv < 2 ^ 31 ->
  exists s', insert_knot s u d r = Ok s' /\ positive_weights s' /\
    forall us dims, length us = length (knots_of s) -> valid_dims s dims -> evaluate s' us dims = evaluate s us dims.
Proof. exact insert_nurbs. Qed.
Print Assumptions C22_insertion_preserves_nurbs.

(* C23: sizes, knots and well-formedness after an insertion *)
Theorem C23_insertion_bookkeeping : forall dz (s : spline (Rops dz)) d kv p u r,
  well_formed s -> direction s d kv p -> insertable kv p u r -> 0 <= r -> zlen kv < 2 ^ 31 ->
  exists s' kv', insert_knot s u d r = Ok s' /\ well_formed s' /\
    knots_of s' = upd (knots_of s) d kv' /\ nondecreasing kv' /\ Permutation kv' (repeat u (Z.to_nat r) ++ kv) /\
    degs_of s' = degs_of s /\ npts_of s' = upd (npts_of s) d (nth d (npts_of s) 0 + r) /\
    ph_dim (sp_ph s') = ph_dim (sp_ph s) /\ (is_bspline s' <-> is_bspline s).
Proof. exact insert_bookkeeping. Qed.
Print Assumptions C23_insertion_bookkeeping.

(* C23: r + 1 copies at once are r copies and then one more *)
Theorem C23_insertion_repeats : forall dz (s : spline (Rops dz)) d kv p u r,
  well_formed s -> regular s -> direction s d kv p -> insertable kv p u (1 + r) -> 0 <= r -> zlen kv + r < 2 ^ 31 ->
  exists s1, insert_knot s u d r = Ok s1 /\ insert_knot s u d (1 + r) = insert_knot s1 u d 1.
Proof. exact insert_repeats. Qed.
Print Assumptions C23_insertion_repeats.

(* C23: refinement by a list of knots *)
Theorem C23_refinement : forall dz new (s : spline (Rops dz)) d kv p,
  well_formed s -> regular s -> direction s d kv p -> all_insertable kv p new -> zlen kv + zlen new <= 2 ^ 31 ->
  exists s' kv', refine_knots s new d = Ok s' /\ well_formed s' /\ regular s' /\
    knots_of s' = upd (knots_of s) d kv' /\ nondecreasing kv' /\ Permutation kv' (new ++ kv) /\
    degs_of s' = degs_of s /\ npts_of s' = upd (npts_of s) d (nth d (npts_of s) 0 + zlen new) /\
    forall us dims, length us = length (knots_of s) -> valid_dims s dims -> evaluate s' us dims = evaluate s us dims.
Proof. exact refine_ok. Qed.
Print Assumptions C23_refinement.

(* a surface of degrees 2 and 1 with and without weights; knot 1 is already in the vector *)
Example C21_C22_C23_example : exists b n : spline (Rops (fun x => x)),
  well_formed b /\ is_bspline b /\ well_formed n /\ positive_weights n /\
  direction b 0 [0; 0; 0; 1; 2; 2; 2]%R 2 /\ direction n 0 [0; 0; 0; 1; 2; 2; 2]%R 2 /\
  insertable [0; 0; 0; 1; 2; 2; 2]%R 2 1 2 /\ all_insertable [0; 0; 0; 1; 2; 2; 2]%R 2 [1; 1/2; 1]%R.
Proof. exact ex_insert. Qed.

(* C24: inserting the first knot of any well-formed spline reads outside the knot vector *)
Theorem C24_first_knot_refuted : forall dz (s : spline (Rops dz)) d kv p r,
  well_formed s -> direction s d kv p -> 1 <= r -> zlen kv < 2 ^ 64 ->
  insert_knot s (first_knot kv) d r = UB.
Proof. exact insert_first_knot. Qed.
Print Assumptions C24_first_knot_refuted.

(* C24: inserting the last knot of the line from 0 to 1 changes its value at 0.5 from 0.5 to 0 *)
Theorem C24_last_knot_refuted : exists (s s' : spline Fops) (v v' : float),
  spline_new (F := Fops) [[0; 0; 1; 1]%float] [1] [[0]; [1]]%float None = Ok s /\
  insert_knot s 1%float 0 1 = Ok s' /\
  evaluate s [0.5%float] [0] = Ok [v] /\ PrimFloat.eqb v 0.5 = true /\
  evaluate s' [0.5%float] [0] = Ok [v'] /\ PrimFloat.eqb v' 0 = true.
Proof. exact insert_last_knot. Qed.
Print Assumptions C24_last_knot_refuted.
