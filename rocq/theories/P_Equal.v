(* Properties of the tolerant comparison of splines: C33. *)
From Coq Require Import ZArith List Reals Floats.
From Verif Require Import Base Spaces SplineEval SplineSpec EqualSpec EqualThms.
Import ListNotations.
Open Scope Z_scope.

(* C33: what AreEqual decides *)
Theorem C33_equality_iff : forall dz (a b : spline (Rops dz)) (tol : R),
  spline_are_equal (F := Rops dz) tol a b = true <-> close_splines tol a b.
Proof. exact @equality_iff. Qed.
Print Assumptions C33_equality_iff.

Theorem C33_reflexive : forall dz (a : spline (Rops dz)) (tol : R), (0 < tol)%R ->
  spline_are_equal (F := Rops dz) tol a a = true.
Proof. exact @equality_reflexive. Qed.
Print Assumptions C33_reflexive.

Theorem C33_symmetric : forall dz (a b : spline (Rops dz)) (tol : R),
  spline_are_equal (F := Rops dz) tol a b = spline_are_equal (F := Rops dz) tol b a.
Proof. exact @equality_symmetric. Qed.
Print Assumptions C33_symmetric.

(* equal splines have the same parametric and the same point dimension, although AreEqual compares neither *)
Theorem C33_same_space : forall dz (a b : spline (Rops dz)) (tol : R), well_formed a -> well_formed b ->
  spline_are_equal (F := Rops dz) tol a b = true ->
  ph_dim (sp_ph a) = ph_dim (sp_ph b) /\ length (knots_of a) = length (knots_of b).
Proof. exact @equality_same_space. Qed.
Print Assumptions C33_same_space.

(* over the same knots and weights, equal splines take values within the tolerance *)
Theorem C33_evaluation : forall dz (a b : spline (Rops dz)) (tol : R) us c, well_formed a -> well_formed b ->
  spline_are_equal (F := Rops dz) tol a b = true -> knots_of a = knots_of b -> ph_wts (sp_ph a) = ph_wts (sp_ph b) ->
  is_bspline a \/ positive_weights a -> in_domain a us -> 0 <= c < ph_dim (sp_ph a) ->
  exists x y, evaluate a us [c] = Ok [x] /\ evaluate b us [c] = Ok [y] /\ (Rabs (x - y) <= tol)%R.
Proof. exact @equality_evaluation. Qed.
Print Assumptions C33_evaluation.

Example C33_example : exists a b : spline (Rops (fun x => x)), well_formed a /\ well_formed b /\
  spline_are_equal (F := Rops (fun x => x)) 1%R a b = true /\ knots_of a = knots_of b /\ ph_wts (sp_ph a) = ph_wts (sp_ph b) /\
  is_bspline a /\ in_domain a [(1/2)%R] /\ 0 <= 0 < ph_dim (sp_ph a) /\ ph_cps (sp_ph a) <> ph_cps (sp_ph b).
Proof. exact ex_equal. Qed.

(* a tolerance of 0 rejects everything, also the spline itself *)
Theorem C33_zero_tolerance : forall dz (a b : spline (Rops dz)) (tol : R), well_formed a -> (tol <= 0)%R ->
  spline_are_equal (F := Rops dz) tol a b = false.
Proof. exact @equality_tolerance. Qed.
Print Assumptions C33_zero_tolerance.

Theorem C33_transitivity_refuted : forall dz (tol : R), (0 < tol)%R -> exists a b c : spline (Rops dz),
  well_formed a /\ well_formed b /\ well_formed c /\
  spline_are_equal (F := Rops dz) tol a b = true /\ spline_are_equal (F := Rops dz) tol b c = true /\
  spline_are_equal (F := Rops dz) tol a c = false.
Proof. exact equality_not_transitive. Qed.
Print Assumptions C33_transitivity_refuted.

(* in doubles, reflexivity needs finite numbers *)
Theorem C33_infinite_refuted : exists s : spline Fops,
  spline_new (F := Fops) [[0; 0; 1; 1]%float] [1] [[0]; [infinity]]%float None = Ok s /\
  spline_are_equal (F := Fops) 1%float s s = false.
Proof. exact equality_infinite. Qed.
Print Assumptions C33_infinite_refuted.
