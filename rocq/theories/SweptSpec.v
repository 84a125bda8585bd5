(* Vocabulary for statements about swept surfaces, independent of the model in Swept.v. *)
From Coq Require Import ZArith List Reals.
From Verif Require Import Base KnotVecSpec Spaces SplineEval SplineSpec.
Import ListNotations.
Open Scope Z_scope.

(* vectors of space *)
Notation space_point := (R * R * R)%type.
Definition inner (a b : space_point) : R :=
  match a, b with (a0, a1, a2), (b0, b1, b2) => (a0 * b0 + a1 * b1 + a2 * b2)%R end.
Definition outer (a b : space_point) : space_point :=
  match a, b with (a0, a1, a2), (b0, b1, b2) => (a1 * b2 - a2 * b1, a2 * b0 - a0 * b2, a0 * b1 - a1 * b0)%R end.
Definition magnitude (a : space_point) : R := sqrt (inner a a).
Definition scale (x : R) (a : space_point) : space_point := match a with (a0, a1, a2) => (x * a0, x * a1, x * a2)%R end.
Definition vsum (a b : space_point) : space_point := match a, b with (a0, a1, a2), (b0, b1, b2) => (a0 + b0, a1 + b1, a2 + b2)%R end.
Definition unit_of (a : space_point) : space_point := scale (/ magnitude a) a.
Definition origin : space_point := (0, 0, 0)%R.

(* three mutually orthogonal vectors of length one, right-handed *)
Definition orthonormal (x y z : space_point) : Prop :=
  inner x x = 1%R /\ inner y y = 1%R /\ inner z z = 1%R /\ inner x y = 0%R /\ inner x z = 0%R /\ inner y z = 0%R /\ outer x y = z.

(* the point q of a section whose axes are x, y, z, stretched by the factors f and put at the point o *)
Definition placed (o x y z f q : space_point) : space_point :=
  match f, q with
  | (f0, f1, f2), (q0, q1, q2) => vsum o (vsum (scale (f0 * q0) x) (vsum (scale (f1 * q1) y) (scale (f2 * q2) z)))
  end.

Section Curve.
Context {dz : R -> R}.
Implicit Types t c : spline (Rops dz).

(* point, first and second derivative of a curve in space *)
Definition at_point t (u : R) : space_point :=
  (only_value (evaluate t [u] [0]), only_value (evaluate t [u] [1]), only_value (evaluate t [u] [2])).
Definition derivative_at t (k : Z) (u : R) : space_point :=
  (only_value (evaluate_derivative t [u] [0] [k]), only_value (evaluate_derivative t [u] [1] [k]), only_value (evaluate_derivative t [u] [2] [k])).
(* a control point in space *)
Definition control_point c (idx : list Z) : space_point := (coordinate c idx 0, coordinate c idx 1, coordinate c idx 2).

(* the n equidistant parameters from 0 to the end *)
Definition sample (last : R) (n i : Z) : R := (IZR i * (last / IZR (n - 1)))%R.

(* z are the normals of the first e of the n sections: at a bend that of the plane of the first and the second derivative, not
   orthogonal to the one before; at a straight place the one before, if it is orthogonal to the curve's point and direction *)
Definition normals t (last : R) (n e : Z) (z : Z -> space_point) : Prop :=
  z (-1) = (0, 0, 1)%R /\
  forall i, 0 <= i < e ->
    let u := sample last n i in let c := outer (derivative_at t 1 u) (derivative_at t 2 u) in
    (c <> origin /\ z i = unit_of c /\ (1 <= i -> inner (z i) (z (i - 1)) <> 0%R)) \/
    (c = origin /\ z i = z (i - 1) /\ derivative_at t 1 u <> origin /\
     inner (z (i - 1)) (at_point t u) = 0%R /\ inner (z (i - 1)) (derivative_at t 1 u) = 0%R).

(* section i of a surface along t: its place in space *)
Definition section_at t (last : R) (n : Z) (z : Z -> space_point) (f : space_point) (i : Z) (q : space_point) : space_point :=
  let u := sample last n i in let x := unit_of (derivative_at t 1 u) in
  placed (at_point t u) x (outer (z i) x) (z i) f q.
End Curve.

(* the knots of degree p made of the means of p neighbouring ones of the n parameters with distance h *)
Definition mean_knot (p n : Z) (h : R) (i : Z) : R :=
  if i <=? p then 0%R else if i <? n then (h * (IZR (i - p) + IZR (p - 1) / 2))%R else (h * IZR (n - 1))%R.

(* the coordinates of a point *)
Definition listed (a : space_point) : list R := match a with (a0, a1, a2) => [a0; a1; a2] end.
