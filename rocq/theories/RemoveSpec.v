(* Vocabulary for statements about what RemoveKnot decides. *)
From Coq Require Import ZArith List Reals.
From Verif Require Import Base KnotVecSpec Spaces SplineEval SplineSpec DegreeSpec.
Import ListNotations.
Open Scope Z_scope.

(* The points q of a curve with the knot u come from points x of a curve with one copy of u less by
   q_i = a_i x_i + (1 - a_i) x_{i-1}, where a_i is the ratio for first <= i <= last, 1 below, 0 above. *)
Definition ratio (kv : list R) (p : Z) (u : R) (i : Z) : R :=
  ((u - knot kv (Z.to_nat i)) / (knot kv (Z.to_nat (i + p + 1)) - knot kv (Z.to_nat i)))%R.

(* the equations that involve u: k is the position of the last copy of u *)
Definition removal_range (kv : list R) (p : Z) (u : R) (first last : Z) : Prop :=
  exists k, (S k < length kv)%nat /\ knot kv k = u /\ (u < knot kv (S k))%R /\
    first = Z.of_nat k - p /\ last = Z.of_nat k - Z.of_nat (occurrences kv u).

(* solved upwards from x_{i0} = q_{i0}: the value x_{i0 + m} *)
Fixpoint from_left (q a : Z -> R) (i0 : Z) (m : nat) : R :=
  match m with
  | O => q i0
  | S m' => let i := i0 + Z.of_nat m in ((q i - (1 - a i) * from_left q a i0 m') / a i)%R
  end.

(* solved downwards from x_{i1 - 1} = q_{i1}: the value x_{i1 - 1 - m} *)
Fixpoint from_right (q a : Z -> R) (i1 : Z) (m : nat) : R :=
  match m with
  | O => q i1
  | S m' => let i := i1 - Z.of_nat m in ((q i - a i * from_right q a i1 m') / (1 - a i))%R
  end.

(* where the two solutions meet *)
Definition middle (first last : Z) : Z := first + (last - first + 1) / 2.
Definition opposite (first last : Z) : Z := last - (last - first + 1) / 2.

Section Spec.
Context {dz : R -> R}.
Implicit Types s : spline (Rops dz).

(* homogeneous coordinates: number c is weight times coordinate c, the last one is the weight *)
Definition hpart s (idx : list Z) (c : Z) : R :=
  if c <? ph_dim (sp_ph s) then (weight s idx * coordinate s idx c)%R else weight s idx.
Definition parts s : list Z := zseq 0 (Z.to_nat (ph_dim (sp_ph s) + 1)).

(* the two solutions on the line of control points through cur in direction d, by the number of the
   equation that determines them *)
Definition left_part s d (a : Z -> R) first (cur : list Z) (c i : Z) : R :=
  from_left (fun j => hpart s (upd cur d j) c) a (first - 1) (Z.to_nat (i - (first - 1))).
Definition right_part s d (a : Z -> R) last (cur : list Z) (c i : Z) : R :=
  from_right (fun j => hpart s (upd cur d j) c) a (last + 1) (Z.to_nat (last + 1 - i)).

(* distance of the two solutions where they meet, and violation of the equation in the middle *)
Definition gap_ends s d a first last cur : R :=
  euclid (map (fun c => left_part s d a first cur c (middle first last - 1)) (parts s))
         (map (fun c => right_part s d a last cur c (opposite first last + 1)) (parts s)).
Definition gap_middle s d (a : Z -> R) first last cur : R :=
  let i := middle first last in
  euclid (map (fun c => hpart s (upd cur d i) c) (parts s))
         (map (fun c => a i * right_part s d a last cur c (i + 1)%Z + (1 - a i) * left_part s d a first cur c (i - 1)%Z)%R (parts s)).

(* one representative per line of control points in direction d *)
Definition lines_of s (d : nat) : list (list Z) := all_indices (upd (npts_of s) d 1).

(* on every line one of the two is at most tol *)
Definition accepted s d a first last (tol : R) : Prop :=
  forall cur, In cur (lines_of s d) -> (gap_ends s d a first last cur <= tol)%R \/ (gap_middle s d a first last cur <= tol)%R.

(* no weight vanishes on the way *)
Definition weights_nonzero s d a first last : Prop :=
  forall cur, In cur (lines_of s d) ->
    (forall i, first - 1 <= i < middle first last -> left_part s d a first cur (ph_dim (sp_ph s)) i <> 0%R) /\
    (forall i, opposite first last < i <= last + 1 -> right_part s d a last cur (ph_dim (sp_ph s)) i <> 0%R).

(* the net without the control points of index middle *)
Definition new_part s d a first last (idx : list Z) (c : Z) : R :=
  let i := nth d idx 0 in
  if i <? middle first last
  then if i <? first then hpart s idx c else left_part s d a first idx c i
  else if last <? i then hpart s (upd idx d (i + 1)) c else right_part s d a last idx c (i + 1).

(* distance of a control point from the origin *)
Definition from_origin s (idx : list Z) : R :=
  euclid (repeat 0%R (Z.to_nat (ph_dim (sp_ph s)))) (map (coordinate s idx) (zseq 0 (Z.to_nat (ph_dim (sp_ph s))))).
Definition is_smallest_weight s (w : R) : Prop :=
  (exists idx, In idx (all_indices (npts_of s)) /\ w = weight s idx) /\
  forall idx, In idx (all_indices (npts_of s)) -> (w <= weight s idx)%R.
Definition is_largest_distance s (m : R) : Prop :=
  (exists idx, In idx (all_indices (npts_of s)) /\ m = from_origin s idx) /\
  forall idx, In idx (all_indices (npts_of s)) -> (from_origin s idx <= m)%R.

(* the tolerance for homogeneous coordinates *)
Definition tolerance_in_use s (tol tol' : R) : Prop :=
  (is_bspline s -> tol' = tol) /\
  (~ is_bspline s -> forall w m, is_smallest_weight s w -> is_largest_distance s m -> tol' = (tol * w / (1 + m))%R).
End Spec.
