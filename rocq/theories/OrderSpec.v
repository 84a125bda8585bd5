(* Vocabulary for statements about sequences of knot insertions. *)
From Coq Require Import ZArith List Reals.
From Verif Require Import Base KnotVecSpec Spaces SplineEval SplineEdit SplineSpec EditSpec.
Import ListNotations.
Open Scope Z_scope.

(* one call: InsertKnot(u, d, r) (spline.h:163-181) or RefineKnots(new, d) (spline.h:183-187) *)
Inductive insertion := InsertIt (u : R) (d : nat) (r : Z) | RefineIt (new : list R) (d : nat).

Definition direction_of (e : insertion) : nat := match e with InsertIt _ d _ => d | RefineIt _ d => d end.
(* the knots that the call asks for *)
Definition asked (e : insertion) : list R := match e with InsertIt u _ r => repeat u (Z.to_nat r) | RefineIt new _ => new end.
(* all knots that a sequence of calls asks for in direction d *)
Fixpoint asked_in (es : list insertion) (d : nat) : list R :=
  match es with
  | [] => []
  | e :: t => (if Nat.eqb (direction_of e) d then asked e else []) ++ asked_in t d
  end.

(* no value occurs more than p+1 times *)
Definition at_most_full (kv : list R) (p : Z) : Prop := forall x, Z.of_nat (occurrences kv x) <= p + 1.

Section Spec.
Context {dz : R -> R}.
Implicit Types s : spline (Rops dz).

Definition call s (e : insertion) : Res (spline (Rops dz)) :=
  match e with
  | InsertIt u d r => insert_knot (F := Rops dz) s u d r
  | RefineIt new d => refine_knots (F := Rops dz) s new d
  end.
(* one call after the other *)
Definition calls s (es : list insertion) : Res (spline (Rops dz)) := foldM call es s.

(* the calls name directions of the spline, insert at least one copy, and together ask for knots that may be inserted *)
Definition permitted s (es : list insertion) : Prop :=
  Forall (fun e => (direction_of e < length (knots_of s))%nat /\ match e with InsertIt _ _ r => 1 <= r | _ => True end) es /\
  forall d kv p, direction s d kv p -> all_insertable kv p (asked_in es d) /\ zlen kv + zlen (asked_in es d) <= 2 ^ 31.
End Spec.
