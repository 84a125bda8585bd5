(* Vocabulary of C96: the distance of neighbouring knots. *)
From Coq Require Import ZArith List Reals.
From Verif Require Import Base KnotVecSpec.

(* no gap between neighbouring knots is longer than h *)
Definition gaps_within (kv : list R) (h : R) : Prop := forall i, (S i < length kv)%nat -> (knot kv (S i) - knot kv i <= h)%R.
