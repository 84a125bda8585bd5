(* Vocabulary for linear precision. *)
From Coq Require Import ZArith List Reals.
From Verif Require Import Base RSum KnotVecSpec.
Import ListNotations.
Open Scope Z_scope.

(* the mean of knots i+1, ..., i+p *)
Definition greville (kv : list R) (p i : Z) : R :=
  (lsum (fun j => knot kv (Z.to_nat (i + j)%Z)) (zseq 1 (Z.to_nat p)) / IZR p)%R.

(* b_0 * (mean belonging to i_0) + b_1 * (mean belonging to i_1) + ... *)
Fixpoint greville_combination (knots : list (list R)) (degs : list Z) (bs : list R) (idx : list Z) : R :=
  match knots, degs, bs, idx with
  | kv :: knots', p :: degs', b :: bs', i :: idx' => (b * greville kv p i + greville_combination knots' degs' bs' idx')%R
  | _, _, _, _ => 0%R
  end.

(* b_0 * u_0 + b_1 * u_1 + ... *)
Fixpoint combination (bs us : list R) : R :=
  match bs, us with b :: bs', u :: us' => (b * u + combination bs' us')%R | _, _ => 0%R end.
