(* Vocabulary for statements about which control points matter where. *)
From Coq Require Import ZArith List Reals.
From Verif Require Import Base KnotVecSpec.
Import ListNotations.
Open Scope Z_scope.

(* every control point index of one direction has a support of positive length *)
Definition full_support (kv : list R) (p : Z) : Prop :=
  forall i : nat, Z.of_nat i < zlen kv - p - 1 -> (knot kv i < knot kv (i + Z.to_nat p + 1))%R.

(* u lies strictly between the neighbouring knots number k and k+1 *)
Definition inside_span (kv : list R) (k : Z) (u : R) : Prop :=
  0 <= k /\ k + 1 < zlen kv /\ (knot kv (Z.to_nat k) < u < knot kv (Z.to_nat k + 1))%R.

(* the same in every direction *)
Fixpoint inside_spans (knots : list (list R)) (ks : list Z) (us : list R) : Prop :=
  match knots, ks, us with
  | [], [], [] => True
  | kv :: knots', k :: ks', u :: us' => inside_span kv k u /\ inside_spans knots' ks' us'
  | _, _, _ => False
  end.

(* control point idx belongs to the p+1 points per direction used between the knots ks and ks+1 *)
Fixpoint used_there (degs : list Z) (ks : list Z) (idx : list Z) : Prop :=
  match degs, ks, idx with
  | [], [], [] => True
  | p :: degs', k :: ks', i :: idx' => k - p <= i <= k /\ used_there degs' ks' idx'
  | _, _, _ => False
  end.

(* in some direction the parameter is not in the support of index idx, or this support is a single knot *)
Fixpoint off_support (knots : list (list R)) (degs : list Z) (us : list R) (idx : list Z) : Prop :=
  match knots, degs, us, idx with
  | kv :: knots', p :: degs', u :: us', i :: idx' =>
      (u < knot kv (Z.to_nat i))%R \/ (knot kv (Z.to_nat (i + p + 1)) < u)%R \/
      knot kv (Z.to_nat i) = knot kv (Z.to_nat (i + p + 1)) \/ off_support knots' degs' us' idx'
  | _, _, _, _ => False
  end.
