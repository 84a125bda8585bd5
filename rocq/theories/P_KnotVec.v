(* Properties C04, C05, C06: knot vector.  dz is the arbitrary result of a division by zero. *)
From Coq Require Import ZArith List Lia Reals Lra Permutation.
From Verif Require Import Base KnotVec KnotVecSpec KnotVecFacts KnotVecThms.
Import ListNotations.
Open Scope Z_scope.

(* C04 *)
Theorem C04_span_brackets : forall dz kv u,
  nondecreasing kv -> (first_knot kv <= u <= final_knot kv)%R ->
  (~ near u (final_knot kv) ->
     exists k, knot_span (F := Rops dz) kv u = Ok (Z.of_nat k) /\ (S k < length kv)%nat /\
               (knot kv k <= u < knot kv (S k))%R) /\
  (near u (final_knot kv) -> (first_knot kv < u)%R ->
     exists k, knot_span (F := Rops dz) kv u = Ok (Z.of_nat k) /\ (S k < length kv)%nat /\
               (knot kv k < u <= knot kv (S k))%R) /\
  (u = final_knot kv -> (first_knot kv < u)%R ->
     exists k, knot_span (F := Rops dz) kv u = Ok (Z.of_nat k) /\ (S k < length kv)%nat /\
               (knot kv k < final_knot kv)%R /\ knot kv (S k) = final_knot kv).
Proof. exact span_brackets. Qed.
Print Assumptions C04_span_brackets.

Example C04_span_brackets_example :
  nondecreasing [0; 0; 1; 2; 2]%R /\
  (first_knot [0; 0; 1; 2; 2]%R <= 2 <= final_knot [0; 0; 1; 2; 2]%R)%R /\
  (first_knot [0; 0; 1; 2; 2]%R < 2)%R /\ near 2 (final_knot [0; 0; 1; 2; 2]%R).
Proof. exact span_brackets_ex. Qed.

(* C05 *)
Theorem C05_insert : forall dz kv u, nondecreasing kv -> kv <> [] ->
  exists kv', kv_insert (F := Rops dz) kv u = Ok kv' /\ nondecreasing kv' /\ Permutation kv' (u :: kv).
Proof. exact kv_insert_spec. Qed.
Print Assumptions C05_insert.

Theorem C05_remove : forall dz kv u, nondecreasing kv -> In u kv ->
  u = final_knot kv \/ ~ near u (final_knot kv) ->
  exists kv', kv_remove (F := Rops dz) kv u = Ok kv' /\ nondecreasing kv' /\ Permutation kv (u :: kv').
Proof. exact kv_remove_spec. Qed.
Print Assumptions C05_remove.

Theorem C05_insert_remove : forall dz kv u, nondecreasing kv -> kv <> [] -> (first_knot kv <= u)%R ->
  (final_knot kv <= u)%R \/ ~ near u (final_knot kv) ->
  (kv' <- kv_insert (F := Rops dz) kv u ;; kv_remove (F := Rops dz) kv' u)%res = Ok kv.
Proof. exact kv_insert_remove. Qed.
Print Assumptions C05_insert_remove.

Theorem C05_remove_absent : forall dz kv u, nondecreasing kv -> ~ In u kv -> (first_knot kv <= u)%R -> kv <> [] ->
  exists x kv', kv_remove (F := Rops dz) kv u = Ok kv' /\ x <> u /\ In x kv /\ Permutation kv (x :: kv').
Proof. exact kv_remove_absent. Qed.
Print Assumptions C05_remove_absent.

Example C05_example :
  nondecreasing [0; 0; 1; 2; 2]%R /\ In 1%R [0; 0; 1; 2; 2]%R /\ ~ near 1 (final_knot [0; 0; 1; 2; 2]%R) /\
  ~ In (3/2)%R [0; 0; 1; 2; 2]%R /\ (first_knot [0; 0; 1; 2; 2]%R <= 3/2)%R.
Proof. exact kv_edit_ex. Qed.

(* C06 (the operations on all knots are in P_ParamSpace.v) *)
Theorem C06_multiplicity : forall dz kv u,
  multiplicity (F := Rops dz) kv u = Z.of_nat (occurrences kv u).
Proof. exact multiplicity_occ. Qed.
Print Assumptions C06_multiplicity.

Theorem C06_different_knots : forall dz kv, nondecreasing kv -> kv <> [] ->
  num_different (F := Rops dz) kv = Z.of_nat (distinct_values kv).
Proof. exact num_different_distinct. Qed.
Print Assumptions C06_different_knots.

Example C06_example :
  nondecreasing [0; 0; 1; 2; 2]%R /\ occurrences [0; 0; 1; 2; 2]%R 2 = 2%nat /\
  distinct_values [0; 0; 1; 2; 2]%R = 3%nat.
Proof. exact kv_count_ex. Qed.
