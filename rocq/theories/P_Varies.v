(* How much a spline varies: C98. *)
From Coq Require Import ZArith List Reals Sorted.
From Verif Require Import Base MultiIndexSpec KnotVecSpec Spaces SplineEval SplineEdit SplineSpec EditSpec VariesSpec Varies VariesRefine VariesExamples.
Import ListNotations.
Open Scope Z_scope.

(* C98: along any parameters in order, the evaluated coordinate varies by no more than the rows of control points *)
Theorem C98_variation : forall dz (s : spline (Rops dz)) us d vs c K,
  well_formed s -> is_bspline s -> in_domain s us -> (d < length us)%nat -> Forall (fun v => in_domain s (upd us d v)) vs -> Sorted Rle vs ->
  0 <= c < ph_dim (sp_ph s) -> rows_within s d c K ->
  exists ys, Forall2 (fun v y => evaluate s (upd us d v) [c] = Ok [y]) vs ys /\ (variation ys <= K)%R.
Proof. exact evaluation_varies. Qed.
Print Assumptions C98_variation.

(* C98: after a refinement in any direction no row varies more *)
Theorem C98_refined : forall dz (s : spline (Rops dz)) new d kv p c e K,
  well_formed s -> is_bspline s -> direction s d kv p -> all_insertable kv p new -> zlen kv + zlen new <= 2 ^ 31 ->
  0 <= c < ph_dim (sp_ph s) -> (e < length (npts_of s))%nat -> rows_within s e c K -> exists s', refine_knots s new d = Ok s' /\ rows_within s' e c K.
Proof. exact refine_varies. Qed.
Print Assumptions C98_refined.

Example C98_example : exists s : spline (Rops (fun x => x)), well_formed s /\ is_bspline s /\ in_domain s [(1/2)%R; (1/4)%R] /\
  Forall (fun v => in_domain s (upd [(1/2)%R; (1/4)%R] 0 v)) [0; 1/2; 1; 3/2; 2]%R /\ Sorted Rle [0; 1/2; 1; 3/2; 2]%R /\ 0 <= 1 < ph_dim (sp_ph s) /\
  rows_within s 0 1 4%R /\ rows_within s 1 1 3%R /\ direction s 0 [0; 0; 0; 1; 2; 2; 2]%R 2 /\ all_insertable [0; 0; 0; 1; 2; 2; 2]%R 2 [1; 1/2; 1]%R /\ length (npts_of s) = 2%nat.
Proof. exact ex_varies. Qed.
