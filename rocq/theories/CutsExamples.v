(* Example for C87: a NURBS surface that is cut twice. *)
From Coq Require Import ZArith List Bool Lia Reals Lra Permutation.
From Verif Require Import Base MultiIndex KnotVec KnotVecSpec KnotVecFacts KnotVecThms BasisThms Spaces SpacesThms SplineEval SplineEdit SplineSpec EvalThms
  EditSpec OrderSpec OrderExamples.
Import ListNotations.
Open Scope Z_scope.

Lemma ex_cuts : exists s : spline (Rops (fun x => x)), well_formed s /\ positive_weights s /\ Forall2 at_most_full (knots_of s) (degs_of s) /\
  direction s 0 [0; 0; 0; 1; 2; 2; 2]%R 2 /\ direction s 1 [0; 0; 1; 1]%R 1 /\
  (first_knot [0; 0; 0; 1; 2; 2; 2] < 1/2 < 1)%R /\ (1 < final_knot [0; 0; 0; 1; 2; 2; 2])%R /\ separated [1/2; 1; 0; 0; 0; 1; 2; 2; 2]%R /\
  insertable [0; 0; 0; 1; 2; 2; 2]%R 2 1 0 /\ insertable [0; 0; 1; 1]%R 1 (1/2) 0 /\
  total (upd (npts_of s) 0 (nth 0 (npts_of s) 0 + 2 * (2 + 1))) < 2 ^ 64 /\
  total (upd (upd (npts_of s) 0 (nth 0 (npts_of s) 0 + 2 + 1)) 1 (nth 1 (npts_of s) 0 + 1 + 1)) < 2 ^ 64.
Proof.
  destruct (ex_spline (Some ex_weights)) as (s & _ & W & Ew & _ & _ & Ek & Ed & _ & _ & En & _); [auto|].
  exists s. split; [exact W|]. split; [exists ex_weights; split; [auto | repeat constructor; lra]|].
  split; [rewrite Ek, Ed; constructor; [|constructor; [|constructor]]; intros x; occsolve|].
  split; [split; [rewrite Ek | rewrite Ed]; reflexivity|]. split; [split; [rewrite Ek | rewrite Ed]; reflexivity|].
  split; [cbn; lra|]. split; [cbn; lra|]. split; [sepsolve|].
  split; [split; [cbn; lra | split; [sepsolve | occsolve]]|].
  split; [split; [cbn; lra | split; [sepsolve | occsolve]]|].
  rewrite En. split; apply Z.ltb_lt; reflexivity.
Qed.
