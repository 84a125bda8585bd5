(* Example for C86: two orders of the same insertions into a NURBS surface. *)
From Coq Require Import ZArith List Bool Lia Reals Lra Permutation.
From Verif Require Import Base KnotVec KnotVecSpec KnotVecFacts KnotVecThms BasisThms Spaces SpacesThms SplineEval SplineEdit SplineSpec EvalThms
  EditSpec UniqueSpec OrderSpec OrderThms.
Import ListNotations.
Open Scope Z_scope.

Definition one_order : list insertion := [InsertIt (1/2) 0 1; InsertIt (1/2) 1 2; RefineIt [1; 3/2] 0]%R.
Definition other_order : list insertion := [RefineIt [3/2; 1/2] 0; RefineIt [1/2] 1; InsertIt 1 0 1; InsertIt (1/2) 1 1]%R.

Ltac occsolve := unfold occurrences; cbn [app count_occ];
  repeat match goal with |- context [Req_EM_T ?a ?b] => destruct (Req_EM_T a b); try (exfalso; lra) end; lia.

Lemma ex_permitted0 new : In new [[1/2; 1; 3/2]; [3/2; 1/2; 1]]%R -> all_insertable [0; 0; 0; 1; 2; 2; 2]%R 2 new.
Proof.
  intros [<-|[<-|[]]]; (split; [repeat constructor; cbn; lra|]; split; [cbn [app]; sepsolve|];
    intros u [<-|[<-|[<-|[]]]]; occsolve).
Qed.
Lemma ex_permitted1 : all_insertable [0; 0; 1; 1]%R 1 [1/2; 1/2]%R.
Proof.
  split; [repeat constructor; cbn; lra|]. split; [cbn [app]; sepsolve|]. intros u [<-|[<-|[]]]; occsolve.
Qed.

Lemma ex_order : exists s : spline (Rops (fun x => x)), well_formed s /\ positive_weights s /\ Forall2 at_most_full (knots_of s) (degs_of s) /\
  permitted s one_order /\ permitted s other_order /\ (forall d, Permutation (asked_in one_order d) (asked_in other_order d)).
Proof.
  destruct (ex_spline (Some ex_weights)) as (s & _ & W & Ew & _ & _ & Ek & Ed & _); [auto|].
  exists s. split; [exact W|]. split; [exists ex_weights; split; [auto | repeat constructor; lra]|].
  assert (Hdir : forall d kv p, direction s d kv p -> (d = 0%nat /\ kv = [0; 0; 0; 1; 2; 2; 2]%R /\ p = 2) \/ (d = 1%nat /\ kv = [0; 0; 1; 1]%R /\ p = 1)).
  { intros d kv p [A B]. rewrite Ek in A. rewrite Ed in B. unfold ex_knots, ex_degs in A, B.
    destruct d as [|[|d]]; cbn [nth_error] in A, B; [left | right | destruct d; discriminate]; injection A as <-; injection B as <-; auto. }
  split; [|split; [|split]].
  - rewrite Ek, Ed. constructor; [|constructor; [|constructor]]; intros x; occsolve.
  - split.
    + rewrite Ek. repeat constructor; cbn; lia.
    + intros d kv p H. destruct (Hdir d kv p H) as [(-> & -> & ->)|(-> & -> & ->)]; split; try (apply Z.leb_le; reflexivity).
      * apply (ex_permitted0 [1/2; 1; 3/2]%R). now left.
      * apply ex_permitted1.
  - split.
    + rewrite Ek. repeat constructor; cbn; lia.
    + intros d kv p H. destruct (Hdir d kv p H) as [(-> & -> & ->)|(-> & -> & ->)]; split; try (apply Z.leb_le; reflexivity).
      * apply (ex_permitted0 [3/2; 1/2; 1]%R). right. now left.
      * apply ex_permitted1.
  - intros [|[|d]]; cbn.
    + apply Permutation_trans with (1/2 :: 3/2 :: [1])%R; [constructor; constructor | constructor].
    + reflexivity.
    + reflexivity.
Qed.
