(* Example for C91: three of the knots of C86 are removed again, in another order. *)
From Coq Require Import ZArith List Bool Lia Reals Lra Permutation.
From Verif Require Import Base KnotVec KnotVecSpec KnotVecFacts KnotVecThms BasisThms Spaces SpacesThms SplineEval SplineEdit SplineSpec EvalThms
  EditSpec UniqueSpec OrderSpec OrderThms OrderExamples UndoSpec.
Import ListNotations.
Open Scope Z_scope.

Definition taken_out : list removal := [RemoveIt (3/2) 0 0 1; RemoveIt (1/2) 0 (1/10) 1; RemoveIt 1 0 0 1]%R.
Definition left_in : list insertion := [RefineIt [1/2; 1/2] 1]%R.

Lemma ex_undo : exists s : spline (Rops (fun x => x)), well_formed s /\ positive_weights s /\ Forall2 at_most_full (knots_of s) (degs_of s) /\
  permitted s one_order /\ permitted s left_in /\ proper_removals s taken_out /\
  (forall d, Permutation (asked_in one_order d) (removed_in taken_out d ++ asked_in left_in d)) /\
  (forall d kv p, direction s d kv p -> zlen kv + zlen (asked_in one_order d) < 2 ^ 31 /\
     forall u, In u (removed_in taken_out d) -> Z.of_nat (occurrences (asked_in one_order d ++ kv) u) <= p).
Proof.
  destruct (ex_spline (Some ex_weights)) as (s & _ & W & Ew & _ & _ & Ek & Ed & _); [auto|].
  exists s. split; [exact W|]. split; [exists ex_weights; split; [auto | repeat constructor; lra]|].
  assert (Hdir : forall d kv p, direction s d kv p -> (d = 0%nat /\ kv = [0; 0; 0; 1; 2; 2; 2]%R /\ p = 2) \/ (d = 1%nat /\ kv = [0; 0; 1; 1]%R /\ p = 1)).
  { intros d kv p [A B]. rewrite Ek in A. rewrite Ed in B. unfold ex_knots, ex_degs in A, B.
    destruct d as [|[|d]]; cbn [nth_error] in A, B; [left | right | destruct d; discriminate]; injection A as <-; injection B as <-; auto. }
  split; [|split; [|split; [|split; [|split]]]].
  - rewrite Ek, Ed. constructor; [|constructor; [|constructor]]; intros x; occsolve.
  - split.
    + rewrite Ek. repeat constructor; cbn; lia.
    + intros d kv p H. destruct (Hdir d kv p H) as [(-> & -> & ->)|(-> & -> & ->)]; split; try (apply Z.leb_le; reflexivity).
      * apply (ex_permitted0 [1/2; 1; 3/2]%R). now left.
      * apply ex_permitted1.
  - split.
    + rewrite Ek. repeat constructor; cbn; lia.
    + intros d kv p H. destruct (Hdir d kv p H) as [(-> & -> & ->)|(-> & -> & ->)]; split; try (apply Z.leb_le; reflexivity).
      * split; [constructor|]. split; [cbn [left_in asked_in direction_of Nat.eqb app]; sepsolve | intros u []].
      * apply ex_permitted1.
  - unfold proper_removals. rewrite Ek. repeat constructor; cbn; try lia; lra.
  - intros [|[|d]]; cbn.
    + apply Permutation_trans with (1/2 :: 3/2 :: [1])%R; repeat constructor.
    + reflexivity.
    + reflexivity.
  - intros d kv p H. destruct (Hdir d kv p H) as [(-> & -> & ->)|(-> & -> & ->)]; (split; [apply Z.ltb_lt; reflexivity|]).
    + intros u Hu. change (removed_in taken_out 0) with [3/2; 1/2; 1]%R in Hu. change (asked_in one_order 0) with [1/2; 1; 3/2]%R.
      destruct Hu as [<-|[<-|[<-|[]]]]; occsolve.
    + intros u [].
Qed.
