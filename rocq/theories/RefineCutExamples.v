(* Example for C89: a NURBS surface that is refined and cut. *)
From Coq Require Import ZArith List Bool Lia Reals Lra Permutation.
From Verif Require Import Base BaseFacts MultiIndex MultiIndexFacts KnotVec KnotVecSpec KnotVecFacts KnotVecThms BasisThms Spaces SpacesThms SplineEval SplineEdit SplineSpec EvalThms
  InsertFacts EditSpec OrderSpec OrderThms OrderExamples RefineCutSpec.
Import ListNotations.
Open Scope Z_scope.

Definition low_calls : list insertion := [RefineIt [1/2] 1; InsertIt (1/2) 0 1; InsertIt (1/2) 1 1]%R.
Definition high_calls : list insertion := [InsertIt (3/2) 0 1; InsertIt (1/2) 1 2]%R.

Lemma ex_refine_cut : exists s s' : spline (Rops (fun x => x)), well_formed s /\ positive_weights s /\ Forall2 at_most_full (knots_of s) (degs_of s) /\
  direction s 0 [0; 0; 0; 1; 2; 2; 2]%R 2 /\ permitted s one_order /\ asked_in one_order 0 = [1/2; 1; 3/2]%R /\
  separated (1 :: asked_in one_order 0 ++ [0; 0; 0; 1; 2; 2; 2])%R /\ calls s one_order = Ok s' /\
  total (upd (npts_of s') 0 (nth 0 (npts_of s') 0 + 2 + 1)) < 2 ^ 64 /\
  names s low_calls /\ names s high_calls /\ asks_below one_order 0 1 low_calls /\ asks_above one_order 0 1 high_calls.
Proof.
  destruct (ex_spline (Some ex_weights)) as (s & _ & W & Ew & _ & _ & Ek & Ed & _ & _ & En & _); [auto|].
  assert (Hw : positive_weights s) by (exists ex_weights; split; [auto | repeat constructor; lra]).
  assert (Hdir : forall d kv p, direction s d kv p -> (d = 0%nat /\ kv = [0; 0; 0; 1; 2; 2; 2]%R /\ p = 2) \/ (d = 1%nat /\ kv = [0; 0; 1; 1]%R /\ p = 1)).
  { intros d kv p [A B]. rewrite Ek in A. rewrite Ed in B. unfold ex_knots, ex_degs in A, B.
    destruct d as [|[|d]]; cbn [nth_error] in A, B; [left | right | destruct d; discriminate]; injection A as <-; injection B as <-; auto. }
  assert (Hper : permitted s one_order).
  { split.
    + rewrite Ek. repeat constructor; cbn; lia.
    + intros d kv p H. destruct (Hdir d kv p H) as [(-> & -> & ->)|(-> & -> & ->)]; split; try (apply Z.leb_le; reflexivity).
      * apply (ex_permitted0 [1/2; 1; 3/2]%R). now left.
      * apply ex_permitted1. }
  destruct (calls_refined (fun x => x) one_order s W (or_intror Hw) Hper) as (s' & E & Href). exists s, s'.
  split; [exact W|]. split; [exact Hw|]. split; [rewrite Ek, Ed; constructor; [|constructor; [|constructor]]; intros x; occsolve|].
  assert (D0 : direction s 0 [0; 0; 0; 1; 2; 2; 2]%R 2) by (split; [rewrite Ek | rewrite Ed]; reflexivity).
  assert (D1 : direction s 1 [0; 0; 1; 1]%R 1) by (split; [rewrite Ek | rewrite Ed]; reflexivity).
  split; [exact D0|]. split; [exact Hper|]. split; [reflexivity|]. split; [cbn [asked_in one_order direction_of Nat.eqb asked app repeat Z.to_nat Pos.to_nat]; sepsolve|]. split; [exact E|].
  split.
  { pose proof (rf_wf _ _ _ _ Href) as W'.
    destruct (direction_refined _ _ _ _ _ _ _ Href D0) as (k0 & [A0 B0] & P0 & _). destruct (direction_refined _ _ _ _ _ _ _ Href D1) as (k1 & [A1 B1] & P1 & _).
    destruct (wf_direction _ s' 0 k0 2 W' A0 B0) as (_ & L0 & N0). destruct (wf_direction _ s' 1 k1 1 W' A1 B1) as (_ & L1 & N1).
    rewrite (zlen_perm _ _ P0) in N0. rewrite (zlen_perm _ _ P1) in N1. change (nth 0 (npts_of s') 0 = 7) in N0. change (nth 1 (npts_of s') 0 = 4) in N1.
    assert (L : length (npts_of s') = 2%nat).
    { rewrite (wf_npts s' W'), map2_length; rewrite (rf_len _ _ _ _ Href), ?(rf_degs _ _ _ _ Href), Ek, ?Ed; reflexivity. }
    destruct (npts_of s') as [|x [|y [|]]]; try discriminate L. cbn [nth] in N0, N1. subst x y. apply Z.ltb_lt. reflexivity. }
  split; [unfold names; rewrite Ek; repeat constructor; cbn; lia|]. split; [unfold names; rewrite Ek; repeat constructor; cbn; lia|].
  assert (a0 : asked_in one_order 0 = [1/2; 1; 3/2]%R) by reflexivity. assert (a1 : asked_in one_order 1 = [1/2; 1/2]%R) by reflexivity.
  assert (b0 : asked_in low_calls 0 = [1/2]%R) by reflexivity. assert (b1 : asked_in low_calls 1 = [1/2; 1/2]%R) by reflexivity.
  assert (c0 : asked_in high_calls 0 = [3/2]%R) by reflexivity. assert (c1 : asked_in high_calls 1 = [1/2; 1/2]%R) by reflexivity.
  split.
  - split; [intros [|[|d']] x Hx; [destruct Hx as [Hx|Hx]; [lia|] | |] | intros x Hx];
      rewrite ?a0, ?a1, ?b0, ?b1, ?c0, ?c1; try reflexivity; occsolve.
  - split; [intros [|[|d']] x Hx; [destruct Hx as [Hx|Hx]; [lia|] | |] | intros x Hx];
      rewrite ?a0, ?a1, ?b0, ?b1, ?c0, ?c1; try reflexivity; occsolve.
Qed.
