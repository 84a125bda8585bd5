(* Example for C96: the surface of EvalThms.v, whose knots are at most 1 apart. *)
From Coq Require Import ZArith List Bool Lia Reals Lra.
From Verif Require Import Base RSum MultiIndexSpec KnotVecSpec Spaces SpacesSpec SpacesThms SplineEval SplineSpec EvalThms EditSpec InsertThms GrevilleSpec SteepSpec SteepExamples ConvergeSpec.
Import ListNotations.
Open Scope Z_scope.

Lemma ex_converge : exists s : spline (Rops (fun x => x)), well_formed s /\ is_bspline s /\ Forall (fun p => 1 <= p) (degs_of s) /\ in_domain s [(1/2)%R; (1/4)%R] /\
  in_box (npts_of s) [1; 0] /\ 0 <= 1 < ph_dim (sp_ph s) /\ Forall (fun K => 0 <= K)%R [4; 3]%R /\ length (knots_of s) = 2%nat /\
  (forall d, (d < 2)%nat -> polygon_within s d 1 (nth d [4; 3] 0)%R) /\ (forall d, (d < 2)%nat -> gaps_within (nth d (knots_of s) []) (nth d [1; 1] 0)%R) /\
  direction s 0 [0; 0; 0; 1; 2; 2; 2]%R 2 /\ all_insertable [0; 0; 0; 1; 2; 2; 2]%R 2 [1; 1/2; 1]%R.
Proof.
  destruct (ex_spline None) as (s & _ & W & Ew & Hu & _ & Ek & Ed & Em & Ec & En & _); [auto|].
  exists s. split; [exact W|]. split; [exact Ew|]. split; [rewrite Ed; repeat constructor; lia|]. split; [exact Hu|].
  split; [rewrite En; repeat constructor; lia|]. split; [rewrite Em; lia|]. split; [repeat constructor; lra|]. split; [now rewrite Ek|].
  split; [intros d Hd; apply (ex_polygon s Ek Ed Em Ec En 1 d); lia|].
  split.
  { intros d Hd i Hi. rewrite Ek in *. unfold ex_knots, knot in *. destruct d as [|[|d]]; [| | lia]; cbn [nth length] in *; do 7 (try (destruct i as [|i])); try lia; cbn [nth]; lra. }
  split; [unfold direction; rewrite Ek, Ed; split; reflexivity | apply ex_all_insertable].
Qed.
