(* Example for C94: the surface of EvalThms.v written with two times three cells. *)
From Coq Require Import ZArith List Bool Lia Reals Lra.
From Verif Require Import Base RSum MultiIndexSpec KnotVecSpec Spaces SpacesSpec SpacesThms SplineEval SplineSpec EvalThms Convert Vtk VtkSpec SteepSpec SteepExamples ResolveSpec.
Import ListNotations.
Open Scope Z_scope.

Lemma ex_resolve : exists b : spline (Rops (fun x => x)), Forall good_job ([] ++ mkJob (AnyB 2 b) b [2; 3] :: []) /\
  is_bspline b /\ Forall (fun p => 1 <= p) (degs_of b) /\ in_domain b [(1/2)%R; (1/4)%R] /\ (forall c, Forall (fun K => 0 <= K)%R (ex_slopes c)) /\
  (forall c d, 0 <= c < ph_dim (sp_ph b) -> (d < 2)%nat -> polygon_within b d c (nth d (ex_slopes c) 0%R)) /\
  lsum (fun d => nth d (ex_slopes 1) 0 * cell_length (knots_of b) [2; 3]%Z d)%R (seq 0 2) = 5%R.
Proof.
  destruct (ex_spline None) as (b & _ & W & Ew & Hu & _ & Ek & Ed & Em & Ec & En & _); [auto|]. exists b.
  split.
  { cbn [app]. constructor; [|constructor]. constructor; cbn [object content divisions]; auto; rewrite ?Ed; cbn; try lia.
    - left. split; auto.
    - split; auto. repeat constructor; lia. }
  split; [exact Ew|]. split; [rewrite Ed; repeat constructor; lia|]. split; [exact Hu|].
  split; [intros c; unfold ex_slopes; destruct (c =? 0); repeat constructor; lra|].
  split; [intros c d Hc Hd; rewrite Em in Hc; now apply ex_polygon|].
  rewrite Ek. unfold ex_knots, cell_length, ex_slopes, first_knot, final_knot, knot. cbn. lra.
Qed.
