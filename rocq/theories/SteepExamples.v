(* Example for C93: second coordinate of the surface in EvalThms.v. *)
From Coq Require Import ZArith List Bool Lia Reals Lra.
From Verif Require Import Base RSum MultiIndexSpec KnotVec KnotVecSpec KnotVecFacts KnotVecThms BasisThms Spaces SpacesSpec SpacesThms SplineEval SplineSpec EvalThms GrevilleSpec MonotoneSpec SteepSpec MonotoneExamples.
Import ListNotations.
Open Scope Z_scope.

Definition ex_slopes (c : Z) : list R := (if c =? 0 then [2; 0] else [4; 3])%R.

Lemma ex_polygon (s : spline (Rops (fun x => x))) : knots_of s = ex_knots -> degs_of s = ex_degs -> ph_dim (sp_ph s) = 2 -> ph_cps (sp_ph s) = concat ex_points -> npts_of s = [4; 2] ->
  forall c d, 0 <= c < 2 -> (d < 2)%nat -> polygon_within s d c (nth d (ex_slopes c) 0)%R.
Proof.
  intros Ek Ed Em Ec En.
  assert (P : forall idx, in_box [4; 2] idx -> exists i j, idx = [i; j] /\ (i = 0 \/ i = 1 \/ i = 2 \/ i = 3) /\ (j = 0 \/ j = 1)).
  { intros idx H. inversion H as [|? i ? r H1 H2]; subst. inversion H2 as [|? j ? r' H3 H4]; subst. inversion H4; subst. exists i, j. repeat split; lia. }
  assert (C : forall idx c, coordinate s idx c = nth (Z.to_nat (2 * position [4; 2] idx + c)) (concat ex_points) 0%R) by (intros; unfold coordinate; now rewrite Em, Ec, En).
  intros c d Hc Hd kv p idx K1 K2 H1 H2. rewrite En in H1, H2. rewrite !C. rewrite Ek in K1. rewrite Ed in K2. destruct (P idx H1) as (i & j & -> & Hi & Hj).
  assert (Hd' : d = 0%nat \/ d = 1%nat) by lia. assert (Hc' : c = 0 \/ c = 1) by lia.
  destruct Hc' as [->| ->]; destruct Hd' as [->| ->]; injection K1 as <-; injection K2 as <-; unfold next_in in *; cbn [upd nth ex_slopes Z.eqb] in *;
    destruct (P _ H2) as (i' & j' & E & Hi' & Hj'); injection E as E1 E2; subst i' j';
    destruct Hj as [->| ->]; destruct Hi as [->|[->|[->| ->]]]; try lia; unfold greville;
    change (Z.to_nat 2) with 2%nat; change (Z.to_nat 1) with 1%nat; cbn [zseq lsum]; unfold knot;
    repeat match goal with |- context [Z.to_nat ?e] => let v := eval vm_compute in (Z.to_nat e) in change (Z.to_nat e) with v end; cbn [nth ex_points concat app];
    apply Rabs_le; lra.
Qed.

Lemma ex_steep : exists s : spline (Rops (fun x => x)), well_formed s /\ is_bspline s /\ in_domain s [(1/2)%R; (1/4)%R] /\ in_domain s [(3/2)%R; (3/4)%R] /\
  degs_of s = [2; 1] /\ 0 <= 1 < ph_dim (sp_ph s) /\ forall d, (d < 2)%nat -> polygon_within s d 1 (nth d [4; 3] 0)%R.
Proof.
  destruct (ex_spline None) as (s & _ & W & Ew & Hu & _ & Ek & Ed & Em & Ec & En & _); [auto|].
  exists s. split; [exact W|]. split; [exact Ew|]. split; [exact Hu|].
  split; [unfold in_domain; rewrite Ek; unfold ex_knots; repeat constructor; unfold first_knot, final_knot, knot; cbn; lra|].
  split; [exact Ed|]. split; [rewrite Em; lia|]. intros d Hd. apply (ex_polygon s Ek Ed Em Ec En 1 d); [lia | exact Hd].
Qed.
