(* Example for C97: the surface of EvalThms.v with and without weights, cut at its inner knot. *)
From Coq Require Import ZArith List Bool Lia Reals Lra.
From Verif Require Import Base MultiIndex MultiIndexSpec KnotVecSpec Spaces SpacesSpec SpacesThms SplineEval SplineSpec EvalThms EditSpec InsertThms MonotoneSpec MonotoneExamples SteepSpec SteepExamples SmoothSpec.
Import ListNotations.
Open Scope Z_scope.

Lemma ex_pieces : exists b n : spline (Rops (fun x => x)), well_formed b /\ is_bspline b /\ Forall (fun p => 1 <= p) (degs_of b) /\ well_formed n /\ regular n /\
  direction b 0 [0; 0; 0; 1; 2; 2; 2]%R 2 /\ direction n 0 [0; 0; 0; 1; 2; 2; 2]%R 2 /\ insertable [0; 0; 0; 1; 2; 2; 2]%R 2 1%R 0 /\ zlen [0; 0; 0; 1; 2; 2; 2]%R < 2 ^ 30 /\
  total (upd (npts_of b) 0 (nth 0 (npts_of b) 0 + 2 + 1)) < 2 ^ 64 /\ total (upd (npts_of n) 0 (nth 0 (npts_of n) 0 + 2 + 1)) < 2 ^ 64 /\
  0 <= 0 < ph_dim (sp_ph b) /\ 0 <= 1 < ph_dim (sp_ph b) /\ 0 <= 1 < ph_dim (sp_ph n) /\
  never_falls b 0 0 /\ never_falls b 1 1 /\ polygon_within b 0 1 4%R /\ polygon_within b 1 1 3%R /\ points_between n 1 0%R 5%R.
Proof.
  destruct (ex_spline None) as (b & _ & W & Ew & _ & _ & Ek & Ed & Em & Ec & En & _); [auto|].
  destruct (ex_spline (Some ex_weights)) as (n & _ & W' & Ew' & _ & _ & Ek' & Ed' & Em' & Ec' & En' & _); [auto|].
  exists b, n. split; [exact W|]. split; [exact Ew|]. split; [rewrite Ed; repeat constructor; lia|]. split; [exact W'|].
  split; [right; exists ex_weights; split; auto; repeat constructor; lra|].
  split; [unfold direction; rewrite Ek, Ed; split; reflexivity|]. split; [unfold direction; rewrite Ek', Ed'; split; reflexivity|].
  split; [destruct ex_insertable as (I1 & I2 & I3); split; [exact I1|]; split; [exact I2 | lia]|]. split; [reflexivity|].
  rewrite En, En'. split; [reflexivity|]. split; [reflexivity|]. rewrite Em, Em'. split; [lia|]. split; [lia|]. split; [lia|].
  assert (P : forall idx, in_box [4; 2] idx -> exists i j, idx = [i; j] /\ (i = 0 \/ i = 1 \/ i = 2 \/ i = 3) /\ (j = 0 \/ j = 1)).
  { intros idx H. inversion H as [|? i ? r H1 H2]; subst. inversion H2 as [|? j ? r' H3 H4]; subst. inversion H4; subst. exists i, j. repeat split; lia. }
  assert (C : forall idx c, coordinate b idx c = nth (Z.to_nat (2 * position [4; 2] idx + c)) (concat ex_points) 0%R) by (intros; unfold coordinate; now rewrite Em, Ec, En).
  assert (C' : forall idx c, coordinate n idx c = nth (Z.to_nat (2 * position [4; 2] idx + c)) (concat ex_points) 0%R) by (intros; unfold coordinate; now rewrite Em', Ec', En').
  split; [|split].
  1, 2: intros idx H1 H2; rewrite En in H1, H2; rewrite !C; destruct (P idx H1) as (i & j & -> & Hi & Hj); unfold next_in in *; cbn [upd nth] in *;
    destruct (P _ H2) as (i' & j' & E & Hi' & Hj'); injection E as E1 E2; subst i' j';
    destruct Hj as [->| ->]; destruct Hi as [->|[->|[->| ->]]]; try lia; positions.
  split; [apply (ex_polygon b Ek Ed Em Ec En 1 0); lia|]. split; [apply (ex_polygon b Ek Ed Em Ec En 1 1); lia|].
  intros idx H1. rewrite En' in H1. rewrite !C'. destruct (P idx H1) as (i & j & -> & Hi & Hj).
  destruct Hj as [->| ->]; destruct Hi as [->|[->|[->| ->]]]; positions.
Qed.
