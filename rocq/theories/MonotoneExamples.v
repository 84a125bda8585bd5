(* Examples for C92: a surface whose coordinates grow along its directions, and a curve. *)
From Coq Require Import ZArith List Bool Lia Reals Lra.
From Verif Require Import Base MultiIndexSpec KnotVec KnotVecSpec KnotVecFacts KnotVecThms BasisThms Spaces SpacesSpec SpacesThms SplineEval SplineSpec EvalThms SplineNew MonotoneSpec Monotone.
Import ListNotations.
Open Scope Z_scope.

Ltac positions := repeat match goal with |- context [Z.to_nat ?e] => let v := eval vm_compute in (Z.to_nat e) in change (Z.to_nat e) with v end; cbn [nth ex_points concat app]; lra.

Lemma ex_grows : exists s : spline (Rops (fun x => x)), well_formed s /\ is_bspline s /\ in_domain s [(1/2)%R; (1/4)%R] /\ in_domain s (upd [(1/2)%R; (1/4)%R] 0 (3/2)%R) /\
  nth_error (degs_of s) 0 = Some 2 /\ 0 <= 0 < ph_dim (sp_ph s) /\ always_grows s 0 0 /\ always_grows s 1 1 /\ never_falls s 1 0.
Proof.
  destruct (ex_spline None) as (s & _ & W & Ew & Hu & _ & Ek & Ed & Em & Ec & En & _); [auto|].
  exists s. split; [exact W|]. split; [exact Ew|]. split; [exact Hu|].
  split; [unfold in_domain; rewrite Ek; unfold ex_knots; cbn [upd]; repeat constructor; unfold first_knot, final_knot, knot; cbn; lra|].
  split; [now rewrite Ed|]. split; [rewrite Em; lia|].
  assert (P : forall idx, in_box [4; 2] idx -> exists i j, idx = [i; j] /\ (i = 0 \/ i = 1 \/ i = 2 \/ i = 3) /\ (j = 0 \/ j = 1)).
  { intros idx H. inversion H as [|? i ? r H1 H2]; subst. inversion H2 as [|? j ? r' H3 H4]; subst. inversion H4; subst. exists i, j. repeat split; lia. }
  assert (C : forall idx c, coordinate s idx c = nth (Z.to_nat (2 * position [4; 2] idx + c)) (concat ex_points) 0%R) by (intros; unfold coordinate; now rewrite Em, Ec, En).
  split; [|split]; intros idx H1 H2; rewrite En in H1, H2; rewrite !C; destruct (P idx H1) as (i & j & -> & Hi & Hj); unfold next_in in *; cbn [upd nth] in *;
    destruct (P _ H2) as (i' & j' & E & Hi' & Hj'); injection E as E1 E2; subst i' j';
    destruct Hj as [->| ->]; destruct Hi as [->|[->|[->| ->]]]; try lia; positions.
Qed.

Lemma ex_growing_curve : exists s : spline (Rops (fun x => x)), well_formed s /\ is_bspline s /\ degs_of s = [2] /\ in_domain s [1/2]%R /\ in_domain s [3/2]%R /\
  0 <= 0 < ph_dim (sp_ph s) /\ always_grows s 0 0.
Proof.
  set (kvs := [[0; 0; 0; 1; 2; 2; 2]]%R). set (pts := [[0; 0]; [1; 2]; [3; 1]; [4; 0]]%R).
  assert (Hg : Forall2 good_direction kvs [2]) by (constructor; [|constructor]; pose proof ex_good as G; inversion G; assumption).
  destruct (spline_new_ok (fun x => x) kvs [2] pts None 2 Hg) as [H1 H2]; [lia | repeat constructor | reflexivity | reflexivity | discriminate |].
  match type of H1 with _ = Ok ?s => exists s end.
  split; [exact H2|]. split; [reflexivity|]. split; [reflexivity|].
  split; [unfold in_domain; repeat constructor; unfold first_knot, final_knot, knot; cbn; lra|].
  split; [unfold in_domain; repeat constructor; unfold first_knot, final_knot, knot; cbn; lra|].
  split; [cbn; lia|].
  intros idx A1 A2. change (npts_of _) with [4] in A1, A2.
  inversion A1 as [|? i ? r B1 B2]; subst. inversion B2; subst. unfold next_in in *. cbn [upd nth] in *. inversion A2 as [|? j ? r' C1 C2]; subst.
  unfold coordinate. change (npts_of _) with [4]. cbn [ph_dim sp_ph ph_cps].
  assert (D : i = 0 \/ i = 1 \/ i = 2) by lia. destruct D as [->|[->| ->]]; subst pts; positions.
Qed.

Lemma ex_growing_rational : exists s : spline (Rops (fun x => x)), well_formed s /\ positive_weights s /\ knots_of s = [[0; 0; 0; 1; 2; 2; 2]]%R /\ degs_of s = [2] /\
  0 <= 0 < ph_dim (sp_ph s) /\ forall i, 0 <= i -> i + 1 < 4 -> (coordinate s [i] 0 < coordinate s [(i + 1)%Z] 0)%R.
Proof.
  set (kvs := [[0; 0; 0; 1; 2; 2; 2]]%R). set (pts := [[0; 0]; [1; 2]; [3; 1]; [4; 0]]%R).
  assert (Hg : Forall2 good_direction kvs [2]) by (constructor; [|constructor]; pose proof ex_good as G; inversion G; assumption).
  destruct (spline_new_ok (fun x => x) kvs [2] pts (Some [1; 2; 1; 3]%R) 2 Hg) as [H1 H2]; [lia | repeat constructor | reflexivity | reflexivity | intros w E; injection E as <-; reflexivity |].
  match type of H1 with _ = Ok ?s => exists s end.
  split; [exact H2|]. split; [eexists; split; [reflexivity | repeat constructor; lra]|]. split; [reflexivity|]. split; [reflexivity|]. split; [cbn; lia|].
  intros i A1 A2. unfold coordinate. change (npts_of _) with [4]. cbn [ph_dim sp_ph ph_cps].
  assert (D : i = 0 \/ i = 1 \/ i = 2) by lia. destruct D as [->|[->| ->]]; subst pts; positions.
Qed.
