(* The control points are determined by the map: concrete cases. *)
From Coq Require Import ZArith List Bool Lia Reals Lra.
From Verif Require Import Base BaseFacts RSum MultiIndex MultiIndexSpec
  KnotVec KnotVecSpec KnotVecFacts KnotVecThms Basis BasisSpec BasisThms
  Spaces SpacesSpec SpacesFacts SpacesThms SplineEval SplineSpec SplineNew UniqueSpec EvalFacts EvalThms UniqueFacts.
Import ListNotations.
Open Scope Z_scope.

Local Notation dz0 := (fun x : R => x).
(* the points of ex_points with the last two of the first row of the net moved *)
Definition ex_moved : list (list R) := [[0; 0]; [1; 2]; [3; 1]; [9; 9]; [0; 3]; [1; 5]; [3; 4]; [4; 3]]%R.

Lemma ex_moved_spline (wts : option (list R)) : wts = None \/ wts = Some ex_weights ->
  exists s s' : spline (Rops dz0),
    spline_new (F := Rops dz0) ex_knots ex_degs ex_points wts = Ok s /\
    spline_new (F := Rops dz0) ex_knots ex_degs ex_moved wts = Ok s' /\
    well_formed s /\ well_formed s' /\ sp_ps s' = sp_ps s /\ ph_dim (sp_ph s') = ph_dim (sp_ph s) /\ ph_dim (sp_ph s) = 2 /\
    ph_wts (sp_ph s') = ph_wts (sp_ph s) /\ (is_bspline s \/ positive_weights s) /\ npts_of s = [4; 2] /\
    knots_of s = ex_knots /\ degs_of s = ex_degs /\
    ph_cps (sp_ph s) = concat ex_points /\ ph_cps (sp_ph s') = concat ex_moved /\ npts_of s' = [4; 2].
Proof.
  intros Hw. destruct (ex_spline wts) as (n & N1 & N2 & N3 & N4 & N5 & N6 & N7 & N8 & N9 & N10 & N11); [tauto|].
  destruct (spline_new_ok dz0 ex_knots ex_degs ex_moved wts 2 ex_good) as [H1 H2].
  - lia.
  - repeat constructor.
  - reflexivity.
  - reflexivity.
  - intros w E. destruct Hw as [Hw|Hw]; rewrite Hw in E; inversion E; subst; reflexivity.
  - exists n. eexists. split; [exact N1|]. split; [exact H1|]. split; [exact N2|]. split; [exact H2|]. split; [now rewrite N11|].
    split; [now rewrite N8|]. split; [exact N8|]. split; [now rewrite N3|]. split; [|repeat split; assumption].
    destruct Hw as [Hw|Hw]; [left | right; exists ex_weights]; subst wts; [exact N3|]. split; [exact N3 | repeat constructor; lra].
Qed.

Lemma box42 j : in_box [4; 2] j -> exists a b, j = [a; b] /\ 0 <= a < 4 /\ 0 <= b < 2.
Proof.
  intros H. inversion H as [|? a ? l H1 H2]; subst. inversion H2 as [|? b ? l' H3 H4]; subst. inversion H4; subst. eauto.
Qed.

Lemma ex_moved_others (s s' : spline (Rops dz0)) c j : npts_of s = [4; 2] -> npts_of s' = [4; 2] ->
  ph_dim (sp_ph s) = 2 -> ph_dim (sp_ph s') = 2 -> ph_cps (sp_ph s) = concat ex_points -> ph_cps (sp_ph s') = concat ex_moved ->
  0 <= c < 2 -> in_box (npts_of s) j -> j <> [3; 0] -> coordinate s' j c = coordinate s j c.
Proof.
  intros E1 E2 E3 E4 E5 E6 Hc Hj Hne. unfold coordinate. rewrite E1 in *. rewrite E2, E3, E4, E5, E6.
  destruct (box42 j Hj) as (a & b & -> & Ha & Hb).
  assert (Hab : (a = 0 \/ a = 1 \/ a = 2 \/ a = 3) /\ (b = 0 \/ b = 1) /\ (c = 0 \/ c = 1)) by lia.
  destruct Hab as ([->|[->|[->| ->]]] & [->| ->] & [->| ->]); try reflexivity; try lia; exfalso; apply Hne; reflexivity.
Qed.

(* moving control point (3,0) is not seen for 0 < u < 1, and seen at u = 3/2 *)
Lemma ex_unique : exists s s' : spline (Rops dz0),
  well_formed s /\ well_formed s' /\ sp_ps s' = sp_ps s /\ ph_dim (sp_ph s') = ph_dim (sp_ph s) /\
  ph_wts (sp_ph s') = ph_wts (sp_ph s) /\ (is_bspline s \/ positive_weights s) /\ 0 <= 1 < ph_dim (sp_ph s) /\
  (exists us, inside_spans (knots_of s) [2; 1] us) /\
  (forall us, inside_spans (knots_of s) [2; 1] us -> evaluate s' us [1] = evaluate s us [1]) /\
  used_there (degs_of s) [2; 1] [2; 1] /\
  coordinate s' [3; 0] 1 <> coordinate s [3; 0] 1 /\
  Forall2 full_support (knots_of s) (degs_of s).
Proof.
  destruct (ex_moved_spline (Some ex_weights)) as (s & s' & A1 & A2 & A3 & A4 & A5 & A6 & A7 & A8 & A9 & A10 & A11 & A12 & A13 & A14 & A15); [tauto|].
  exists s, s'. repeat (split; [assumption || (rewrite A7; lia)|]). rewrite A11, A12.
  split; [exists [1/2; 1/2]%R; cbn [inside_spans ex_knots]; unfold inside_span, zlen, knot; change (Z.to_nat 2) with 2%nat; change (Z.to_nat 1) with 1%nat; cbn [length nth Nat.add]; repeat (split; try lia; try lra)|].
  split; [|split; [cbn; lia|split]].
  - intros us Hu. assert (Hd : in_domain s us).
    { unfold in_domain. rewrite A11. apply (inside_in_domain ex_knots ex_degs [2; 1]); [exact ex_good | exact Hu]. }
    destruct us as [|u [|v [|]]]; cbn [inside_spans ex_knots] in Hu; try tauto.
    apply (far_point dz0 s s' [u; v] 1 [3; 0]); auto.
    + rewrite A7; lia.
    + rewrite A10. repeat constructor; lia.
    + intros j Hj Hne. apply (ex_moved_others s s'); auto; try lia; congruence.
    + rewrite A11, A12. cbn [off_support ex_knots ex_degs]. left. destruct Hu as [(_ & _ & Hu) _].
      unfold knot in Hu |- *. change (Z.to_nat 2) with 2%nat in Hu. change (Z.to_nat 3) with 3%nat. cbn [nth Nat.add] in Hu |- *. lra.
  - unfold coordinate. rewrite A6, A7, A10, A15, A13, A14.
    change (Z.to_nat (2 * position [4; 2] [3; 0] + 1)) with 7%nat. cbn. lra.
  - constructor; [|constructor; [|constructor]]; intros i Hi; unfold zlen in Hi; cbn in Hi; unfold knot; change (Z.to_nat 2) with 2%nat; change (Z.to_nat 1) with 1%nat.
    + destruct i as [|[|[|[|i]]]]; try lia; cbn; lra.
    + destruct i as [|[|i]]; try lia; cbn; lra.
Qed.

Lemma ex_unique_move : exists s s' : spline (Rops dz0),
  well_formed s /\ well_formed s' /\ sp_ps s' = sp_ps s /\ ph_dim (sp_ph s') = ph_dim (sp_ph s) /\
  ph_wts (sp_ph s') = ph_wts (sp_ph s) /\ (is_bspline s \/ positive_weights s) /\ 0 <= 1 < ph_dim (sp_ph s) /\
  in_domain s [3/2; 1/4]%R /\ in_domain s [1/2; 1/4]%R /\ in_box (npts_of s) [3; 0] /\
  (forall j, in_box (npts_of s) j -> j <> [3; 0] -> coordinate s' j 1 = coordinate s j 1) /\
  off_support (knots_of s) (degs_of s) [1/2; 1/4]%R [3; 0] /\ ~ off_support (knots_of s) (degs_of s) [3/2; 1/4]%R [3; 0].
Proof.
  destruct (ex_moved_spline None) as (s & s' & A1 & A2 & A3 & A4 & A5 & A6 & A7 & A8 & A9 & A10 & A11 & A12 & A13 & A14 & A15); [tauto|].
  exists s, s'. repeat (split; [assumption || (rewrite A7; lia)|]).
  split; [unfold in_domain; rewrite A11; constructor; [|constructor; [|constructor]]; cbn; lra|].
  split; [unfold in_domain; rewrite A11; constructor; [|constructor; [|constructor]]; cbn; lra|].
  split; [rewrite A10; repeat constructor; lia|].
  split; [intros j Hj Hne; apply (ex_moved_others s s'); auto; try lia; congruence|].
  rewrite A11, A12. cbn [off_support ex_knots ex_degs]. unfold knot.
  change (Z.to_nat 3) with 3%nat. change (Z.to_nat 0) with 0%nat. change (Z.to_nat (3 + 2 + 1)) with 6%nat. change (Z.to_nat (0 + 1 + 1)) with 2%nat.
  cbn [nth]. split; [left; lra | lra].
Qed.

(* ---- a control point without support ---- *)
Definition lost_knots : list (list R) := [[0; 0; 1; 1; 1; 2; 2]]%R.
Lemma lost_good : Forall2 good_direction lost_knots [1].
Proof.
  constructor; [|constructor]. split; [lia|]. split; [split; [cbn; lia|]; intros [|[|j]] Hj; try lia; cbn; auto|].
  split; [nondec|]. split; [sepsolve | cbn; lra].
Qed.

Lemma lost_point : exists s s' : spline (Rops dz0), well_formed s /\ well_formed s' /\ is_bspline s /\ sp_ps s' = sp_ps s /\
  ph_dim (sp_ph s') = ph_dim (sp_ph s) /\ ph_wts (sp_ph s') = ph_wts (sp_ph s) /\
  (forall us c, in_domain s us -> 0 <= c < ph_dim (sp_ph s) -> evaluate s' us [c] = evaluate s us [c]) /\
  ph_cps (sp_ph s') <> ph_cps (sp_ph s).
Proof.
  destruct (spline_new_ok dz0 lost_knots [1] [[0]; [1]; [2]; [3]; [4]]%R None 1 lost_good) as [H1 H2]; try lia; try reflexivity.
  { repeat constructor. } { intros w E; discriminate. }
  destruct (spline_new_ok dz0 lost_knots [1] [[0]; [1]; [7]; [3]; [4]]%R None 1 lost_good) as [H3 H4]; try lia; try reflexivity.
  { repeat constructor. } { intros w E; discriminate. }
  eexists. eexists. split; [exact H2|]. split; [exact H4|]. do 4 (split; [reflexivity|]). split.
  - intros us c Hu Hc. apply (far_point dz0 _ _ us c [2] H2 H4); try reflexivity; auto.
    + left; reflexivity.
    + repeat constructor; cbn; lia.
    + intros j Hj Hne. inversion Hj as [|? a ? l J1 J2]; subst. inversion J2; subst. cbn in J1.
      assert (Ha : a = 0 \/ a = 1 \/ a = 2 \/ a = 3 \/ a = 4) by (unfold zlen in J1; cbn in J1; lia). cbn in Hc. assert (c = 0) by lia. subst c.
      destruct Ha as [->|[->|[->|[->| ->]]]]; try reflexivity. exfalso; apply Hne; reflexivity.
    + inversion Hu as [|? u ? l U1 U2]; subst. inversion U2; subst. cbn [off_support]. right. right. left. reflexivity.
  - cbn. intros E. inversion E. lra.
Qed.
