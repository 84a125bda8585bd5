(* Corner tangents and Bezier form: concrete cases. *)
From Coq Require Import ZArith List Bool Lia Reals Lra.
From Verif Require Import Base BaseFacts RSum MultiIndex MultiIndexSpec
  KnotVec KnotVecSpec KnotVecFacts KnotVecThms Basis BasisSpec BasisThms
  Spaces SpacesSpec SpacesFacts SpacesThms SplineEval SplineSpec SplineNew TangentSpec EvalFacts EvalThms TangentFacts BernsteinFacts.
Import ListNotations.
Open Scope Z_scope.

Local Notation dz0 := (fun x : R => x).

Lemma ex_tangent : exists s : spline (Rops dz0), well_formed s /\
  Forall2 exact_ends (knots_of s) (degs_of s) /\ length [true; false] = length (knots_of s) /\ valid_dims s [0; 1] /\
  nth_error (knots_of s) 0 = Some [0; 0; 0; 1; 2; 2; 2]%R /\ nth_error (degs_of s) 0 = Some 2 /\
  let corner := map2 end_index (npts_of s) [true; false] in
  let next := upd corner 0 (end_neighbour (nth 0 (npts_of s) 0) true) in
  corner = [3; 0] /\ next = [2; 0] /\ weight s corner = 3%R /\ weight s next = 1%R /\
  end_slope [0; 0; 0; 1; 2; 2; 2]%R 2 true = (- 2)%R /\
  coordinate s corner 0 = 4%R /\ coordinate s next 0 = 3%R /\
  evaluate_derivative s [2; 0]%R [0] [1; 0] = Ok [(2 / 3)%R].
Proof.
  destruct (ex_spline (Some ex_weights)) as (n & N1 & N2 & N3 & N4 & N5 & N6 & N7 & N8 & N9 & N10 & N11); auto.
  exists n. split; [exact N2|].
  assert (He : Forall2 exact_ends (knots_of n) (degs_of n)).
  { rewrite N6, N7. constructor; [|constructor; [|constructor]]; split; unfold first_knot, final_knot, knot; cbn [ex_knots ex_degs length];
      change (Z.to_nat 2) with 2%nat; change (Z.to_nat 1) with 1%nat; cbn; lra. }
  split; [exact He|]. split; [rewrite N6; reflexivity|]. split; [exact N5|].
  split; [rewrite N6; reflexivity|]. split; [rewrite N7; reflexivity|].
  assert (Ew1 : weight n [3; 0] = 3%R) by (unfold weight; rewrite N3, N10; reflexivity).
  assert (Ew2 : weight n [2; 0] = 1%R) by (unfold weight; rewrite N3, N10; reflexivity).
  assert (Ec1 : coordinate n [3; 0] 0 = 4%R) by (unfold coordinate; rewrite N8, N9, N10; reflexivity).
  assert (Ec2 : coordinate n [2; 0] 0 = 3%R) by (unfold coordinate; rewrite N8, N9, N10; reflexivity).
  assert (Es : end_slope [0; 0; 0; 1; 2; 2; 2]%R 2 true = (- 2)%R).
  { unfold end_slope, final_knot, knot. change (Z.to_nat 2) with 2%nat. cbn [length Nat.sub last nth]. field. }
  pose proof (corner_tangent dz0 n [true; false] 0 [0; 0; 0; 1; 2; 2; 2]%R 2 true [0] N2 He) as T.
  rewrite N6, N7, N10 in *. cbn [map2 end_index nth upd end_neighbour] in *.
  change (4 - 1) with 3 in *. change (4 - 2) with 2 in *.
  repeat (split; [first [reflexivity | assumption]|]).
  assert (T2 := T eq_refl ltac:(constructor; [rewrite N8; lia | constructor]) eq_refl eq_refl eq_refl ltac:(lia) ltac:(rewrite Ew1; lra)).
  rewrite Es, Ew1, Ew2 in T2. cbn [map] in T2. rewrite Ec1, Ec2 in T2.
  replace (2 / 3)%R with (-2 * (1 / 3) * (3 - 4))%R by field. exact T2.
Qed.

Definition bez_knots : list (list R) := [[0; 0; 0; 2; 2; 2]; [1; 1; 3; 3]]%R.
Lemma bez_good : Forall2 good_direction bez_knots [2; 1].
Proof.
  constructor; [|constructor; [|constructor]].
  - split; [lia|]. split; [split; [cbn; lia|]; intros [|[|[|j]]] Hj; try lia; cbn; auto|].
    split; [nondec|]. split; [sepsolve | cbn; lra].
  - split; [lia|]. split; [split; [cbn; lia|]; intros [|[|j]] Hj; try lia; cbn; auto|].
    split; [nondec|]. split; [sepsolve | cbn; lra].
Qed.

Lemma ex_bezier : exists b n : spline (Rops dz0),
  well_formed b /\ is_bspline b /\ well_formed n /\ positive_weights n /\
  Forall2 bezier_knots (knots_of b) (degs_of b) /\ Forall2 bezier_knots (knots_of n) (degs_of n) /\
  in_domain b [1/2; 2]%R /\ in_domain n [2; 1]%R /\ valid_dims b [0; 1] /\ valid_dims n [1] /\
  bernstein [0; 0; 0; 2; 2; 2]%R 2 1 1 = (1 / 2)%R.
Proof.
  set (pts := [[0; 0]; [1; 2]; [3; 1]; [4; 0]; [0; 3]; [1; 5]]%R).
  destruct (spline_new_ok dz0 bez_knots [2; 1] pts None 2 bez_good) as [H1 H2]; try lia; try reflexivity.
  { repeat constructor. } { intros w E; discriminate. }
  destruct (spline_new_ok dz0 bez_knots [2; 1] pts (Some [1; 2; 1; 3; 1; 2]%R) 2 bez_good) as [H3 H4]; try lia; try reflexivity.
  { repeat constructor. } { intros w E; inversion E; reflexivity. }
  eexists. eexists. split; [exact H2|]. split; [reflexivity|]. split; [exact H4|].
  assert (Hz : Forall2 bezier_knots bez_knots [2; 1]).
  { constructor; [exists 0%R, 2%R; reflexivity|]. constructor; [exists 1%R, 3%R; reflexivity | constructor]. }
  split; [eexists; split; [reflexivity | repeat constructor; lra]|].
  split; [exact Hz|]. split; [exact Hz|].
  split; [constructor; [|constructor; [|constructor]]; cbn; lra|].
  split; [constructor; [|constructor; [|constructor]]; cbn; lra|].
  split; [constructor; [|constructor; [|constructor]]; cbn; lia|].
  split; [constructor; [|constructor]; cbn; lia|].
  unfold bernstein, C, first_knot, final_knot. cbn [hd last fact Nat.sub Nat.mul Nat.add pow INR nth length]. field.
Qed.
