(* Affine change of the parameters: a concrete case. *)
From Coq Require Import ZArith List Bool Lia Reals Lra.
From Verif Require Import Base BaseFacts RSum MultiIndex MultiIndexSpec
  KnotVec KnotVecSpec KnotVecFacts KnotVecThms Basis BasisSpec BasisThms
  Spaces SpacesSpec SpacesFacts SpacesThms SplineEval SplineSpec SplineNew RescaleSpec EvalFacts EvalThms RescaleFacts.
Import ListNotations.
Open Scope Z_scope.

Local Notation dz0 := (fun x : R => x).
Definition resc : list (R * R) := [(2, 1); (1/2, -3)]%R.

Lemma ex_rescaled : exists s s' : spline (Rops dz0), well_formed s /\ well_formed s' /\ positive_weights s /\
  Forall (fun ab => 0 < fst ab)%R [(2, 1); (1/2, -3)]%R /\
  knots_of s' = map2 (fun kv ab => map (affine ab) kv) (knots_of s) [(2, 1); (1/2, -3)]%R /\
  hd [] (knots_of s) = [0; 0; 0; 1; 2; 2; 2]%R /\ hd [] (knots_of s') = [1; 1; 1; 3; 5; 5; 5]%R /\
  degs_of s' = degs_of s /\ sp_ph s' = sp_ph s /\ in_domain s [1/2; 1/4]%R /\ ~ in_domain s [3; 1/4]%R /\ valid_dims s [0; 1] /\
  chain_factor [(2, 1); (1/2, -3)]%R [1; 2] = 2%R.
Proof.
  destruct (ex_spline (Some ex_weights)) as (n & N1 & N2 & N3 & N4 & N5 & N6 & N7 & N8 & N9 & N10 & N11); auto.
  assert (Ek : map2 (fun kv ab => map (affine ab) kv) ex_knots resc = [[1; 1; 1; 3; 5; 5; 5]; [-3; -3; -5/2; -5/2]]%R).
  { cbn [ex_knots resc map2 map]. unfold affine. cbn [fst snd]. repeat (f_equal; try lra). }
  assert (G : Forall2 good_direction [[1; 1; 1; 3; 5; 5; 5]; [-3; -3; -5/2; -5/2]]%R ex_degs).
  { constructor; [|constructor; [|constructor]].
    - split; [lia|]. split; [split; [cbn; lia|]; intros [|[|[|j]]] Hj; try lia; cbn; auto|].
      split; [nondec|]. split; [sepsolve | cbn; lra].
    - split; [lia|]. split; [split; [cbn; lia|]; intros [|[|j]] Hj; try lia; cbn; auto|].
      split; [nondec|]. split; [sepsolve | cbn; lra]. }
  destruct (spline_new_ok dz0 _ ex_degs ex_points (Some ex_weights) 2 G) as [H1 H2]; try lia; try reflexivity.
  { repeat constructor. } { intros w E; inversion E; reflexivity. }
  destruct (spline_new_ok dz0 _ ex_degs ex_points (Some ex_weights) 2 ex_good) as [H3 H4]; try lia; try reflexivity.
  { repeat constructor. } { intros w E; inversion E; reflexivity. }
  exists n. eexists. split; [exact N2|]. split; [exact H2|].
  split; [exists ex_weights; split; auto; repeat constructor; lra|].
  split; [constructor; [|constructor; [|constructor]]; cbn; lra|].
  split; [rewrite N6; symmetry; exact Ek|]. split; [rewrite N6; reflexivity|].
  split; [reflexivity|].
  split; [rewrite N7; reflexivity|].
  split.
  { assert (En : n = mkSpline (F := Rops dz0) (mkps dz0 ex_knots ex_degs)
             (mkPhys (F := Rops dz0) 2 (map2 (fun kv p => zlen kv - p - 1) ex_knots ex_degs) (concat ex_points) (Some ex_weights))).
    { assert (Eo : Ok n = Ok (mkSpline (F := Rops dz0) (mkps dz0 ex_knots ex_degs)
             (mkPhys (F := Rops dz0) 2 (map2 (fun kv p => zlen kv - p - 1) ex_knots ex_degs) (concat ex_points) (Some ex_weights)))) by (rewrite <- N1; exact H3).
      now inversion Eo. }
    rewrite En. reflexivity. }
  split; [exact N4|].
  split; [unfold in_domain; rewrite N6; intros C; inversion C as [|? ? ? ? C1 _]; subst; cbn in C1; lra|].
  split; [exact N5|].
  unfold chain_factor. change (map2 (fun (ab : R * R) m => (/ fst ab ^ Z.to_nat m)%R) [(2, 1); (1/2, -3)]%R [1; 2]) with [(/ 2 ^ 1)%R; (/ (1/2) ^ 2)%R].
  cbn [fold_right pow]. field.
Qed.
