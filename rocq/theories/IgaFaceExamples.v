(* Concrete cases for C57. *)
From Coq Require Import ZArith List Bool Reals Lra Lia Floats.
From Verif Require Import Base BaseFacts RSum MultiIndex MultiIndexSpec MultiIndexFacts KnotVecSpec BasisSpec Spaces SpacesSpec SplineEval SplineSpec
  SplineNew KnotVecThms BasisThms SpacesFacts EvalFacts EvalThms IgaBasisThms IgaSpec Iga IgaSystem IgaSystemSpec IgaStiffness IgaSystemExamples.
Import ListNotations.
Open Scope Z_scope.

(* nine points, three in each direction, but other knots in the second direction *)
Definition uneven : Res (spline Fops) :=
  spline_new (F := Fops) [[0; 0; 1; 2; 2]; [0; 0; 0.5; 2; 2]]%float [1; 1]
    [[0; 0]; [1; 0]; [2; 0]; [0; 1]; [1; 1]; [2; 1]; [0; 2]; [1; 2]; [2; 2]]%float None.
Definition uneven_values : Res (list (num Fops) * list (num Fops)) :=
  s <- uneven ;; bs <- boundary_splines (F := Fops) s ;; b <- dget bs 0 ;;
  x <- evaluate (F := Fops) (fst b) [0.5]%float [0; 1] ;;
  y <- evaluate (F := Fops) s [0; 0.5]%float [0; 1] ;;
  Ok (x, y).
Definition uneven_differs : bool :=
  match uneven_values with
  | Ok ([x0; x1], [y0; y1]) => (x0 =? 0)%float && (x1 =? 0.5)%float && (y0 =? 0)%float && (y1 =? 1)%float
  | _ => false
  end.
Lemma uneven_differs_true : uneven_differs = true.
Proof. vm_compute. reflexivity. Qed.

Lemma faces_differ : exists (s : spline Fops) a b rest x y,
  uneven = Ok s /\ boundary_splines (F := Fops) s = Ok ((a, b) :: rest) /\
  evaluate (F := Fops) a [0.5]%float [0; 1] = Ok x /\ evaluate (F := Fops) s [0; 0.5]%float [0; 1] = Ok y /\
  (nth 1 x 0 =? 0.5)%float = true /\ (nth 1 y 0 =? 1)%float = true.
Proof.
  pose proof uneven_differs_true as H. unfold uneven_differs, uneven_values in H.
  destruct uneven as [s| |] eqn:E0; try discriminate H. cbn [bind] in H.
  destruct (boundary_splines s) as [bs| |] eqn:E1; try discriminate H. cbn [bind] in H.
  destruct bs as [|[a b] rest]; [discriminate H|]. cbn [dget nth_error bind fst] in H.
  destruct (evaluate a [0.5]%float [0; 1]) as [x| |] eqn:E2; try discriminate H. cbn [bind] in H.
  destruct (evaluate s [0; 0.5]%float [0; 1]) as [y| |] eqn:E3; try discriminate H. cbn [bind] in H.
  exists s, a, b, rest, x, y. split; [reflexivity|]. repeat (split; [assumption|]).
  destruct x as [|x0 [|x1 [|x2 x]]]; try discriminate H. destruct y as [|y0 [|y1 [|y2 y]]]; try discriminate H. cbn [nth].
  apply andb_prop in H. destruct H as (H & H4). apply andb_prop in H. destruct H as (H & H3). apply andb_prop in H. destruct H as (H1 & H2). now split.
Qed.

Lemma ex_faces : forall dz, exists s : spline (Rops dz),
  spline_new (F := Rops dz) patch_knots [1; 1] patch_points None = Ok s /\ well_formed s /\ regular s /\
  Forall2 exact_ends (knots_of s) (degs_of s) /\ total (npts_of s) < 2 ^ 64 /\ inner_rule middle_rule /\
  (2 <= length (degs_of s))%nat /\ Forall (eq [0; 0; 1; 1]%R) (knots_of s) /\ Forall (eq 1) (degs_of s) /\ Forall (eq 2) (npts_of s) /\
  (forall d g h, nth_error [([1; 2], [3; 4]); ([5; 6], [7; 8])]%R d = Some (g, h) ->
     zlen g = total (remove_at d (npts_of s)) /\ zlen h = total (remove_at d (npts_of s))) /\
  zlen [0; 0; 0; 0]%R = total (npts_of s) /\ in_box (npts_of s) [1; 0] /\ position (npts_of s) [1; 0] = 1.
Proof.
  intros dz. destruct (patch_ok dz) as (E & Hwf). exists patch. split; auto. split; auto.
  assert (Hunit : unit_weights (dz := dz) patch) by (intros idx _; reflexivity).
  split; [exact (unit_regular patch Hwf Hunit)|].
  split. { assert (X : exact_ends [0; 0; 1; 1]%R 1) by (unfold exact_ends; vm_compute; repeat split; reflexivity || lra). constructor; [exact X|]. constructor; [exact X|constructor]. }
  split; [vm_compute; reflexivity|]. split; [split; [discriminate|]; repeat constructor; cbn; lra|].
  split; [cbn; lia|]. split; [repeat constructor|]. split; [repeat constructor|]. split; [repeat constructor|].
  split. { intros [|[|d]] g h Eq; [| |destruct d; discriminate Eq]; injection Eq as <- <-; split; reflexivity. }
  split; [reflexivity|]. split; [repeat constructor; lia|reflexivity].
Qed.

Lemma ex_rejected : forall dz, exists s : spline (Rops dz), well_formed s /\ total (npts_of s) < 2 ^ 64 /\
  (0 < length (npts_of s))%nat /\ nth 0 (npts_of s) 0 <> last (npts_of s) 0.
Proof.
  intros dz.
  assert (G : Forall2 good_direction [[0; 0; 1; 1]; [0; 0; 1; 2; 2]]%R [1; 1]).
  { constructor; [|constructor; [|constructor]].
    - pose proof patch_good as H. inversion H; assumption.
    - split; [lia|]. split; [split; [cbn; lia|]; intros [|[|j]] Hj; try lia; cbn; auto|].
      split; [nondec|]. split; [sepsolve | cbn; lra]. }
  destruct (spline_new_ok dz [[0; 0; 1; 1]; [0; 0; 1; 2; 2]]%R [1; 1] [[0; 0]; [1; 0]; [0; 1]; [1; 1]; [0; 2]; [1; 2]]%R None 2 G) as (E & Hwf); try reflexivity; try lia.
  - repeat constructor.
  - intros w Ew. discriminate Ew.
  - eexists. split; [exact Hwf|]. split; [vm_compute; reflexivity|]. split; [cbn; lia|vm_compute; discriminate].
Qed.
