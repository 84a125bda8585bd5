(* Concrete cases for C55 and C56, in doubles: a straight line of length 1, degree 2. *)
From Coq Require Import ZArith List Bool Reals Lra Lia Floats.
From Verif Require Import Base BaseFacts RSum MultiIndex MultiIndexSpec MultiIndexFacts KnotVecSpec BasisSpec Spaces SpacesSpec SplineEval SplineSpec
  SplineNew KnotVecThms BasisThms SpacesFacts EvalFacts EvalThms IgaBasisThms IgaSpec Iga IgaFacts IgaThms IgaSystem IgaSystemSpec
  IgaAssembly IgaStiffness IgaSystemThms IgaBoundaryFacts.
Import ListNotations.
Open Scope Z_scope.

Definition line : Res (spline Fops) :=
  spline_new (F := Fops) [[0; 0; 0; 1; 1; 1]]%float [2] [[0]; [0.5]; [1]]%float (Some [1; 1; 1]%float).
(* the Gauss rule with two points *)
Definition gauss2 : list (num Fops * num Fops) := [(-0x1.279a74590331cp-1, 1); (0x1.279a74590331cp-1, 1)]%float.
Definition det1 (m : mat Fops) : num Fops := match m with [[a]] => a | _ => 0%float end.
Definition inv1 (m : mat Fops) : Res (mat Fops) := match m with [[a]] => Ok [[1 / a]]%float | _ => UB end.
(* solution of a system of three equations whose first and last rows are those of the identity *)
Definition solve3 (m : mat Fops) (b : list (num Fops)) : Res (list (num Fops)) :=
  match m, b with
  | [[a; b; c]; [p; q; r]; [d; e; f]], [x; y; z] =>
      if forallb (fun v => fst v =? snd v)%float (combine [a; b; c; d; e; f] [1; 0; 0; 0; 0; 1]%float)
      then Ok [x; (y - p * x - r * z) / q; z]%float else UB
  | _, _ => UB
  end.
Definition trunc1 (x : num Fops) : Z := if (1 <=? x)%float then 1 else 0.

Definition both : Res (list (num Fops) * list (num Fops) * list (list (num Fops)) * list (list (num Fops))) :=
  s <- line ;; p0 <- problem_new (F := Fops) s gauss2 ;;
  a <- steady (F := Fops) det1 inv1 solve3 p0 ;;
  b <- steady (F := Fops) det1 inv1 solve3 (snd a) ;;
  c <- unsteady (F := Fops) det1 inv1 solve3 trunc1 p0 0.125%float 0.125%float None ;;
  d <- unsteady (F := Fops) det1 inv1 solve3 trunc1 (snd c) 0.125%float 0.125%float None ;;
  Ok (fst a, fst b, fst c, fst d).
Definition middle (v : list (num Fops)) : float := nth 1 v 0%float.
Definition steady_same : bool :=
  match both with
  | Ok (a, b, _, _) => (0.25 - 0x1p-20 <? middle a)%float && (middle a <? 0.25 + 0x1p-20)%float && (0.25 - 0x1p-20 <? middle b)%float && (middle b <? 0.25 + 0x1p-20)%float
  | _ => false
  end.
Definition unsteady_differs : bool :=
  match both with Ok (_, _, c, d) => (middle (nth 1 c []) + 0x1p-5 <? middle (nth 1 d []))%float | _ => false end.
Lemma steady_same_true : steady_same = true.
Proof. vm_compute. reflexivity. Qed.
Lemma unsteady_differs_true : unsteady_differs = true.
Proof. vm_compute. reflexivity. Qed.

Lemma unsteady_repeat : exists (s : spline Fops) p0 sols p1 sols' p2,
  problem_new (F := Fops) s gauss2 = Ok p0 /\
  unsteady (F := Fops) det1 inv1 solve3 trunc1 p0 0.125%float 0.125%float None = Ok (sols, p1) /\
  unsteady (F := Fops) det1 inv1 solve3 trunc1 p1 0.125%float 0.125%float None = Ok (sols', p2) /\
  (middle (nth 1 sols []) + 0x1p-5 <? middle (nth 1 sols' []))%float = true.
Proof.
  pose proof unsteady_differs_true as H. unfold unsteady_differs, both in H.
  destruct line as [s| |] in H; try discriminate H. cbn [bind] in H.
  destruct (problem_new s gauss2) as [p0| |] eqn:E0; try discriminate H. cbn [bind] in H.
  destruct (steady det1 inv1 solve3 p0) as [a| |] in H; try discriminate H. cbn [bind] in H.
  destruct (steady det1 inv1 solve3 (snd a)) as [b| |] in H; try discriminate H. cbn [bind] in H.
  destruct (unsteady det1 inv1 solve3 trunc1 p0 0.125%float 0.125%float None) as [[c p1]| |] eqn:E1; try discriminate H. cbn [bind fst snd] in H.
  destruct (unsteady det1 inv1 solve3 trunc1 p1 0.125%float 0.125%float None) as [[d p2]| |] eqn:E2; try discriminate H. cbn [bind fst snd] in H.
  exists s, p0, c, p1, d, p2. repeat (split; [assumption|]). exact H.
Qed.

(* the same line over the reals meets the hypotheses of C56; control point 1 is inside *)
Definition line_knots : list (list R) := [[0; 0; 0; 1; 1; 1]]%R.
Lemma line_good : Forall2 good_direction line_knots [2].
Proof.
  constructor; [|constructor]. split; [lia|]. split; [split; [cbn; lia|]; intros [|[|[|j]]] Hj; try lia; cbn; auto|].
  split; [nondec|]. split; [sepsolve | cbn; lra].
Qed.
Definition rline {dz} : spline (Rops dz) :=
  mkSpline (F := Rops dz) (mkps dz line_knots [2]) (mkPhys (F := Rops dz) 1 [3] [0; 1/2; 1]%R None).
Lemma rline_ok dz : spline_new (F := Rops dz) line_knots [2] [[0]; [1/2]; [1]]%R None = Ok rline /\ well_formed (dz := dz) rline.
Proof.
  apply (spline_new_ok dz line_knots [2] [[0]; [1/2]; [1]]%R None 1 line_good); try reflexivity; try lia.
  - repeat constructor.
  - intros w E. discriminate E.
Qed.
Lemma bernstein u : (0 < u < 1)%R -> cox_de_boor [0; 0; 0; 1; 1; 1]%R 2 0 u = ((1 - u) * (1 - u))%R /\
  cox_de_boor [0; 0; 0; 1; 1; 1]%R 2 1 u = (2 * u * (1 - u))%R /\ cox_de_boor [0; 0; 0; 1; 1; 1]%R 2 2 u = (u * u)%R.
Proof.
  intros H. cbn [cox_de_boor].
  assert (P0 : ~ in_piece [0; 0; 0; 1; 1; 1]%R 0 u) by (unfold in_piece, knot, final_knot; cbn; lra).
  assert (P1 : ~ in_piece [0; 0; 0; 1; 1; 1]%R 1 u) by (unfold in_piece, knot, final_knot; cbn; lra).
  assert (P2 : in_piece [0; 0; 0; 1; 1; 1]%R 2 u) by (unfold in_piece, knot, final_knot; cbn; lra).
  assert (P3 : ~ in_piece [0; 0; 0; 1; 1; 1]%R 3 u) by (unfold in_piece, knot, final_knot; cbn; lra).
  assert (P4 : ~ in_piece [0; 0; 0; 1; 1; 1]%R 4 u) by (unfold in_piece, knot, final_knot; cbn; lra).
  cbn [Nat.add]. destruct (in_piece_dec _ 0 u) as [|_]; [contradiction|]. destruct (in_piece_dec _ 1 u) as [|_]; [contradiction|].
  destruct (in_piece_dec _ 2 u) as [_|]; [|contradiction]. destruct (in_piece_dec _ 3 u) as [|_]; [contradiction|].
  destruct (in_piece_dec _ 4 u) as [|_]; [contradiction|].
  unfold quotient, knot. cbn [nth]. repeat (destruct (Req_EM_T _ _); try lra). all: repeat split; field.
Qed.
Lemma rline_geometry dz u : (0 < u < 1)%R -> geometry (dz := dz) rline [u] 0 = u.
Proof.
  intros Hu. destruct (bernstein u Hu) as (A0 & A1 & A2). set (h := cox_de_boor [0; 0; 0; 1; 1; 1]%R 2) in *. unfold geometry.
  assert (W : weight_function (dz := dz) rline [u] = (h 0%nat u * 1 * 1 + (h 1%nat u * 1 * 1 + (h 2%nat u * 1 * 1 + 0)))%R) by reflexivity.
  assert (S0 : weighted_sum (dz := dz) rline [u] 0 =
    (h 0%nat u * 1 * (1 * 0) + (h 1%nat u * 1 * (1 * (1/2)) + (h 2%nat u * 1 * (1 * 1) + 0)))%R) by reflexivity.
  rewrite W, S0, A0, A1, A2. field. lra.
Qed.
Lemma rline_lists dz : element_lists (F := Rops dz) rline = Ok [[(0, 1)]]%R.
Proof.
  rewrite element_lists_ok by (apply rline_ok). f_equal. change (knots_of _) with line_knots. change (degs_of _) with [2].
  cbn [dlists map2 line_knots]. change (inner [0; 0; 0; 1; 1; 1]%R 2) with [0; 1]%R. cbn [pairs]. repeat (destruct (Req_EM_T _ _); try lra). reflexivity.
Qed.
Definition rinv1 (m : list (list R)) : Res (list (list R)) :=
  match m with [[a]] => if Req_EM_T a 0 then Throw RuntimeError else Ok [[/ a]]%R | _ => UB end.
(* three equations, the first and the last of them those of the identity *)
Definition rsolve3 (m : list (list R)) (b : list R) : Res (list R) :=
  match m, b with
  | [[a; b; c]; [p; q; r]; [d; e; f]], [x; y; z] =>
      if Req_EM_T a 1 then if Req_EM_T b 0 then if Req_EM_T c 0 then
      if Req_EM_T d 0 then if Req_EM_T e 0 then if Req_EM_T f 1 then
      if Req_EM_T q 0 then Throw RuntimeError else Ok [x; (y - p * x - r * z) / q; z]%R
      else UB else UB else UB else UB else UB else UB
  | _, _ => UB
  end.
Lemma rsolve3_sound m v x : rsolve3 m v = Ok x -> solves 3 m v x.
Proof.
  unfold rsolve3. destruct m as [|[|a [|b [|c [|]]]] [|[|p [|q [|r [|]]]] [|[|d [|e [|f [|]]]] [|]]]]; try discriminate.
  destruct v as [|v0 [|v1 [|v2 [|]]]]; try discriminate.
  destruct (Req_EM_T a 1) as [->|]; try discriminate. destruct (Req_EM_T b 0) as [->|]; try discriminate.
  destruct (Req_EM_T c 0) as [->|]; try discriminate. destruct (Req_EM_T d 0) as [->|]; try discriminate.
  destruct (Req_EM_T e 0) as [->|]; try discriminate. destruct (Req_EM_T f 1) as [->|]; try discriminate.
  destruct (Req_EM_T q 0) as [|Hq]; try discriminate. intros E. injection E as <-. split; [reflexivity|].
  change (zseq 0 (Z.to_nat 3)) with [0; 1; 2]. intros i Hi. assert (C : i = 0 \/ i = 1 \/ i = 2) by lia.
  destruct C as [->|[->| ->]]; unfold entry, component; change (Z.to_nat 0) with 0%nat; change (Z.to_nat 1) with 1%nat; change (Z.to_nat 2) with 2%nat; cbn [lsum];
  change (Z.to_nat 0) with 0%nat; change (Z.to_nat 1) with 1%nat; change (Z.to_nat 2) with 2%nat; cbn [nth]; field; auto.
Qed.

Lemma ex_line : forall dz, exists s : spline (Rops dz),
  spline_new (F := Rops dz) line_knots [2] [[0]; [1/2]; [1]]%R None = Ok s /\ well_formed s /\ unit_weights s /\
  degs_of s <> [] /\ Z.of_nat (length (degs_of s)) <= total (local_sizes (degs_of s)) /\ inner_rule [(- (1/2), 1); (1/2, 1)]%R /\
  (forall lists es us, element_lists s = Ok lists -> in_box (map zlen lists) es -> strictly_inside lists es us -> invertible_at rinv1 s us) /\
  (forall m v x, rsolve3 m v = Ok x -> solves (total (npts_of s)) m v x) /\
  in_box (npts_of s) [1] /\ ~ at_boundary (npts_of s) [1] /\
  rsolve3 [[1; 0; 0]; [2; 4; 2]; [0; 0; 1]]%R [0; 1; 0]%R = Ok [0; 1/4; 0]%R.
Proof.
  intros dz. destruct (rline_ok dz) as (E & Hwf). exists rline. split; auto. split; auto. split; [intros idx _; reflexivity|].
  split; [discriminate|]. split; [vm_compute; discriminate|]. split; [split; [discriminate|]; repeat constructor; cbn; lra|]. split.
  - intros lists es us El He Hin. rewrite rline_lists in El. injection El as <-.
    assert (Hus : exists u, us = [u] /\ (0 < u < 1)%R).
    { inversion He as [|? e0 ? es0 H0 He0]; subst. inversion He0; subst. assert (e0 = 0) by (cbn in H0; lia). subst.
      destruct us as [|u [|w us]]; cbn [strictly_inside] in Hin; try tauto. change (Z.to_nat 0) with 0%nat in Hin. cbn [nth fst snd] in Hin.
      exists u. tauto. }
    destruct Hus as (u & -> & Hu). split; [cbn; lia|]. intros D HD.
    assert (D0 : D 0 0%nat = 1%R).
    { assert (Pu : (0 < Rmin u (1 - u))%R) by (apply Rmin_pos; lra).
      eapply uniqueness_limite; [apply HD; cbn; lia|]. cbn [upd nth].
      eapply (derivable_near (fun x => x)%R _ _ _ (mkposreal _ Pu)); [|apply derivable_pt_lim_id].
      intros x Hx. symmetry. apply (rline_geometry dz). pose proof (Rmin_l u (1 - u)). pose proof (Rmin_r u (1 - u)). apply Rabs_def2 in Hx. cbn in Hx. lra. }
    unfold table. cbn [length seq map Z.of_nat Pos.of_succ_nat]. rewrite D0. unfold inverts, rinv1.
    destruct (Req_EM_T 1 0) as [C|_]; [lra|]. eexists. split; [reflexivity|]. split; [reflexivity|]. split; [repeat constructor|].
    intros [|k] [|d] Hk Hd; try lia; cbn; field.
  - split; [intros m v x; apply rsolve3_sound|]. split; [repeat constructor; cbn; lia|]. split.
    + intros (d & n & i & H1 & H2 & H3). destruct d as [|[|d]]; cbn in H1, H2; try discriminate H1; inversion H1; inversion H2; subst; lia.
    + unfold rsolve3. repeat (destruct (Req_EM_T _ _); try lra). f_equal. f_equal. f_equal. field.
Qed.

(* the hypotheses of C55 for 3 x 3 control points: one of them is inside *)
Lemma ex_boundary : pos_lens [3; 3] /\ in_box [3; 3] [1; 1] /\ ~ at_boundary [3; 3] [1; 1] /\
  in_box [3; 3] [0; 2] /\ at_boundary [3; 3] [0; 2] /\
  boundary_list [3; 3] [[0; 0]; [1; 0]; [2; 0]; [0; 1]; [2; 1]; [0; 2]; [1; 2]; [2; 2]].
Proof.
  assert (P : pos_lens [3; 3]) by (repeat (constructor; [lia|]); constructor).
  split; [exact P|]. split; [repeat constructor; lia|]. split.
  { intros (d & n & i & H1 & H2 & H3). destruct d as [|[|[|d]]]; cbn in H1, H2; try discriminate H1; inversion H1; inversion H2; subst; lia. }
  split; [repeat constructor; lia|]. split; [exists 0%nat, 3, 0; cbn; auto|].
  pose proof (order_spec [3; 3] P) as H. replace (boundary_order [3; 3]) with [[0; 0]; [1; 0]; [2; 0]; [0; 1]; [2; 1]; [0; 2]; [1; 2]; [2; 2]] in H by (vm_compute; reflexivity).
  exact H.
Qed.
