(* A concrete case for C52 to C54: the rectangle [0,2] x [0,1] as a bilinear patch. *)
From Coq Require Import ZArith List Bool Reals Lra Lia Floats.
From Verif Require Import Base BaseFacts RSum MultiIndex MultiIndexSpec MultiIndexFacts KnotVecSpec BasisSpec Spaces SpacesSpec SplineEval SplineSpec
  SplineNew KnotVecThms BasisThms SpacesFacts EvalFacts EvalThms IgaBasisThms IgaSpec Iga IgaFacts IgaThms IgaSystem IgaSystemSpec
  IgaAssembly IgaStiffness IgaSystemThms.
Import ListNotations.
Open Scope Z_scope.

Definition patch_knots : list (list R) := [[0; 0; 1; 1]; [0; 0; 1; 1]]%R.
Definition patch_points : list (list R) := [[0; 0]; [2; 0]; [0; 1]; [2; 1]]%R.
Definition det2 (m : list (list R)) : R :=
  match m with [[a; b]; [c; d]] => (a * d - b * c)%R | [[a]] => a | _ => 0%R end.
Definition inv2 (m : list (list R)) : Res (list (list R)) :=
  match m with
  | [[a; b]; [c; d]] => let q := (a * d - b * c)%R in
      if Req_EM_T q 0 then Throw RuntimeError else Ok [[d / q; - b / q]; [- c / q; a / q]]%R
  | _ => UB
  end.
Definition middle_rule : list (R * R) := [(- (1 / 2), 1); (1 / 2, 1)]%R.

Lemma patch_good : Forall2 good_direction patch_knots [1; 1].
Proof.
  assert (H : good_direction [0; 0; 1; 1]%R 1).
  { split; [lia|]. split; [split; [cbn; lia|]; intros [|[|j]] Hj; try lia; cbn; auto|].
    split; [nondec|]. split; [sepsolve | cbn; lra]. }
  constructor; [exact H|]. constructor; [exact H|constructor].
Qed.

Definition patch {dz} : spline (Rops dz) :=
  mkSpline (F := Rops dz) (mkps dz patch_knots [1; 1]) (mkPhys (F := Rops dz) 2 [2; 2] [0; 0; 2; 0; 0; 1; 2; 1]%R None).
Lemma patch_ok dz : spline_new (F := Rops dz) patch_knots [1; 1] patch_points None = Ok patch /\ well_formed (dz := dz) patch.
Proof.
  apply (spline_new_ok dz patch_knots [1; 1] patch_points None 2 patch_good); try reflexivity; try lia.
  - repeat constructor.
  - intros w E. discriminate E.
Qed.

Lemma patch_hats u : (0 < u < 1)%R -> cox_de_boor [0; 0; 1; 1]%R 1 0 u = (1 - u)%R /\ cox_de_boor [0; 0; 1; 1]%R 1 1 u = u.
Proof. intros H. destruct (ex_rational_basis u H) as (E0 & E1). cbn [basis_product] in E0, E1. rewrite Rmult_1_r in E0, E1. now split. Qed.

Lemma patch_geometry dz u v : (0 < u < 1)%R -> (0 < v < 1)%R ->
  geometry (dz := dz) patch [u; v] 0 = (2 * u)%R /\ geometry (dz := dz) patch [u; v] 1 = v.
Proof.
  intros Hu Hv. destruct (patch_hats u Hu) as (A0 & A1). destruct (patch_hats v Hv) as (B0 & B1).
  set (h := cox_de_boor [0; 0; 1; 1]%R 1) in *. unfold geometry.
  assert (W : weight_function (dz := dz) patch [u; v] =
    (h 0%nat u * (h 0%nat v * 1) * 1 + (h 0%nat u * (h 1%nat v * 1) * 1 + (h 1%nat u * (h 0%nat v * 1) * 1 + (h 1%nat u * (h 1%nat v * 1) * 1 + 0))))%R) by reflexivity.
  assert (S0 : weighted_sum (dz := dz) patch [u; v] 0 =
    (h 0%nat u * (h 0%nat v * 1) * (1 * 0) + (h 0%nat u * (h 1%nat v * 1) * (1 * 0) + (h 1%nat u * (h 0%nat v * 1) * (1 * 2) + (h 1%nat u * (h 1%nat v * 1) * (1 * 2) + 0))))%R) by reflexivity.
  assert (S1 : weighted_sum (dz := dz) patch [u; v] 1 =
    (h 0%nat u * (h 0%nat v * 1) * (1 * 0) + (h 0%nat u * (h 1%nat v * 1) * (1 * 1) + (h 1%nat u * (h 0%nat v * 1) * (1 * 0) + (h 1%nat u * (h 1%nat v * 1) * (1 * 1) + 0))))%R) by reflexivity.
  rewrite W, S0, S1, A0, A1, B0, B1. split; field; lra.
Qed.

Lemma patch_partials dz u v D : (0 < u < 1)%R -> (0 < v < 1)%R -> partials (dz := dz) patch [u; v] D ->
  D 0 0%nat = 2%R /\ D 0 1%nat = 0%R /\ D 1 0%nat = 0%R /\ D 1 1%nat = 1%R.
Proof.
  intros Hu Hv H.
  assert (Pu : (0 < Rmin u (1 - u))%R) by (apply Rmin_pos; lra). assert (Pv : (0 < Rmin v (1 - v))%R) by (apply Rmin_pos; lra).
  assert (Nu : forall x, (Rabs x < Rmin u (1 - u))%R -> (0 < u + x < 1)%R).
  { intros x Hx. pose proof (Rmin_l u (1 - u)). pose proof (Rmin_r u (1 - u)). apply Rabs_def2 in Hx. lra. }
  assert (Nv : forall x, (Rabs x < Rmin v (1 - v))%R -> (0 < v + x < 1)%R).
  { intros x Hx. pose proof (Rmin_l v (1 - v)). pose proof (Rmin_r v (1 - v)). apply Rabs_def2 in Hx. lra. }
  repeat split; eapply uniqueness_limite; (apply H; cbn; lia) || idtac; cbn [upd nth].
  - eapply (derivable_near (fun x => 2 * x)%R _ _ _ (mkposreal _ Pu)).
    + intros x Hx. symmetry. exact (proj1 (patch_geometry dz _ v (Nu x Hx) Hv)).
    + pose proof (derivable_pt_lim_scal id 2 u 1 (derivable_pt_lim_id u)) as L. rewrite Rmult_1_r in L. exact L.
  - eapply (derivable_near (fun _ => 2 * u)%R _ _ _ (mkposreal _ Pv)); [|apply derivable_pt_lim_const].
    intros x Hx. symmetry. exact (proj1 (patch_geometry dz u _ Hu (Nv x Hx))).
  - eapply (derivable_near (fun _ => v)%R _ _ _ (mkposreal _ Pu)); [|apply derivable_pt_lim_const].
    intros x Hx. symmetry. exact (proj2 (patch_geometry dz _ v (Nu x Hx) Hv)).
  - eapply (derivable_near (fun x => x)%R _ _ _ (mkposreal _ Pv)); [|apply derivable_pt_lim_id].
    intros x Hx. symmetry. exact (proj2 (patch_geometry dz u _ Hu (Nv x Hx))).
Qed.

Lemma patch_lists dz : element_lists (F := Rops dz) patch = Ok [[(0, 1)]; [(0, 1)]]%R.
Proof.
  rewrite element_lists_ok by (apply patch_ok). f_equal. change (knots_of _) with patch_knots. change (degs_of _) with [1; 1].
  cbn [dlists map2 patch_knots]. change (inner [0; 0; 1; 1]%R 1) with [0; 1]%R. cbn [pairs]. repeat (destruct (Req_EM_T _ _); try lra). reflexivity.
Qed.

Lemma ex_patch : forall dz, exists s : spline (Rops dz),
  spline_new (F := Rops dz) patch_knots [1; 1] patch_points None = Ok s /\ well_formed s /\ regular s /\ unit_weights s /\
  degs_of s <> [] /\ Z.of_nat (length (degs_of s)) <= total (local_sizes (degs_of s)) /\
  inner_rule middle_rule /\ Forall (fun q => 0 <= snd q)%R middle_rule /\
  (forall a b c d, det2 [[a; b]; [c; d]] = a * d - b * c)%R /\
  element_lists s = Ok [[(0, 1)]; [(0, 1)]]%R /\ in_box (map zlen [[(0, 1)]; [(0, 1)]]%R) [0; 0] /\
  strictly_inside [[(0, 1)]; [(0, 1)]]%R [0; 0] [1/2; 1/4]%R /\
  (forall lists es us, element_lists s = Ok lists -> in_box (map zlen lists) es -> strictly_inside lists es us -> invertible_at inv2 s us) /\
  jacobian_determinant (F := Rops dz) det2 s [1/2; 1/4]%R = Ok (1 / 2)%R.
Proof.
  intros dz. destruct (patch_ok dz) as (E & Hwf). exists patch. split; auto. split; auto.
  assert (Hunit : unit_weights (dz := dz) patch) by (intros idx _; reflexivity).
  assert (Hreg : regular (dz := dz) patch) by (exact (unit_regular patch Hwf Hunit)).
  assert (Hstrict : strictly_inside [[(0, 1)]; [(0, 1)]]%R [0; 0] [1/2; 1/4]%R).
  { cbv [strictly_inside]. change (Z.to_nat 0) with 0%nat. cbn [nth fst snd]. repeat split; lra. }
  assert (Hbox : in_box [1; 1] [0; 0]) by (repeat constructor; lia).
  split; auto. split; auto. split; [discriminate|]. split; [vm_compute; discriminate|].
  split; [split; [discriminate|]; repeat constructor; cbn; lra|]. split; [repeat constructor; cbn; lra|]. split; [reflexivity|].
  split; [apply patch_lists|]. split; [exact Hbox|]. split; auto. split.
  - intros lists es us El He Hin. rewrite patch_lists in El. injection El as <-.
    assert (Hus : exists u v, us = [u; v] /\ (0 < u < 1)%R /\ (0 < v < 1)%R).
    { inversion He as [|? e0 ? es0 H0 He0]; subst. inversion He0 as [|? e1 ? es1 H1 He1]; subst. inversion He1; subst.
      assert (e0 = 0) by (cbn in H0; lia). assert (e1 = 0) by (cbn in H1; lia). subst.
      destruct us as [|u [|v [|w us]]]; cbn [strictly_inside] in Hin; try tauto. change (Z.to_nat 0) with 0%nat in Hin. cbn [nth fst snd] in Hin.
      exists u, v. tauto. }
    destruct Hus as (u & v & -> & Hu & Hv). split; [cbn; lia|]. intros D HD. destruct (patch_partials dz u v D Hu Hv HD) as (D00 & D01 & D10 & D11).
    unfold table. cbn [length seq map Z.of_nat Pos.of_succ_nat]. rewrite D00, D01, D10, D11. unfold inverts, inv2.
    destruct (Req_EM_T _ 0) as [C|_]; [lra|]. eexists. split; [reflexivity|]. split; [reflexivity|]. split; [repeat constructor|].
    intros [|[|k]] [|[|d]] Hk Hd; try lia; cbn; field.
  - destruct (jacobian_plane det2 (patch (dz := dz)) ltac:(reflexivity) Hwf Hreg eq_refl eq_refl) as (l1 & l2 & El & H).
    rewrite patch_lists in El. injection El as <- <-. destruct (H 0 0 (1/2)%R (1/4)%R Hbox Hstrict) as (D & HD & ->).
    destruct (patch_partials dz (1/2) (1/4) D ltac:(lra) ltac:(lra) HD) as (-> & -> & -> & ->).
    change (Z.to_nat 0) with 0%nat. cbn [nth fst snd]. f_equal. rewrite Rabs_right by lra. field.
Qed.
