(* The example programs (C88). *)
From Coq Require Import ZArith String List Bool Lia Reals Lra Floats.
From Verif Require Import Base BaseFacts RSum MultiIndex MultiIndexSpec KnotVec KnotVecSpec KnotVecFacts KnotVecThms BasisThms Basis Spaces SpacesSpec SplineEval
  SplineSpec SplineNew EvalThms Convert ConvertSpec Vtk VtkSpec VtkFacts VtkThms TangentSpec TangentFacts BernsteinFacts HeapThms Programs.
Import ListNotations.
Open Scope Z_scope.

Lemma optimizer_refuses : forall (F : NumOps) (atof : string -> F) argv, zlen argv <> 3 -> optimizer_main atof argv = Throw RuntimeError.
Proof. intros F atof argv H. unfold optimizer_main. destruct (Z.eqb_spec (zlen argv) 3); [contradiction | reflexivity]. Qed.

Lemma ex1_value : match ex1_main (F := Fops) with Ok [v] => PrimFloat.eqb v 9 | _ => false end = true.
Proof. vm_compute. reflexivity. Qed.
Lemma ex1_runs : exists v : float, ex1_main (F := Fops) = Ok [v] /\ PrimFloat.eqb v 9 = true.
Proof. pose proof ex1_value as H. destruct (ex1_main (F := Fops)) as [[|v [|]]| |]; try discriminate. eauto. Qed.

Definition opt_points {F : NumOps} (x y : F) : list (list F) := [[nofZ (-1); n0]; [x; y]; [n1; n0]].

Lemma points_three (F : NumOps) (atof : string -> F) name a b :
  optimizer_points atof [name; a; b] = Ok (opt_points (atof a) (atof b)).
Proof. reflexivity. Qed.

Lemma main_three (F : NumOps) (atof : string -> F) name a b s : optimizer_curve (opt_points (atof a) (atof b)) = Ok s ->
  optimizer_main atof [name; a; b] = UB.
Proof.
  intros H. unfold optimizer_main. change (negb (zlen [name; a; b] =? 3)) with false. cbv iota.
  rewrite points_three. cbn [bind]. rewrite H. reflexivity.
Qed.

Lemma curve_double (x y : float) : exists s, optimizer_curve (F := Fops) (opt_points (F := Fops) x y) = Ok s.
Proof.
  assert (H : match optimizer_curve (F := Fops) (opt_points (F := Fops) x y) with Ok _ => true | _ => false end = true) by (vm_compute; reflexivity).
  destruct (optimizer_curve (F := Fops) (opt_points (F := Fops) x y)) as [s| |]; try discriminate. now exists s.
Qed.

Lemma optimizer_null : forall (atof : string -> float) name a b,
  (exists s, optimizer_points (F := Fops) atof [name; a; b] = Ok [[(-1)%float; 0%float]; [atof a; atof b]; [1%float; 0%float]] /\
     optimizer_curve (F := Fops) [[(-1)%float; 0%float]; [atof a; atof b]; [1%float; 0%float]] = Ok s) /\
  optimizer_main (F := Fops) atof [name; a; b] = UB.
Proof.
  intros atof name a b. destruct (curve_double (atof a) (atof b)) as [s E].
  split; [exists s; split; [reflexivity | exact E] | exact (main_three Fops atof name a b s E)].
Qed.

Section Reals.
Variable dz : R -> R.
Local Notation F := (Rops dz).

Definition opt_kv : list R := [0; 0; 0; 1; 1; 1]%R.
Lemma opt_good : Forall2 good_direction [opt_kv] [2].
Proof.
  constructor; [|constructor]. split; [lia|]. split; [split; [cbn; lia|]; intros [|[|[|j]]] Hj; try lia; cbn; auto|].
  split; [unfold opt_kv; nondec|]. split; [unfold opt_kv; sepsolve | cbn; lra].
Qed.

Lemma curve_real (x y : R) : exists s : spline F, optimizer_curve (F := F) [[(-1)%R; 0%R]; [x; y]; [1%R; 0%R]] = Ok s /\ well_formed s /\ is_bspline s /\
  knots_of s = [opt_kv] /\ degs_of s = [2] /\ npts_of s = [3] /\ ph_dim (sp_ph s) = 2 /\ ph_cps (sp_ph s) = [-1; 0; x; y; 1; 0]%R.
Proof.
  destruct (spline_new_ok dz [opt_kv] [2] [[(-1)%R; 0%R]; [x; y]; [1%R; 0%R]] None 2 opt_good) as [E W].
  - lia.
  - repeat constructor.
  - reflexivity.
  - reflexivity.
  - discriminate.
  - eexists. split; [|split; [exact W|]].
    + unfold optimizer_curve. change [[n0; n0; n0; n1; n1; n1]] with [opt_kv]. etransitivity; [apply (f_equal (fun r => bind r spline_copy)); exact E|].
      cbn [bind]. apply copy_value. exact W.
    + repeat (split; [reflexivity|]). reflexivity.
Qed.

Lemma over_one a b c : b = 1%R -> a = c -> (a / b = c)%R.
Proof. intros -> ->. field. Qed.
Lemma C_2 : C 2 0 = 1%R /\ C 2 1 = 2%R /\ C 2 2 = 1%R.
Proof. unfold C. cbn. repeat split; field. Qed.

Theorem optimizer_curve_real : forall x y : R, exists s : spline F,
  optimizer_curve (F := F) [[(-1)%R; 0%R]; [x; y]; [1%R; 0%R]] = Ok s /\ well_formed s /\ is_bspline s /\
  (forall t, (0 <= t <= 1)%R ->
    evaluate s [t] [0; 1] = Ok [- (1 - t) ^ 2 + 2 * t * (1 - t) * x + t ^ 2; 2 * t * (1 - t) * y]%R) /\
  exists f, optimizer_write (F := F) (Some tt) s = Ok f /\ vf_npoints f = 101 /\ vf_ncells f = 100 /\
    forall i, 0 <= i <= 100 -> nth_error (vf_rows f) (Z.to_nat i) =
      Some (let t := (IZR i / 100)%R in [- (1 - t) ^ 2 + 2 * t * (1 - t) * x + t ^ 2; 2 * t * (1 - t) * y; 0]%R).
Proof.
  intros x y. destruct (curve_real x y) as (s & E & W & Hb & Ek & Ed & En & Edim & Ec). exists s. split; [exact E|]. split; [exact W|]. split; [exact Hb|].
  destruct C_2 as (c0 & c1 & c2).
  assert (Hev : forall t, (0 <= t <= 1)%R -> evaluate s [t] [0; 1] = Ok [- (1 - t) ^ 2 + 2 * t * (1 - t) * x + t ^ 2; 2 * t * (1 - t) * y]%R).
  { intros t Ht. rewrite (bezier_form dz s [t] [0; 1] W (or_introl Hb)).
    - rewrite Ek, Ed. cbn [map]. f_equal. 
      change (all_indices [2 + 1]) with [[0]; [1]; [2]]. unfold lsum. cbn [map fold_right bernstein_product]. unfold bernstein.
      change (Z.to_nat 0) with 0%nat. change (Z.to_nat 1) with 1%nat. change (Z.to_nat 2) with 2%nat. rewrite c0, c1, c2.
      unfold weight. rewrite Hb. unfold coordinate. rewrite En, Edim, Ec. change (first_knot opt_kv) with 0%R. change (final_knot opt_kv) with 1%R.
      cbn -[Rmult Rplus Rminus Rdiv]. change (Pos.to_nat 1) with 1%nat. change (Pos.to_nat 2) with 2%nat. change (Pos.to_nat 3) with 3%nat. change (Pos.to_nat 4) with 4%nat. change (Pos.to_nat 5) with 5%nat.
      cbv iota. f_equal; [|f_equal]; apply over_one; field.
    - rewrite Ek, Ed. constructor; [|constructor]. exists 0%R, 1%R. reflexivity.
    - unfold in_domain. rewrite Ek. constructor; [cbn; lra | constructor].
    - unfold valid_dims. rewrite Edim. repeat constructor; lia. }
  split; [exact Hev|].
  assert (Hg : Forall good_job [mkJob (AnyB 1 s) s [100]]).
  { constructor; [|constructor]. split; cbn [object content divisions].
    - left. rewrite Ed. split; [reflexivity | exact Hb].
    - exact W.
    - rewrite Ed. cbn. lia.
    - rewrite Ed. split; [reflexivity | repeat constructor; lia]. }
  destruct (vtk_written _ Hg) as (f & Ef & Er & Np & Ecl & Nc & _). exists f. split; [exact Ef|].
  assert (Hlen : zlen (vf_rows f) = 101) by (rewrite Er; reflexivity).
  split; [now rewrite Np|]. split; [rewrite Nc, Ecl; reflexivity|].
  intros i Hi. destruct (vtk_point [] (mkJob (AnyB 1 s) s [100]) [] [i] Hg) as (f' & Ef' & Ei).
  { cbn [divisions samples map]. constructor; [lia | constructor]. }
  cbn [app map object divisions] in Ef, Ef'. assert (f' = f) by congruence. subst f'. cbn [flat_map divisions content samples map] in Ei.
  replace (zlen (@nil (list R)) + position [100 + 1] [i]) with i in Ei by (unfold zlen; cbn [length position]; lia).
  rewrite Ei. f_equal. cbn zeta. set (t := (IZR i / 100)%R).
  assert (Ht : (0 <= t <= 1)%R).
  { pose proof (IZR_le 0 i ltac:(lia)). pose proof (IZR_le i 100 ltac:(lia)). unfold t. lra. }
  assert (Hu : in_domain s [t]) by (unfold in_domain; rewrite Ek; constructor; [cbn; lra | constructor]).
  assert (Hv : valid_dims s [0; 1]) by (unfold valid_dims; rewrite Edim; repeat constructor; lia).
  pose proof (bspline_full_sum dz s [t] [0; 1] W Hb Hu Hv) as E2. rewrite Hev in E2 by auto.
  unfold row. rewrite Ek, Edim. cbn [parameters map]. change (0 <? 2) with true. change (1 <? 2) with true. change (2 <? 2) with false. cbv iota zeta.
  replace (first_knot opt_kv + IZR i * ((final_knot opt_kv - first_knot opt_kv) / 100))%R with t by (unfold t; cbn; field).
  rewrite (weight_function_bspline dz s [t] W Hb Hu).
  assert (Ws : forall c, (weighted_sum s [t] c / 1)%R = lsum (fun idx => basis_product (knots_of s) (degs_of s) [t] idx * coordinate s idx c)%R (all_indices (npts_of s))).
  { intros c. unfold weighted_sum, Rdiv. rewrite Rinv_1, Rmult_1_r. apply lsum_ext. intros idx _. unfold weight. rewrite Hb. ring. }
  rewrite !Ws. cbn [map] in E2. injection E2 as E0 E1. rewrite <- E0, <- E1. reflexivity.
Qed.
End Reals.

Lemma ex_optimizer : exists s : spline (Rops (fun x => x)),
  optimizer_curve (F := Rops (fun x => x)) [[(-1)%R; 0%R]; [0%R; 2%R]; [1%R; 0%R]] = Ok s /\ evaluate s [1 / 2]%R [0; 1] = Ok [0; 1]%R /\
  zlen ["optimizer"; "0"; "2"]%string = 3 /\ zlen ["optimizer"]%string <> 3.
Proof.
  destruct (optimizer_curve_real (fun x => x) 0 2) as (s & E & _ & _ & Hev & _). exists s. split; [exact E|].
  split; [|split; [reflexivity | discriminate]]. rewrite Hev by lra. do 2 f_equal; [field | f_equal; field].
Qed.
