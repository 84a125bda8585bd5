(* Closing lemmas about point projection. *)
From Coq Require Import ZArith List Bool Lia Reals Lra Floats.
From Verif Require Import Base BaseFacts RSum MultiIndex MultiIndexSpec MultiIndexFacts TensorSum VecUtils VecThms
  KnotVec KnotVecSpec KnotVecFacts Basis BasisSpec BSplineTheory BasisFacts DegreeSpec DegreeFacts DegreeThms
  Spaces SpacesSpec SpacesFacts SplineEval SplineSpec RationalDeriv EvalFacts EvalDeriv EvalThms Iga IgaSpec IgaThms
  GeneratorsFacts GeneratorsThms SplineNew KnotVecThms BasisThms Projection ProjectionFacts.
From Verif Require Import GrevilleSpec GrevilleFacts SlopeFacts VecSpec.
Import ListNotations.
Open Scope Z_scope.

Section Real.
Context {dz : R -> R}.
Notation F := (Rops dz).
Implicit Types s : spline F.

Lemma each_derivative s us dims m (f : Z -> R) : well_formed s -> in_domain s us -> valid_dims s dims ->
  length m = length (degs_of s) -> Forall (fun k => 0 <= k) m ->
  (forall c, In c dims -> evaluate_derivative s us [c] m = Ok [f c]) -> evaluate_derivative s us dims m = Ok (map f dims).
Proof.
  intros Hwf Hu Hv Hm Hn H. destruct (wf_dirs dz s us Hwf Hu) as (L & HwfL & -> & H0).
  destruct (wfL_of dz s L HwfL) as (E1 & E2 & E3). rewrite E2, map_length in Hm.
  rewrite (evaluate_derivative_ok dz s L dims) by auto. f_equal. apply map_ext_in. intros c Hc.
  unfold valid_dims in Hv. rewrite Forall_forall in Hv.
  specialize (H c Hc). rewrite (evaluate_derivative_ok dz s L [c]) in H; auto; [cbn [map] in H; congruence|].
  constructor; auto.
Qed.

(* ---- straight curves ---- *)
Lemma clamp_nearest kv u v : (first_knot kv <= v <= final_knot kv)%R -> (Rabs (clamp kv u - u) <= Rabs (v - u))%R.
Proof.
  intros H. unfold clamp. destruct (Rlt_dec u (first_knot kv)).
  - rewrite !Rabs_pos_eq by lra. lra.
  - destruct (Rlt_dec (final_knot kv) u).
    + rewrite !Rabs_left1 by lra. lra.
    + replace (u - u)%R with 0%R by ring. rewrite Rabs_R0. apply Rabs_pos.
Qed.

(* <b, pt - (a + u b)> = <b, pt - a> - u <b, b>, and the squared distance *)
Lemma line_dot (a b : Z -> R) u : forall (pt : list R) lo,
  dot (map b (zseq lo (length pt))) (map2 Rminus pt (map (fun c => a c + b c * u) (zseq lo (length pt)))%R) =
  (dot (map b (zseq lo (length pt))) (map2 Rminus pt (map a (zseq lo (length pt))))
   - u * dot (map b (zseq lo (length pt))) (map b (zseq lo (length pt))))%R.
Proof.
  induction pt as [|x pt IH]; intros lo; cbn [length zseq map map2].
  - unfold dot. cbn. ring.
  - rewrite !dot_cons, IH. ring.
Qed.
Lemma line_dist (a b : Z -> R) u : forall (pt : list R) lo,
  dot (map2 Rminus pt (map (fun c => a c + b c * u) (zseq lo (length pt)))%R) (map2 Rminus pt (map (fun c => a c + b c * u) (zseq lo (length pt)))%R) =
  (dot (map2 Rminus pt (map a (zseq lo (length pt)))) (map2 Rminus pt (map a (zseq lo (length pt))))
   - 2 * u * dot (map b (zseq lo (length pt))) (map2 Rminus pt (map a (zseq lo (length pt))))
   + u * u * dot (map b (zseq lo (length pt))) (map b (zseq lo (length pt))))%R.
Proof.
  induction pt as [|x pt IH]; intros lo; cbn [length zseq map map2].
  - unfold dot. cbn. ring.
  - rewrite !dot_cons, IH. ring.
Qed.

Lemma nonzero_dot (b : Z -> R) n : (exists c, 0 <= c < Z.of_nat n /\ b c <> 0%R) -> (0 < dot (map b (zseq 0 n)) (map b (zseq 0 n)))%R.
Proof.
  intros (c & Hc & Hb). destruct (dot_self_nonneg (map b (zseq 0 n))) as [H|H]; auto. exfalso. apply Hb.
  symmetry in H. apply dot_self_zero in H. rewrite map_length, zseq_length in H.
  assert (E : nth (Z.to_nat c) (map b (zseq 0 n)) 0%R = nth (Z.to_nat c) (repeat 0%R n) 0%R) by congruence.
  rewrite nth_repeat in E. rewrite (nth_indep _ 0%R (b 0)) in E by (rewrite map_length, zseq_length; lia).
  rewrite map_nth in E. rewrite zseq_nth in E by lia. replace (0 + Z.of_nat (Z.to_nat c)) with c in E by lia. exact E.
Qed.

Section Line.
Variables (s : spline F) (kv : list R) (p : Z) (pt : list R) (a b : Z -> R).
Hypotheses (Hwf : well_formed s) (Hbs : is_bspline s) (Ek : knots_of s = [kv]) (Ed : degs_of s = [p]) (Hp : 1 <= p)
  (Hd : zlen pt <= ph_dim (sp_ph s))
  (Hc : forall i c, 0 <= i < zlen kv - p - 1 -> 0 <= c < zlen pt -> coordinate s [i] c = (a c + b c * greville kv p i)%R).

Lemma line_points c : 0 <= c < zlen pt -> forall idx, In idx (all_indices (npts_of s)) ->
  coordinate s idx c = (a c + greville_combination (knots_of s) (degs_of s) [b c] idx)%R.
Proof.
  intros H idx Hi. apply all_indices_box in Hi.
  destruct (one_direction s Hwf) as (kv' & p' & Ek' & Ed' & _ & En); [rewrite Ek; reflexivity|].
  assert (kv' = kv) by congruence. assert (p' = p) by congruence. subst kv' p'. rewrite En in Hi.
  unfold in_box in Hi. inversion Hi as [|? i ? r Hr Hi']; subst. inversion Hi'; subst. rewrite Hc by auto.
  rewrite Ek, Ed. cbn [greville_combination]. ring.
Qed.

Lemma line_eval u : in_domain s [u] ->
  evaluate s [u] (all_dimensions (F := F) pt) = Ok (map (fun c => a c + b c * u)%R (all_dimensions (F := F) pt)).
Proof.
  intros Hu. apply each_coordinate; auto; [now apply dims_valid|]. intros c Hin. apply zseq_In in Hin.
  rewrite (linear_precision s [u] c (a c) [b c]); auto.
  - cbn [combination]. do 2 f_equal. unfold GrevilleSpec.combination. match goal with |- @eq _ ?x ?y => change (@eq R x y) end. ring.
  - zl.
  - rewrite Ed. repeat constructor. exact Hp.
  - rewrite Ek. reflexivity.
  - apply line_points. zl.
Qed.

Lemma line_slope u : in_domain s [u] -> evaluate_derivative s [u] (all_dimensions (F := F) pt) [1] = Ok (map b (all_dimensions (F := F) pt)).
Proof.
  intros Hu. apply each_derivative; auto; [now apply dims_valid | rewrite Ed; reflexivity | repeat constructor; lia|].
  intros c Hin. apply zseq_In in Hin.
  assert (E := linear_derivative s [u] c (a c) [b c] 0 Hwf Hbs Hu). rewrite Ed in E. cbn [length repeat upd nth] in E. apply E.
  - zl.
  - repeat constructor. exact Hp.
  - rewrite Ek. reflexivity.
  - lia.
  - rewrite <- Ed. apply line_points. zl.
Qed.

Lemma line_nearest tol : first_knot kv = 0%R -> (exists c, 0 <= c < zlen pt /\ b c <> 0%R) ->
  exists (u : R) x, project_curve (F := F) (Z.to_nat 1001) pt s tol = Ok (Some [u]) /\ in_domain s [u] /\
    evaluate s [u] (zseq 0 (length pt)) = Ok x /\
    forall v, in_domain s [v] -> exists y, evaluate s [v] (zseq 0 (length pt)) = Ok y /\ (euclid pt x <= euclid pt y)%R.
Proof.
  intros H0 Hb0. set (dims := all_dimensions (F := F) pt) in *.
  set (bb := dot (map b dims) (map b dims)). set (ba := dot (map b dims) (map2 Rminus pt (map a dims))).
  assert (Hbb : (0 < bb)%R) by (apply nonzero_dot; exact Hb0).
  destruct (initial_curve_ok s kv p pt Hwf Ek Ed H0 Hd) as (u0 & Ei & Hu0).
  destruct (one_direction s Hwf) as (kv' & p' & Ek' & Ed' & Hg & _); [rewrite Ek; reflexivity|].
  assert (kv' = kv) by congruence. assert (p' = p) by congruence. subst kv' p'.
  destruct (good_ends (dz := dz) kv p Hg) as [Hl Hle].
  assert (Dom : forall v, in_domain s [clamp kv v]) by (intros v; unfold in_domain; rewrite Ek; constructor; [now apply clamp_range | constructor]).
  set (w := clamp kv (ba / bb)%R).
  destruct (newton_inv (F := F) (step_curve (F := F) pt s tol) (fun us => exists v : R, us = [v] /\ in_domain s [v]) (fun us => us = ([w] : list R)))
    with (fuel := Z.to_nat 1001) (it := 0) (us := [u0] : list F) as (us' & E & Eu).
  - intros us (v & -> & Hv). destruct (step_curve_ok s kv p pt tol v Hwf Ek Ed Hd Hv) as (d & c & bl & E1 & _ & E2 & _ & Es).
    rewrite line_slope in E1 by auto. rewrite line_eval in E2 by auto. injection E1 as <-. injection E2 as <-.
    exists ([w] : list R), bl. split; auto. rewrite Es. unfold w. refine (f_equal (fun z : R => Ok ([clamp kv z] : list R, bl)) _).
    unfold all_dimensions. rewrite line_dot. fold (all_dimensions (F := F) pt). fold dims bb ba.
    match goal with |- @eq _ ?x ?y => change (@eq R x y) end. rewrite (ndiv_R dz) by lra.
    change (dot (map b (zseq 0 (length pt))) (map2 Rminus pt (map a (zseq 0 (length pt))))) with ba.
    change (dot (map b (zseq 0 (length pt))) (map b (zseq 0 (length pt)))) with bb. field. lra.
  - intros us ->. exists w. split; auto. apply Dom.
  - lia.
  - lia.
  - exists u0. auto.
  - exists w, (map (fun c => a c + b c * w)%R dims). split; [unfold project_curve; rewrite Ei; cbn [bind]; rewrite E, Eu; reflexivity|].
    split; [apply Dom|]. split; [exact (line_eval w (Dom _))|]. intros v Hv. eexists. split; [exact (line_eval v Hv)|].
    rewrite !euclid_dot. apply sqrt_le_1_alt. unfold minus, dims, all_dimensions. rewrite !line_dist.
    change (dot (map b (zseq 0 (length pt))) (map2 Rminus pt (map a (zseq 0 (length pt))))) with ba.
    change (dot (map b (zseq 0 (length pt))) (map b (zseq 0 (length pt)))) with bb.
    assert (Hn : (Rabs (w - ba / bb) <= Rabs (v - ba / bb))%R).
    { apply clamp_nearest. unfold in_domain in Hv. rewrite Ek in Hv. inversion Hv; auto. }
    apply Rsqr_le_abs_1 in Hn. unfold Rsqr in Hn.
    assert (Eq : (ba = (ba / bb) * bb)%R) by (field; lra). set (q := (ba / bb)%R) in *. rewrite Eq. nra.
Qed.
End Line.

(* the middle of the first element without its lower bound lies outside the domain *)
Lemma curve_shifted s (pt : list R) tol kv p e0 es fuel : well_formed s -> knots_of s = [kv] -> degs_of s = [p] ->
  zlen pt <= ph_dim (sp_ph s) -> elements (F := F) kv p = Ok (e0 :: es) -> ~ in_domain s [((snd e0 - fst e0) / 2)%R] ->
  project_curve (F := F) fuel pt s tol = Throw RangeError.
Proof.
  intros Hwf Ek Ed Hd Ee Hn. unfold project_curve, initial_curve.
  rewrite (sp_knots_at s 0 kv) by (rewrite Ek; reflexivity). rewrite (sp_deg_at s 0 p) by (rewrite Ed; reflexivity). cbn [bind].
  step Ee. assert (E1 : vget (e0 :: es) 0 = Ok e0) by reflexivity. rnorm. rewrite E1. cbn [bind]. clear E1. rewrite half_R.
  replace (1 / 2 * (snd e0 - fst e0))%R with ((snd e0 - fst e0) / 2)%R by field.
  destruct (eval_safe dz s [((snd e0 - fst e0) / 2)%R] (all_dimensions (F := F) pt) (map (fun _ => 0) (degs_of s)) Hwf) as [_ H]; auto.
  - rewrite Ek. reflexivity.
  - now apply dims_valid.
  - now rewrite map_length.
  - rewrite Ed. repeat constructor; lia.
  - destruct (H Hn) as [E _]. rewrite E. reflexivity.
Qed.

(* ---- surfaces ---- *)
Lemma delta_surface_total (cur d1 d2 pt : list R) : (3 <= length pt)%nat -> length cur = length pt -> length d1 = length pt -> length d2 = length pt ->
  exists x y : R, delta_surface (F := F) cur d1 d2 pt = Ok [x; y].
Proof.
  intros H3 L0 L1 L2. unfold delta_surface, tangent_point.
  set (n := ([nth 1 d1 0 * nth 2 d2 0 - nth 2 d1 0 * nth 1 d2 0; nth 2 d1 0 * nth 0 d2 0 - nth 0 d1 0 * nth 2 d2 0;
      nth 0 d1 0 * nth 1 d2 0 - nth 1 d1 0 * nth 0 d2 0]%R ++ repeat 0%R (length d1 - 3))).
  assert (En : cross_product (F := F) d1 d2 = Ok n) by (apply cross_long; lia). rewrite En. cbn [bind].
  assert (Ln : length n = length pt) by (unfold n; rewrite app_length, repeat_length; cbn [length]; lia).
  set (nn := (scale_vector (F := F) n (ndiv (n := F) n1 (two_norm (F := F) n)) : list R)).
  assert (Lnn : length nn = length pt) by (unfold nn, scale_vector; now rewrite map_length).
  step (scalar_value (dz := dz) cur nn ltac:(congruence)). step (scalar_value (dz := dz) pt nn ltac:(congruence)).
  set (sn := (scale_vector (F := F) nn (nmul (n := F) (nofZ (n := F) (-1)) (nsub (n := F) (dot cur nn) (dot pt nn))) : list R)).
  assert (Lsn : length pt = length sn) by (symmetry; exact (eq_trans (map_length _ nn) Lnn)).
  step (diff_ok (dz := dz) pt sn Lsn).
  assert (Lq : length (map2 Rminus pt sn) = length pt) by (now apply map2_length).
  step (diff_ok (dz := dz) (map2 Rminus pt sn) cur ltac:(congruence)).
  assert (Lr : length (map2 Rminus (map2 Rminus pt sn) cur) = length pt) by (rewrite map2_length; congruence).
  step (scalar_value (dz := dz) d1 d1 eq_refl). step (scalar_value (dz := dz) d2 d1 ltac:(congruence)).
  step (scalar_value (dz := dz) (map2 Rminus (map2 Rminus pt sn) cur) d1 ltac:(congruence)).
  step (scalar_value (dz := dz) d2 d2 eq_refl).
  step (scalar_value (dz := dz) (map2 Rminus (map2 Rminus pt sn) cur) d2 ltac:(congruence)).
  eexists. eexists. reflexivity.
Qed.

(* in space: the step solves the normal equations *)
Lemma delta_surface_exact (cur d1 d2 pt : list R) (x y : R) : length pt = 3%nat -> length cur = 3%nat -> length d1 = 3%nat -> length d2 = 3%nat ->
  (dot d1 d1 * dot d2 d2 - dot d1 d2 * dot d1 d2 <> 0)%R ->
  (dot (map2 Rminus pt cur) d1 = x * dot d1 d1 + y * dot d2 d1)%R ->
  (dot (map2 Rminus pt cur) d2 = x * dot d1 d2 + y * dot d2 d2)%R ->
  delta_surface (F := F) cur d1 d2 pt = Ok [x; y].
Proof.
  intros L L0 L1 L2 Hne Hx Hy.
  destruct pt as [|t0 [|t1 [|t2 [|]]]]; try discriminate. destruct cur as [|c0 [|c1 [|c2 [|]]]]; try discriminate.
  destruct d1 as [|a0 [|a1 [|a2 [|]]]]; try discriminate. destruct d2 as [|b0 [|b1 [|b2 [|]]]]; try discriminate.
  unfold delta_surface, tangent_point.
  set (n := [a1 * b2 - a2 * b1; a2 * b0 - a0 * b2; a0 * b1 - a1 * b0]%R).
  assert (En : cross_product (F := F) [a0; a1; a2] [b0; b1; b2] = Ok n) by reflexivity. rewrite En. cbn [bind].
  set (f := ndiv (n := F) n1 (two_norm (F := F) n)). set (nn := scale_vector (F := F) n f).
  step (scalar_value (dz := dz) [c0; c1; c2] nn eq_refl). step (scalar_value (dz := dz) [t0; t1; t2] nn eq_refl).
  set (k := nmul (n := F) (nofZ (n := F) (-1)) _). set (sn := scale_vector (F := F) nn k).
  step (diff_ok (dz := dz) [t0; t1; t2] sn eq_refl). step (diff_ok (dz := dz) (map2 Rminus [t0; t1; t2]%R sn) [c0; c1; c2] eq_refl).
  set (d := map2 Rminus (map2 Rminus [t0; t1; t2]%R sn) [c0; c1; c2]).
  step (scalar_value (dz := dz) [a0; a1; a2] [a0; a1; a2] eq_refl). step (scalar_value (dz := dz) [b0; b1; b2] [a0; a1; a2] eq_refl).
  step (scalar_value (dz := dz) d [a0; a1; a2] eq_refl). step (scalar_value (dz := dz) [b0; b1; b2] [b0; b1; b2] eq_refl).
  step (scalar_value (dz := dz) d [b0; b1; b2] eq_refl).
  assert (E1 : dot d [a0; a1; a2] = dot (map2 Rminus [t0; t1; t2] [c0; c1; c2]) [a0; a1; a2]).
  { unfold d, sn, nn, n, scale_vector, dot. cbn [map map2 combine lsum fst snd]. rnorm. ring. }
  assert (E2 : dot d [b0; b1; b2] = dot (map2 Rminus [t0; t1; t2] [c0; c1; c2]) [b0; b1; b2]).
  { unfold d, sn, nn, n, scale_vector, dot. cbn [map map2 combine lsum fst snd]. rnorm. ring. }
  rewrite E1, E2, Hx, Hy. rewrite (dot_comm [b0; b1; b2] [a0; a1; a2]).
  set (A := dot [a0; a1; a2] [a0; a1; a2]) in *. set (B := dot [a0; a1; a2] [b0; b1; b2]) in *. set (D := dot [b0; b1; b2] [b0; b1; b2]) in *.
  assert (HA : A <> 0%R).
  { intros E. assert (Z : B = 0%R). { unfold A in E. apply dot_self_zero in E. unfold B. rewrite E. apply dot_zero_l. } apply Hne. rewrite E, Z. ring. }
  clearbody A B D. rnorm. rewrite (ndiv_R dz _ (A * D - B * B)) by exact Hne.
  assert (E3 : ((A * (x * B + y * D) - B * (x * A + y * B)) / (A * D - B * B) = y)%R) by (field; exact Hne).
  rewrite E3. rewrite (ndiv_R dz _ A) by exact HA.
  assert (E4 : ((x * A + y * B - B * y) / A = x)%R) by (field; exact HA). rewrite E4. reflexivity.
Qed.

Section Surface.
Variables (s : spline F) (k1 k2 : list R) (p1 p2 : Z) (pt : list R).
Hypotheses (Hwf : well_formed s) (Ek : knots_of s = [k1; k2]) (Ed : degs_of s = [p1; p2])
  (Hd : zlen pt <= ph_dim (sp_ph s)) (F1 : first_knot k1 = 0%R) (F2 : first_knot k2 = 0%R).

Lemma surface_dirs : (0 < length k1)%nat /\ (0 < length k2)%nat /\ (0 <= final_knot k1)%R /\ (0 <= final_knot k2)%R.
Proof.
  pose proof (wf_directions s Hwf) as Hg. rewrite Ek, Ed in Hg. inversion Hg as [|? ? ? ? G1 Hg']; subst. inversion Hg' as [|? ? ? ? G2 _]; subst.
  destruct (good_ends (dz := dz) k1 p1 G1). destruct (good_ends (dz := dz) k2 p2 G2). rewrite F1 in *. rewrite F2 in *. auto.
Qed.

Lemma surface_domain u v : in_domain s [u; v] <-> (0 <= u <= final_knot k1)%R /\ (0 <= v <= final_knot k2)%R.
Proof.
  unfold in_domain. rewrite Ek. split.
  - intros H. inversion H as [|? ? ? ? A H']; subst. inversion H'; subst. rewrite F1 in *. rewrite F2 in *. auto.
  - intros [A B]. constructor; [rewrite F1; auto|]. constructor; [rewrite F2; auto | constructor].
Qed.

Lemma sample_range (i m : Z) (l : R) : 1 <= i <= m -> (0 <= l)%R -> (0 <= ndiv (n := F) (IZR i * (l - 0)) (IZR m) <= l)%R.
Proof.
  intros Hi Hl. assert (0 < IZR m)%R by (apply IZR_lt; lia). assert (IZR i <= IZR m)%R by (apply IZR_le; lia). assert (0 < IZR i)%R by (apply IZR_lt; lia).
  rewrite (ndiv_R dz) by lra. split.
  - apply Rmult_le_pos; [apply Rmult_le_pos; lra | left; now apply Rinv_0_lt_compat].
  - apply Rmult_le_reg_r with (IZR m); auto. unfold Rdiv. rewrite Rmult_assoc, Rinv_l by lra. nra.
Qed.

Lemma initial_surface_ok sc : exists u v : R, initial_surface (F := F) sc pt s (all_dimensions (F := F) pt) = Ok [u; v] /\ in_domain s [u; v].
Proof.
  destruct surface_dirs as (L1 & L2 & N1 & N2). unfold initial_surface.
  rewrite (sp_knots_at s 0 k1) by (rewrite Ek; reflexivity). rewrite (sp_knots_at s 1 k2) by (rewrite Ek; reflexivity). cbn [bind].
  rewrite !first_ok, !last_knot_ok by auto. cbn [bind]. rewrite F1, F2.
  assert (D0 : in_domain s [0; 0]%R) by (apply surface_domain; lra).
  destruct (eval_pt s [0; 0]%R pt Hwf D0 Hd) as (x0 & E0 & Lx0). step E0. step (distance_ok dz pt x0 (eq_sym Lx0)).
  set (Inv := fun (acc : list R * R) => exists u v : R, fst acc = [u; v] /\ in_domain s [u; v]).
  set (body := fun i j (acc : list R * R) =>
     x <- evaluate s [ndiv (n := F) (IZR i * (final_knot k1 - 0))%R (IZR (fst sc)); ndiv (n := F) (IZR j * (final_knot k2 - 0))%R (IZR (snd sc))] (all_dimensions (F := F) pt) ;;
     d <- distance (F := F) pt x ;;
     Ok (if Rltb d (snd acc) then ([ndiv (n := F) (IZR i * (final_knot k1 - 0))%R (IZR (fst sc)); ndiv (n := F) (IZR j * (final_knot k2 - 0))%R (IZR (snd sc))] : list R, d) else acc)).
  assert (Hin : forall i acc, 1 <= i <= fst sc -> Inv acc -> exists acc', for_up 1 (snd sc + 1) (body i) acc = Ok acc' /\ Inv acc').
  { intros i acc Hi Ha. destruct (Z_le_gt_dec 1 (snd sc + 1)) as [Hs|Hs].
    - destruct (for_up_inv (fun _ => Inv) 1 (snd sc + 1) (body i) acc Hs) as (r & E & I); auto; [|eauto].
      intros j st Hj Hst. unfold body.
      set (uu := ndiv (n := F) (IZR i * (final_knot k1 - 0))%R (IZR (fst sc))). set (vv := ndiv (n := F) (IZR j * (final_knot k2 - 0))%R (IZR (snd sc))).
      assert (D : in_domain s [uu; vv]) by (apply surface_domain; split; apply sample_range; auto; lia).
      destruct (eval_pt s [uu; vv] pt Hwf D Hd) as (x & E & Lx). step E. step (distance_ok dz pt x (eq_sym Lx)).
      eexists. split; [reflexivity|]. destruct (Rltb _ _); auto. exists uu, vv. split; auto.
    - exists acc. split; auto. unfold for_up. replace (Z.to_nat (snd sc + 1 - 1)) with 0%nat by lia. reflexivity. }
  assert (Hout : exists acc', for_up 1 (fst sc + 1) (fun i acc => for_up 1 (snd sc + 1) (body i) acc) ([0; 0]%R, euclid pt x0) = Ok acc' /\ Inv acc').
  { assert (I0 : Inv ([0; 0]%R, euclid pt x0)) by (exists 0%R, 0%R; split; auto).
    destruct (Z_le_gt_dec 1 (fst sc + 1)) as [Hs|Hs].
    - destruct (for_up_inv (fun _ => Inv) 1 (fst sc + 1) (fun i acc => for_up 1 (snd sc + 1) (body i) acc) ([0; 0]%R, euclid pt x0) Hs) as (r & E & I); auto; [|eauto].
      intros j st Hj Hst. apply Hin; auto. lia.
    - eexists. split; [|exact I0]. unfold for_up. replace (Z.to_nat (fst sc + 1 - 1)) with 0%nat by lia. reflexivity. }
  destruct Hout as (acc' & E & u & v & Ea & D). exists u, v. split; auto.
  refine (eq_trans (f_equal (fun m : Res (list R * R) => bind m (fun r => Ok (fst r))) E) _). cbn [bind]. rewrite Ea. reflexivity.
Qed.

Lemma step_surface_ok tol (u v : R) : in_domain s [u; v] -> (3 <= length pt)%nat ->
  exists (d1 d2 cur : list R) (x y : R) (b : bool), evaluate_derivative s [u; v] (all_dimensions (F := F) pt) [1; 0] = Ok d1 /\
    evaluate_derivative s [u; v] (all_dimensions (F := F) pt) [0; 1] = Ok d2 /\ evaluate s [u; v] (all_dimensions (F := F) pt) = Ok cur /\
    length d1 = length pt /\ length d2 = length pt /\ length cur = length pt /\ delta_surface (F := F) cur d1 d2 pt = Ok [x; y] /\
    step_surface (F := F) pt s tol [u; v] = Ok ([clamp k1 (u + x)%R; clamp k1 (v + y)%R], b).
Proof.
  intros Hu H3.
  destruct (eval_pt s [u; v] pt Hwf Hu Hd) as (cur & Ec & Lc).
  destruct (deriv_pt s [u; v] pt [1; 0] Hwf Hu Hd) as (d1 & E1 & L1); [rewrite Ed; reflexivity | repeat constructor; lia|].
  destruct (deriv_pt s [u; v] pt [0; 1] Hwf Hu Hd) as (d2 & E2 & L2); [rewrite Ed; reflexivity | repeat constructor; lia|].
  destruct (delta_surface_total cur d1 d2 pt H3 Lc L1 L2) as (x & y & Edel).
  exists d1, d2, cur, x, y. eexists. repeat (split; [eassumption|]).
  unfold step_surface. rewrite E1, E2, Ec. cbn [bind]. rewrite Edel. cbn [bind]. unfold update_point. cbn [map2].
  rewrite (check_ok s k1); [cbn [bind map]; reflexivity | rewrite Ek; reflexivity | apply surface_dirs].
Qed.

Lemma surface_in_domain sc tol : final_knot k1 = final_knot k2 -> (3 <= length pt)%nat ->
  exists u v : R, project_surface (F := F) (Z.to_nat 1001) pt s sc tol = Ok (Some [u; v]) /\ in_domain s [u; v].
Proof.
  intros El H3. destruct (initial_surface_ok sc) as (u & v & Ei & Hu). unfold project_surface. rewrite Ei. cbn [bind].
  destruct surface_dirs as (_ & _ & N1 & N2).
  destruct (newton_inv (F := F) (step_surface (F := F) pt s tol) (fun us => exists u v : R, us = [u; v] /\ in_domain s [u; v]) (fun us => exists u v : R, us = [u; v] /\ in_domain s [u; v]))
    with (fuel := Z.to_nat 1001) (it := 0) (us := [u; v] : list F) as (us' & E & u' & v' & -> & Hv); auto; try lia; [|eauto|eauto].
  intros us (a & b & -> & Ha). destruct (step_surface_ok tol a b Ha H3) as (d1 & d2 & cur & x & y & bl & _ & _ & _ & _ & _ & _ & _ & Es).
  eexists. exists bl. split; [exact Es|]. eexists. eexists. split; [reflexivity|]. apply surface_domain. rewrite <- El, <- F1.
  split; apply clamp_range; lra.
Qed.

Lemma surface_flat_ub sc tol : (length pt < 3)%nat -> project_surface (F := F) (Z.to_nat 1001) pt s sc tol = UB.
Proof.
  intros H3. destruct (initial_surface_ok sc) as (u & v & Ei & Hu). unfold project_surface. rewrite Ei. cbn [bind].
  change (Z.to_nat 1001) with (S (Z.to_nat 1000)). cbn [newton].
  destruct (eval_pt s [u; v] pt Hwf Hu Hd) as (cur & Ec & Lc).
  destruct (deriv_pt s [u; v] pt [1; 0] Hwf Hu Hd) as (d1 & E1 & L1); [rewrite Ed; reflexivity | repeat constructor; lia|].
  destruct (deriv_pt s [u; v] pt [0; 1] Hwf Hu Hd) as (d2 & E2 & L2); [rewrite Ed; reflexivity | repeat constructor; lia|].
  unfold step_surface. rewrite E1, E2, Ec. cbn [bind]. unfold delta_surface, tangent_point.
  assert (En : cross_product (F := F) d1 d2 = UB) by (apply cross_short; left; exact (eq_ind_r (fun n => (n < 3)%nat) H3 L1)). rewrite En. reflexivity.
Qed.
End Surface.

Lemma clamp_id kv u : (first_knot kv <= u <= final_knot kv)%R -> clamp kv u = u.
Proof. intros H. unfold clamp. destruct (Rlt_dec u (first_knot kv)); [lra|]. destruct (Rlt_dec (final_knot kv) u); lra. Qed.

(* ---- plane surfaces ---- *)
Section Plane.
Variables (s : spline F) (k1 k2 : list R) (p1 p2 : Z) (pt : list R) (a b1 b2 : Z -> R).
Hypotheses (Hwf : well_formed s) (Hbs : is_bspline s) (Ek : knots_of s = [k1; k2]) (Ed : degs_of s = [p1; p2]) (Hp1 : 1 <= p1) (Hp2 : 1 <= p2)
  (Hd : zlen pt <= ph_dim (sp_ph s)) (F1 : first_knot k1 = 0%R) (F2 : first_knot k2 = 0%R)
  (Hc : forall i j c, 0 <= i < zlen k1 - p1 - 1 -> 0 <= j < zlen k2 - p2 - 1 -> 0 <= c < zlen pt ->
        coordinate s [i; j] c = (a c + b1 c * greville k1 p1 i + b2 c * greville k2 p2 j)%R).

Lemma plane_points c : 0 <= c < zlen pt -> forall idx, In idx (all_indices (npts_of s)) ->
  coordinate s idx c = (a c + greville_combination (knots_of s) (degs_of s) [b1 c; b2 c] idx)%R.
Proof.
  intros H idx Hi. apply all_indices_box in Hi. pose proof (wf_npts s Hwf) as En. rewrite Ek, Ed in En. cbn [map2] in En. rewrite En in Hi.
  unfold in_box in Hi. inversion Hi as [|? i ? r Hr Hi']; subst. inversion Hi' as [|? j ? r' Hr' Hi'']; subst. inversion Hi''; subst. rewrite Hc by auto.
  rewrite Ek, Ed. cbn [greville_combination]. ring.
Qed.

Lemma plane_eval u v : in_domain s [u; v] ->
  evaluate s [u; v] (all_dimensions (F := F) pt) = Ok (map (fun c => a c + b1 c * u + b2 c * v)%R (all_dimensions (F := F) pt)).
Proof.
  intros Hu. apply each_coordinate; auto; [now apply dims_valid|]. intros c Hin. apply zseq_In in Hin.
  rewrite (linear_precision s [u; v] c (a c) [b1 c; b2 c]); auto.
  - do 2 f_equal. unfold GrevilleSpec.combination. match goal with |- @eq _ ?x ?y => change (@eq R x y) end. ring.
  - zl.
  - rewrite Ed. repeat constructor; assumption.
  - rewrite Ek. reflexivity.
  - apply plane_points. zl.
Qed.

Lemma plane_slope1 u v : in_domain s [u; v] -> evaluate_derivative s [u; v] (all_dimensions (F := F) pt) [1; 0] = Ok (map b1 (all_dimensions (F := F) pt)).
Proof.
  intros Hu. apply each_derivative; auto; [now apply dims_valid | rewrite Ed; reflexivity | repeat constructor; lia|].
  intros c Hin. apply zseq_In in Hin.
  assert (E := linear_derivative s [u; v] c (a c) [b1 c; b2 c] 0 Hwf Hbs Hu). rewrite Ed in E. cbn [length repeat upd nth] in E. apply E.
  - zl.
  - repeat constructor; assumption.
  - rewrite Ek. reflexivity.
  - lia.
  - rewrite <- Ed. apply plane_points. zl.
Qed.
Lemma plane_slope2 u v : in_domain s [u; v] -> evaluate_derivative s [u; v] (all_dimensions (F := F) pt) [0; 1] = Ok (map b2 (all_dimensions (F := F) pt)).
Proof.
  intros Hu. apply each_derivative; auto; [now apply dims_valid | rewrite Ed; reflexivity | repeat constructor; lia|].
  intros c Hin. apply zseq_In in Hin.
  assert (E := linear_derivative s [u; v] c (a c) [b1 c; b2 c] 1 Hwf Hbs Hu). rewrite Ed in E. cbn [length repeat upd nth] in E. apply E.
  - zl.
  - repeat constructor; assumption.
  - rewrite Ek. reflexivity.
  - lia.
  - rewrite <- Ed. apply plane_points. zl.
Qed.

Lemma plane_foot sc tol (u v : R) x : length pt = 3%nat -> final_knot k1 = final_knot k2 ->
  (dot (map b1 [0; 1; 2]%Z) (map b1 [0; 1; 2]%Z) * dot (map b2 [0; 1; 2]%Z) (map b2 [0; 1; 2]%Z)
   - dot (map b1 [0; 1; 2]%Z) (map b2 [0; 1; 2]%Z) * dot (map b1 [0; 1; 2]%Z) (map b2 [0; 1; 2]%Z) <> 0)%R ->
  in_domain s [u; v] -> evaluate s [u; v] [0; 1; 2]%Z = Ok x ->
  dot (map2 Rminus pt x) (map b1 [0; 1; 2]%Z) = 0%R -> dot (map2 Rminus pt x) (map b2 [0; 1; 2]%Z) = 0%R ->
  project_surface (F := F) (Z.to_nat 1001) pt s sc tol = Ok (Some [u; v]).
Proof.
  intros L3 El Hdet Hu Ex O1 O2.
  assert (Edims : all_dimensions (F := F) pt = [0; 1; 2]%Z) by (unfold all_dimensions; change (@length (num F) pt) with (@length R pt); rewrite L3; reflexivity).
  pose proof plane_eval as PE. pose proof plane_slope1 as P1. pose proof plane_slope2 as P2. rewrite Edims in PE, P1, P2.
  rewrite (PE u v Hu) in Ex. injection Ex as <-.
  destruct (initial_surface_ok s k1 k2 p1 p2 pt Hwf Ek Ed Hd F1 F2 sc) as (u0 & v0 & Ei & Hu0).
  assert (Hstep : forall r t : R, in_domain s [r; t] -> exists b, step_surface (F := F) pt s tol [r; t] = Ok ([u; v] : list R, b)).
  { intros r t Hr. destruct (step_surface_ok s k1 k2 p1 p2 pt Hwf Ek Ed Hd F1 F2 tol r t Hr) as (d1 & d2 & cur & x & y & b & E1 & E2 & E3 & _ & _ & _ & Edel & Es); [lia|].
    exists b. rewrite Es. rewrite Edims, (P1 r t Hr) in E1. rewrite Edims, (P2 r t Hr) in E2. rewrite Edims, (PE r t Hr) in E3.
    injection E1 as <-. injection E2 as <-. injection E3 as <-.
    rewrite (delta_surface_exact _ _ _ pt (u - r) (v - t)) in Edel; auto.
    - injection Edel as <- <-.
      destruct (proj1 (surface_domain s k1 k2 Ek F1 F2 u v) Hu) as [Du Dv].
      replace (r + (u - r))%R with u by ring. replace (t + (v - t))%R with v by ring.
      rewrite !clamp_id; [reflexivity | rewrite F1, El; exact Dv | rewrite F1; exact Du].
    - destruct pt as [|t0 [|t1 [|t2 [|]]]]; try discriminate. cbn [map map2] in *. unfold dot in *. cbn [combine lsum fst snd] in *. lra.
    - destruct pt as [|t0 [|t1 [|t2 [|]]]]; try discriminate. cbn [map map2] in *. unfold dot in *. cbn [combine lsum fst snd] in *. lra. }
  destruct (newton_inv (F := F) (step_surface (F := F) pt s tol) (fun us => exists r t : R, us = [r; t] /\ in_domain s [r; t]) (fun us => us = ([u; v] : list R)))
    with (fuel := Z.to_nat 1001) (it := 0) (us := [u0; v0] : list F) as (us' & E & Eu); try lia; eauto.
  - intros us (r & t & -> & Hr). destruct (Hstep r t Hr) as (b & Es). eauto.
  - unfold project_surface. rewrite Ei. cbn [bind]. rewrite E, Eu. reflexivity.
Qed.
End Plane.
End Real.

(* ---- runs in double arithmetic ---- *)
Definition float_curve (kv : list float) (cps : list (list float)) : Res (spline Fops) := spline_new (F := Fops) [kv] [1] cps None.
Definition float_surface (kv1 kv2 : list float) : Res (spline Fops) :=
  spline_new (F := Fops) [kv1; kv2] [1; 1] [[0; 0; 0]; [1; 0; 0]; [0; 1; 0]; [1; 1; 0]]%float None.

Lemma curve_degenerate : exists (s : spline Fops) (u : float), spline_new (F := Fops) [[0; 0; 1; 1]%float] [1] [[1]; [1]]%float None = Ok s /\
  project_curve (F := Fops) (Z.to_nat 1001) [0.5]%float s 0x1p-13%float = Ok (Some [u]) /\ (u =? u)%float = false.
Proof.
  assert (E : match float_curve [0; 0; 1; 1]%float [[1]; [1]]%float with
              | Ok s => match project_curve (F := Fops) (Z.to_nat 1001) [0.5]%float s 0x1p-13%float with Ok (Some [u]) => negb (u =? u)%float | _ => false end
              | _ => false end = true) by (vm_compute; reflexivity).
  unfold float_curve in E. destruct (spline_new _ _ _ _) as [s|e|] eqn:Es in E; try discriminate.
  destruct (project_curve (F := Fops) (Z.to_nat 1001) [0.5]%float s 0x1p-13%float) as [[[|u [|]]|]|e|] eqn:Ep; try discriminate.
  exists s, u. split; [exact Es|]. split; [exact Ep|]. now apply negb_true_iff.
Qed.

Lemma curve_thousand : exists (s : spline Fops), spline_new (F := Fops) [[0; 0; 1; 1]%float] [1] [[0]; [1]]%float None = Ok s /\
  project_curve (F := Fops) (Z.to_nat 1000) [0.5]%float s 0%float = Ok None /\
  project_curve (F := Fops) (Z.to_nat 1001) [0.5]%float s 0%float = Ok (Some [0.5]%float).
Proof.
  assert (E : match float_curve [0; 0; 1; 1]%float [[0]; [1]]%float with
              | Ok s => match project_curve (F := Fops) (Z.to_nat 1000) [0.5]%float s 0%float with Ok None => true | _ => false end
              | _ => false end = true) by (vm_compute; reflexivity).
  assert (E' : match float_curve [0; 0; 1; 1]%float [[0]; [1]]%float with
              | Ok s => project_curve (F := Fops) (Z.to_nat 1001) [0.5]%float s 0%float
              | _ => UB end = Ok (Some [0.5]%float)) by (vm_compute; reflexivity).
  unfold float_curve in E, E'. destruct (spline_new _ _ _ _) as [s|e|] eqn:Es in E, E'; try discriminate.
  destruct (project_curve (F := Fops) (Z.to_nat 1000) [0.5]%float s 0%float) as [[u|]|e|] eqn:Ep; try discriminate.
  exists s. auto.
Qed.

(* a surface on [0,2] x [0,1]: the second coordinate is kept in [0,2] *)
Lemma surface_throws : exists (s : spline Fops),
  spline_new (F := Fops) [[0; 0; 2; 2]; [0; 0; 1; 1]]%float [1; 1] [[0; 0; 0]; [1; 0; 0]; [0; 1; 0]; [1; 1; 0]]%float None = Ok s /\
  project_surface (F := Fops) (Z.to_nat 1001) [0.5; 1.5; 1]%float s (10, 10) 0x1p-17%float = Throw RangeError.
Proof.
  assert (E : match float_surface [0; 0; 2; 2]%float [0; 0; 1; 1]%float with
              | Ok s => project_surface (F := Fops) (Z.to_nat 1001) [0.5; 1.5; 1]%float s (10, 10) 0x1p-17%float
              | _ => UB end = Throw RangeError) by (vm_compute; reflexivity).
  unfold float_surface in E. destruct (spline_new _ _ _ _) as [s|e|] eqn:Es in E; try discriminate. eauto.
Qed.

(* a surface on [0,1] x [0,2]: the point (1/2, 3/4) of the surface has parameters (1/2, 3/2), but the
   second coordinate is kept in [0,1] *)
Lemma surface_wrong : exists (s : spline Fops) (x y : float),
  spline_new (F := Fops) [[0; 0; 1; 1]; [0; 0; 2; 2]]%float [1; 1] [[0; 0; 0]; [1; 0; 0]; [0; 1; 0]; [1; 1; 0]]%float None = Ok s /\
  evaluate (F := Fops) s [0.5; 1.5]%float [0; 1; 2] = Ok [0.5; 0.75; 0]%float /\
  project_surface (F := Fops) (Z.to_nat 1001) [0.5; 0.75; 0]%float s (10, 10) 0x1p-17%float = Ok (Some [x; y]) /\ (x =? 0.5)%float = true /\ (y =? 1)%float = true.
Proof.
  assert (E : match float_surface [0; 0; 1; 1]%float [0; 0; 2; 2]%float with
              | Ok s => match project_surface (F := Fops) (Z.to_nat 1001) [0.5; 0.75; 0]%float s (10, 10) 0x1p-17%float with
                        | Ok (Some [x; y]) => (x =? 0.5)%float && (y =? 1)%float | _ => false end
              | _ => false end = true) by (vm_compute; reflexivity).
  assert (E' : match float_surface [0; 0; 1; 1]%float [0; 0; 2; 2]%float with
              | Ok s => evaluate (F := Fops) s [0.5; 1.5]%float [0; 1; 2]
              | _ => UB end = Ok [0.5; 0.75; 0]%float) by (vm_compute; reflexivity).
  unfold float_surface in E, E'. destruct (spline_new _ _ _ _) as [s|e|] eqn:Es in E, E'; try discriminate.
  destruct (project_surface (F := Fops) (Z.to_nat 1001) [0.5; 0.75; 0]%float s (10, 10) 0x1p-17%float) as [[[|x [|y [|]]]|]|e|] eqn:Ep; try discriminate.
  apply andb_true_iff in E. destruct E. exists s, x, y. auto.
Qed.

(* 10 * last / 10 exceeds the last knot after rounding *)
Lemma surface_sample : exists (s : spline Fops),
  spline_new (F := Fops) [[0; 0; 0x1.99b10af89584cp-3; 0x1.99b10af89584cp-3]; [0; 0; 0x1.99b10af89584cp-3; 0x1.99b10af89584cp-3]]%float [1; 1]
    [[0; 0; 0]; [1; 0; 0]; [0; 1; 0]; [1; 1; 0]]%float None = Ok s /\
  project_surface (F := Fops) (Z.to_nat 1001) [0.5; 0.5; 1]%float s (10, 10) 0x1p-17%float = Throw RangeError.
Proof.
  assert (E : match float_surface [0; 0; 0x1.99b10af89584cp-3; 0x1.99b10af89584cp-3]%float [0; 0; 0x1.99b10af89584cp-3; 0x1.99b10af89584cp-3]%float with
              | Ok s => project_surface (F := Fops) (Z.to_nat 1001) [0.5; 0.5; 1]%float s (10, 10) 0x1p-17%float
              | _ => UB end = Throw RangeError) by (vm_compute; reflexivity).
  unfold float_surface in E. destruct (spline_new _ _ _ _) as [s|e|] eqn:Es in E; try discriminate. eauto.
Qed.

(* ---- examples ---- *)
Definition ex_segment (k : list R) : spline (Rops (fun x => x)) :=
  mkSpline (F := Rops (fun x => x)) (mkps _ [k] [1]) (mkPhys (F := Rops (fun x => x)) 2 [2] [0; 1; 3; 5]%R None).
Lemma ex_segment_ok : well_formed (ex_segment [0; 0; 1; 1]%R) /\ is_bspline (ex_segment [0; 0; 1; 1]%R) /\
  knots_of (ex_segment [0; 0; 1; 1]%R) = [[0; 0; 1; 1]%R] /\ degs_of (ex_segment [0; 0; 1; 1]%R) = [1] /\ first_knot [0; 0; 1; 1]%R = 0%R /\
  (forall i c, 0 <= i < zlen [0; 0; 1; 1]%R - 1 - 1 -> 0 <= c < zlen [7; 7]%R -> coordinate (ex_segment [0; 0; 1; 1]%R) [i] c =
     ((fun c : Z => if (c =? 0)%Z then 0 else 1) c + (fun c : Z => if (c =? 0)%Z then 3 else 4) c * greville [0; 0; 1; 1] 1 i)%R).
Proof.
  split.
  { apply (spline_new_ok _ [[0; 0; 1; 1]%R] [1] [[0; 1]; [3; 5]]%R None 2); try reflexivity; try lia.
    - constructor; [|constructor]. split; [lia|]. split; [split; [cbn; lia|]; intros [|[|[|j]]] Hj; try lia; cbn; auto|].
      split; [nondec|]. split; [sepsolve | cbn; lra].
    - repeat constructor.
    - discriminate. }
  split; [reflexivity|]. split; [reflexivity|]. split; [reflexivity|]. split; [reflexivity|].
  intros i c Hi Hc. change (zlen [0; 0; 1; 1]%R) with 4 in Hi. change (zlen [7; 7]%R) with 2 in Hc.
  assert (H0 : zseq 1 (Z.to_nat 1) = [1]) by reflexivity.
  assert (i = 0 \/ i = 1) as [-> | ->] by lia; assert (c = 0 \/ c = 1) as [-> | ->] by lia;
    unfold coordinate, greville; rewrite H0; cbn [lsum]; unfold knot; cbn; cbv [Pos.to_nat Pos.iter_op Nat.add nth];
    match goal with |- @eq _ ?a ?b => change (@eq R a b) end; field.
Qed.

Lemma ex_shifted : well_formed (ex_segment [2; 2; 3; 3]%R) /\ elements (F := Rops (fun x => x)) [2; 2; 3; 3]%R 1 = Ok [(2, 3)%R] /\
  ~ in_domain (ex_segment [2; 2; 3; 3]%R) [((snd (2, 3) - fst (2, 3)) / 2)%R].
Proof.
  assert (G : good_direction [2; 2; 3; 3]%R 1).
  { split; [lia|]. split; [split; [cbn; lia|]; intros [|[|[|j]]] Hj; try lia; cbn; auto|]. split; [nondec|]. split; [sepsolve | cbn; lra]. }
  split; [|split].
  - apply (spline_new_ok _ [[2; 2; 3; 3]%R] [1] [[0; 1]; [3; 5]]%R None 2); try reflexivity; try lia.
    + constructor; [exact G | constructor].
    + repeat constructor.
    + discriminate.
  - destruct (elements_tile (dz := fun x => x) [2; 2; 3; 3]%R 1 G) as (l & E & Hne & Ht & Hk). rewrite E. f_equal.
    destruct l as [|[x y] l]; [congruence|]. cbn [tiles] in Ht. destruct Ht as (A & B & C).
    destruct (Hk (x, y) (or_introl eq_refl)) as (k & (K1 & K2 & _)). cbn [length] in K1. assert (k = 1) by lia. subst k.
    injection K2 as -> ->. unfold knot in *. cbn in C |- *. cbv [Pos.to_nat Pos.iter_op Nat.add nth] in C |- *. f_equal.
    destruct l as [|[x' y'] l]; auto. exfalso. cbn [tiles] in C. destruct C as (C1 & C2 & C3).
    assert (H := Hk (x', y') (or_intror (or_introl eq_refl))). destruct H as (k & (K1' & K2' & _)). cbn [length] in K1'. assert (k = 1) by lia. subst k.
    injection K2' as -> ->. unfold knot in *. cbn in C1. cbv [Pos.to_nat Pos.iter_op Nat.add nth] in C1. lra.
  - intros H. unfold in_domain in H. change (knots_of (ex_segment [2; 2; 3; 3]%R)) with [[2; 2; 3; 3]%R] in H. inversion H as [|? ? ? ? D _]; subst.
    unfold first_knot, final_knot, knot in D. cbn in D. lra.
Qed.

Definition ex_plane : spline (Rops (fun x => x)) :=
  mkSpline (F := Rops (fun x => x)) (mkps _ [[0; 0; 1; 1]%R; [0; 0; 1; 1]%R] [1; 1])
    (mkPhys (F := Rops (fun x => x)) 3 [2; 2] [0; 0; 0; 1; 0; 0; 1; 2; 0; 2; 2; 0]%R None).
Lemma ex_plane_ok : well_formed ex_plane /\ is_bspline ex_plane /\
  knots_of ex_plane = [[0; 0; 1; 1]%R; [0; 0; 1; 1]%R] /\ degs_of ex_plane = [1; 1] /\
  (forall i j c, 0 <= i < zlen [0; 0; 1; 1]%R - 1 - 1 -> 0 <= j < zlen [0; 0; 1; 1]%R - 1 - 1 -> 0 <= c < zlen [1; 1; 5]%R -> coordinate ex_plane [i; j] c =
     (0 + (fun c : Z => if (c =? 0)%Z then 1 else 0) c * greville [0; 0; 1; 1] 1 i
        + (fun c : Z => if (c =? 0)%Z then 1 else if (c =? 1)%Z then 2 else 0) c * greville [0; 0; 1; 1] 1 j)%R) /\
  in_domain ex_plane [1/2; 1/2]%R /\ evaluate ex_plane [1/2; 1/2]%R [0; 1; 2] = Ok [1; 1; 0]%R.
Proof.
  assert (W : well_formed ex_plane).
  { apply (spline_new_ok _ [[0; 0; 1; 1]%R; [0; 0; 1; 1]%R] [1; 1] [[0; 0; 0]; [1; 0; 0]; [1; 2; 0]; [2; 2; 0]]%R None 3); try reflexivity; try lia.
    - assert (G : good_direction [0; 0; 1; 1]%R 1).
      { split; [lia|]. split; [split; [cbn; lia|]; intros [|[|[|j]]] Hj; try lia; cbn; auto|]. split; [nondec|]. split; [sepsolve | cbn; lra]. }
      constructor; [exact G|]. constructor; [exact G | constructor].
    - repeat constructor.
    - discriminate. }
  assert (P : forall i j c, 0 <= i < zlen [0; 0; 1; 1]%R - 1 - 1 -> 0 <= j < zlen [0; 0; 1; 1]%R - 1 - 1 -> 0 <= c < zlen [1; 1; 5]%R -> coordinate ex_plane [i; j] c =
     (0 + (fun c : Z => if (c =? 0)%Z then 1 else 0) c * greville [0; 0; 1; 1] 1 i
        + (fun c : Z => if (c =? 0)%Z then 1 else if (c =? 1)%Z then 2 else 0) c * greville [0; 0; 1; 1] 1 j)%R).
  { intros i j c Hi Hj Hc. change (zlen [0; 0; 1; 1]%R) with 4 in Hi, Hj. change (zlen [1; 1; 5]%R) with 3 in Hc.
    assert (H0 : zseq 1 (Z.to_nat 1) = [1]) by reflexivity.
    assert (i = 0 \/ i = 1) as [-> | ->] by lia; assert (j = 0 \/ j = 1) as [-> | ->] by lia; assert (c = 0 \/ c = 1 \/ c = 2) as [-> | [-> | ->]] by lia;
      unfold coordinate, greville; rewrite H0; cbn [lsum]; unfold knot; cbn; cbv [Pos.to_nat Pos.iter_op Nat.add nth];
      match goal with |- @eq _ ?a ?b => change (@eq R a b) end; field. }
  assert (D : in_domain ex_plane [1/2; 1/2]%R).
  { unfold in_domain. change (knots_of ex_plane) with [[0; 0; 1; 1]%R; [0; 0; 1; 1]%R].
    constructor; [cbn; lra|]. constructor; [cbn; lra | constructor]. }
  split; [exact W|]. split; [reflexivity|]. split; [reflexivity|]. split; [reflexivity|]. split; [exact P|]. split; [exact D|].
  assert (E := plane_eval ex_plane [0; 0; 1; 1]%R [0; 0; 1; 1]%R 1 1 [1; 1; 5]%R (fun _ => 0%R) (fun c : Z => if (c =? 0)%Z then 1%R else 0%R)
      (fun c : Z => if (c =? 0)%Z then 1%R else if (c =? 1)%Z then 2%R else 0%R) W eq_refl eq_refl eq_refl ltac:(lia) ltac:(lia) ltac:(cbn; lia) P (1/2)%R (1/2)%R D).
  change (all_dimensions (F := Rops (fun x => x)) [1; 1; 5]%R) with [0; 1; 2] in E. rewrite E. cbn.
  match goal with |- Ok (?x :: ?y :: ?z :: nil) = _ => replace x with 1%R by field; replace y with 1%R by field; replace z with 0%R by field end. reflexivity.
Qed.
