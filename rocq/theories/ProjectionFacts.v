(* Lemmas about point projection. *)
From Coq Require Import ZArith List Bool Lia Reals Lra.
From Verif Require Import Base BaseFacts RSum MultiIndex MultiIndexSpec MultiIndexFacts TensorSum VecUtils VecThms
  KnotVec KnotVecSpec KnotVecFacts Basis BasisSpec BSplineTheory BasisFacts DegreeSpec DegreeFacts DegreeThms
  Spaces SpacesSpec SpacesFacts SplineEval SplineSpec EvalFacts EvalDeriv EvalThms Iga IgaSpec IgaThms
  GeneratorsFacts GeneratorsThms Projection.
From Verif Require Import VecSpec GrevilleSpec GrevilleFacts.
Import ListNotations.
Open Scope Z_scope.

(* ---- the loop, for every instance of the numbers ---- *)
Section Loop.
Context {F : NumOps}.
Lemma newton_ends (step : list F -> Res (list F * bool)) : forall fuel it us, it <= 1000 -> 1000 < it + Z.of_nat fuel ->
  newton step fuel it us <> Ok None.
Proof.
  induction fuel as [|f IH]; intros it us Hit H; cbn [newton].
  - lia.
  - destruct (step us) as [r|e|]; cbn [bind]; try discriminate.
    destruct (Z.ltb_spec 1000 (it + 1)); [discriminate|]. destruct (snd r); [discriminate|]. apply IH; lia.
Qed.
Lemma newton_stable (step : list F -> Res (list F * bool)) : forall fuel it us r,
  newton step fuel it us = r -> r <> Ok None -> forall more, newton step (fuel + more) it us = r.
Proof.
  induction fuel as [|f IH]; intros it us r H N more; cbn [newton Nat.add] in *.
  - congruence.
  - destruct (step us) as [x|e|]; cbn [bind] in *; auto.
    destruct (1000 <? it + 1); auto. destruct (snd x); auto.
Qed.
Lemma newton_inv (step : list F -> Res (list F * bool)) (P Q : list F -> Prop) :
  (forall us, P us -> exists us' b, step us = Ok (us', b) /\ Q us') -> (forall us, Q us -> P us) ->
  forall fuel it us, 1000 < it + Z.of_nat fuel -> it <= 1000 -> P us -> exists us', newton step fuel it us = Ok (Some us') /\ Q us'.
Proof.
  intros Hs HQ. induction fuel as [|f IH]; intros it us H Hit Hp; [lia|]. cbn [newton].
  destruct (Hs us Hp) as (us' & b & E & Hq). rewrite E. cbn [bind fst snd].
  destruct (Z.ltb_spec 1000 (it + 1)); [eauto|]. destruct b; [eauto|]. apply IH; auto; lia.
Qed.
End Loop.

Lemma terminates_curve : forall (F : NumOps) (pt : list F) s tol fuel, (Z.to_nat 1001 <= fuel)%nat ->
  project_curve fuel pt s tol <> Ok None /\ project_curve fuel pt s tol = project_curve (Z.to_nat 1001) pt s tol.
Proof.
  intros F pt s tol fuel H. unfold project_curve. destruct (initial_curve pt s (all_dimensions pt)) as [us|e|]; cbn [bind]; try (split; [discriminate | reflexivity]).
  split; [apply newton_ends; lia|]. replace fuel with (Z.to_nat 1001 + (fuel - Z.to_nat 1001))%nat by lia.
  apply newton_stable; [reflexivity|]. apply newton_ends; lia.
Qed.
Lemma terminates_surface : forall (F : NumOps) (pt : list F) s sc tol fuel, (Z.to_nat 1001 <= fuel)%nat ->
  project_surface fuel pt s sc tol <> Ok None /\ project_surface fuel pt s sc tol = project_surface (Z.to_nat 1001) pt s sc tol.
Proof.
  intros F pt s sc tol fuel H. unfold project_surface. destruct (initial_surface sc pt s (all_dimensions pt)) as [us|e|]; cbn [bind]; try (split; [discriminate | reflexivity]).
  split; [apply newton_ends; lia|]. replace fuel with (Z.to_nat 1001 + (fuel - Z.to_nat 1001))%nat by lia.
  apply newton_stable; [reflexivity|]. apply newton_ends; lia.
Qed.

Lemma Forall2_len {A B} (P : A -> B -> Prop) l1 l2 : Forall2 P l1 l2 -> length l1 = length l2.
Proof. induction 1; cbn; congruence. Qed.

Lemma tiles_inside l : forall a b e, tiles a b l -> In e l -> (a <= fst e /\ fst e < snd e /\ snd e <= b)%R.
Proof.
  induction l as [|[x y] l IH]; intros a b e H Hi; [destruct Hi|]. cbn [tiles] in H. destruct H as (-> & H1 & H2).
  assert (Hb : (y <= b)%R).
  { clear - H2. revert y H2. induction l as [|[x' y'] l IH]; intros y H2; cbn [tiles] in H2; [lra|]. destruct H2 as (-> & A & B). specialize (IH _ B). lra. }
  destruct Hi as [<- |Hi]; cbn [fst snd]; [lra|]. specialize (IH _ _ _ H2 Hi). lra.
Qed.

Section Real.
Context {dz : R -> R}.
Notation F := (Rops dz).
Implicit Types s : spline F.

Lemma dims_valid s (pt : list R) : zlen pt <= ph_dim (sp_ph s) -> valid_dims s (all_dimensions (F := F) pt).
Proof. intros H. unfold valid_dims, all_dimensions. apply Forall_forall. intros c Hc. apply zseq_In in Hc. zl. Qed.
Lemma dims_length (pt : list R) : length (all_dimensions (F := F) pt) = length pt.
Proof. unfold all_dimensions. apply zseq_length. Qed.

Lemma half_R : half (F := F) = (1 / 2)%R.
Proof. unfold half. rnorm. rewrite ndiv_R by lra. reflexivity. Qed.

(* u moved to the nearest end of the domain of kv *)
Definition clamp (kv : list R) (u : R) : R :=
  if Rlt_dec u (first_knot kv) then first_knot kv else if Rlt_dec (final_knot kv) u then final_knot kv else u.

Lemma sp_knots_at s d kv : nth_error (knots_of s) d = Some kv -> sp_knots s d = Ok kv.
Proof. intros E. exact (f_equal (fun o : option (list R) => match o with Some a => Ok a | None => UB end) E). Qed.
Lemma sp_deg_at s d p : nth_error (degs_of s) d = Some p -> sp_deg s d = Ok p.
Proof. intros E. exact (f_equal (fun o : option Z => match o with Some a => Ok a | None => UB end) E). Qed.

Lemma first_ok kv : (0 < length kv)%nat -> get_knot (F := F) kv 0 = Ok (first_knot kv).
Proof. intros H. exact (vget_nth kv 0 0%R ltac:(unfold zlen; lia)). Qed.

Lemma check_ok s kv (us : list R) : nth_error (knots_of s) 0 = Some kv -> (0 < length kv)%nat ->
  check_coordinates (F := F) s us = Ok (map (clamp kv) us).
Proof.
  intros E Hl. unfold check_coordinates. apply (mapM_ok (A := R)). intros u _.
  rewrite (sp_knots_at s 0 kv E). cbn [bind].
  rewrite first_ok by auto. cbn [bind].
  unfold clamp. rnorm. unfold Rltb at 1. destruct (Rlt_dec u (first_knot kv)); [reflexivity|].
  rewrite last_knot_ok by auto. cbn [bind]. unfold Rltb. destruct (Rlt_dec (final_knot kv) u); reflexivity.
Qed.

Lemma clamp_range kv u : (first_knot kv <= final_knot kv)%R -> (first_knot kv <= clamp kv u <= final_knot kv)%R.
Proof. intros H. unfold clamp. destruct (Rlt_dec u (first_knot kv)); [lra|]. destruct (Rlt_dec (final_knot kv) u); lra. Qed.

Lemma good_ends kv p : good_direction kv p -> (0 < length kv)%nat /\ (first_knot kv <= final_knot kv)%R.
Proof.
  intros Hg. destruct (elements_tile (dz := dz) kv p Hg) as (l & E & Hn & Ht & _).
  destruct l as [|e l]; [congruence|].
  pose proof (tiles_inside _ _ _ e Ht (or_introl eq_refl)) as H.
  split; [|lra]. destruct kv; cbn; [|lia]. exfalso. unfold first_knot, final_knot, knot in H. cbn in H. lra.
Qed.

(* evaluation succeeds and has the length of the point *)
Lemma eval_pt s us (pt : list R) : well_formed s -> in_domain s us -> zlen pt <= ph_dim (sp_ph s) ->
  exists x, evaluate s us (all_dimensions (F := F) pt) = Ok x /\ length x = length pt.
Proof.
  intros Hwf Hu Hd. pose proof (dims_valid s pt Hd) as Hv.
  destruct (eval_safe dz s us (all_dimensions (F := F) pt) (map (fun _ => 0) (degs_of s)) Hwf) as [H _]; auto.
  - unfold in_domain in Hu. symmetry. eapply Forall2_len; eauto.
  - now rewrite map_length.
  - apply Forall_forall. intros m Hm. apply in_map_iff in Hm. destruct Hm as (? & <- & _). lia.
  - destruct (H Hu) as [(x & E & L) _]. exists x. split; auto. rewrite L. apply dims_length.
Qed.
Lemma deriv_pt s us (pt : list R) ders : well_formed s -> in_domain s us -> zlen pt <= ph_dim (sp_ph s) ->
  length ders = length (degs_of s) -> Forall (fun m => 0 <= m) ders ->
  exists x, evaluate_derivative s us (all_dimensions (F := F) pt) ders = Ok x /\ length x = length pt.
Proof.
  intros Hwf Hu Hd H1 H2. pose proof (dims_valid s pt Hd) as Hv.
  destruct (eval_safe dz s us (all_dimensions (F := F) pt) ders Hwf) as [H _]; auto.
  - unfold in_domain in Hu. symmetry. eapply Forall2_len; eauto.
  - destruct (H Hu) as [_ (x & E & L)]. exists x. split; auto. rewrite L. apply dims_length.
Qed.

Lemma diff_ok (a b : list R) : length a = length b -> difference (F := F) a b = Ok (map2 Rminus a b).
Proof. exact (transform_len Rminus a b). Qed.

(* ---- curves ---- *)
Lemma initial_curve_ok s kv p (pt : list R) : well_formed s -> knots_of s = [kv] -> degs_of s = [p] -> first_knot kv = 0%R ->
  zlen pt <= ph_dim (sp_ph s) -> exists u : R, initial_curve (F := F) pt s (all_dimensions (F := F) pt) = Ok [u] /\ in_domain s [u].
Proof.
  intros Hwf Ek Ed E0 Hd. pose proof (wf_directions s Hwf) as Hg. rewrite Ek, Ed in Hg. inversion Hg as [|? ? ? ? Hg1 _]; subst. clear Hg.
  destruct (elements_tile (dz := dz) kv p Hg1) as (es & Ee & Hne & Ht & _).
  assert (Dom : forall u, (first_knot kv <= u <= final_knot kv)%R -> in_domain s [u]) by (intros u Hu; unfold in_domain; rewrite Ek; constructor; auto).
  unfold initial_curve. rewrite (sp_knots_at s 0 kv) by (rewrite Ek; reflexivity). rewrite (sp_deg_at s 0 p) by (rewrite Ed; reflexivity).
  cbn [bind]. step Ee.
  destruct es as [|e0 es]; [congruence|].
  assert (E1 : vget (e0 :: es) 0 = Ok e0) by reflexivity. rnorm. rewrite E1. cbn [bind]. clear E1.
  pose proof (tiles_inside _ _ _ e0 Ht (or_introl eq_refl)) as I0.
  rewrite half_R.
  destruct (eval_pt s [(1 / 2 * (snd e0 - fst e0))%R] pt Hwf) as (x0 & Ex & Lx); auto; [apply Dom; lra|].
  rewrite Ex. cbn [bind]. rewrite (distance_ok dz pt x0) by auto. cbn [bind].
  destruct (for_up_inv (fun _ (acc : R * R) => in_domain s [fst acc]) 1 (zlen (e0 :: es)) (fun i (acc : R * R) =>
         e <- vget (e0 :: es) i ;; x <- evaluate s [(1 / 2 * (snd e - fst e) + fst e)%R] (all_dimensions (F := F) pt) ;; d <- distance (F := F) pt x ;;
         Ok (if Rltb d (snd acc) then ((1 / 2 * (snd e - fst e) + fst e)%R, d) else acc)) ((1 / 2 * (snd e0 - fst e0))%R, euclid pt x0)) as (r & Er & Ir).
  - unfold zlen. cbn [length]. lia.
  - intros j acc Hj Ha. rewrite (vget_nth (e0 :: es) j e0) by lia. cbn [bind].
    assert (Hj' : (Z.to_nat j < length (e0 :: es))%nat) by (clear - Hj; unfold zlen in Hj; lia).
    pose proof (tiles_inside _ _ _ (nth (Z.to_nat j) (e0 :: es) e0) Ht (nth_In _ _ Hj')) as I1.
    set (e := nth (Z.to_nat j) (e0 :: es) e0) in *.
    destruct (eval_pt s [(1 / 2 * (snd e - fst e) + fst e)%R] pt Hwf) as (x & Ex' & Lx'); auto; [apply Dom; lra|].
    rewrite Ex'. cbn [bind]. rewrite (distance_ok dz pt x) by auto. cbn [bind].
    eexists. split; [reflexivity|]. destruct (Rltb _ _); auto. cbn [fst]. apply Dom. lra.
  - cbn [fst]. apply Dom. lra.
  - exists (fst r). split; auto.
    exact (f_equal (fun m : Res (R * R) => bind m (fun r => Ok [fst r])) Er).
Qed.

Lemma step_curve_ok s kv p (pt : list R) tol (u : R) : well_formed s -> knots_of s = [kv] -> degs_of s = [p] ->
  zlen pt <= ph_dim (sp_ph s) -> in_domain s [u] ->
  exists deriv cur b, evaluate_derivative s [u] (all_dimensions (F := F) pt) [1] = Ok deriv /\ length deriv = length pt /\
    evaluate s [u] (all_dimensions (F := F) pt) = Ok cur /\ length cur = length pt /\
    step_curve (F := F) pt s tol [u] = Ok ([clamp kv (u + ndiv (n := F) (dot deriv (map2 Rminus pt cur)) (dot deriv deriv))%R], b).
Proof.
  intros Hwf Ek Ed Hd Hu.
  destruct (eval_pt s [u] pt Hwf Hu Hd) as (cur & Ec & Lc).
  destruct (deriv_pt s [u] pt [1] Hwf Hu Hd) as (deriv & Eder & Lder); [rewrite Ed; reflexivity | repeat constructor; lia|].
  exists deriv, cur. eexists. split; [exact Eder|]. split; [exact Lder|]. split; [exact Ec|]. split; [exact Lc|].
  unfold step_curve. rewrite Eder, Ec. cbn [bind]. unfold delta_curve. step (diff_ok pt cur (eq_sym Lc)).
  assert (Lm : length deriv = length (map2 Rminus pt cur)) by (rewrite map2_length; [exact Lder | exact (eq_sym Lc)]).
  rewrite (scalar_value deriv _ Lm). cbn [bind]. rewrite scalar_value by auto. cbn [bind].
  unfold update_point. cbn [map2]. rewrite (check_ok s kv).
  - cbn [bind map]. reflexivity.
  - rewrite Ek. reflexivity.
  - pose proof (wf_directions s Hwf) as Hg. rewrite Ek, Ed in Hg. inversion Hg as [|? ? ? ? Hg1 _]; subst. now apply good_ends in Hg1.
Qed.

Lemma curve_in_domain s (pt : list R) tol : well_formed s -> length (knots_of s) = 1%nat -> zlen pt <= ph_dim (sp_ph s) ->
  Forall (fun kv => first_knot kv = 0%R) (knots_of s) ->
  exists u : R, project_curve (F := F) (Z.to_nat 1001) pt s tol = Ok (Some [u]) /\ in_domain s [u].
Proof.
  intros Hwf Hl Hd H0. destruct (one_direction s Hwf Hl) as (kv & p & Ek & Ed & Hg & _).
  assert (E0 : first_knot kv = 0%R) by (rewrite Ek in H0; inversion H0; auto).
  destruct (initial_curve_ok s kv p pt Hwf Ek Ed E0 Hd) as (u & Ei & Hu).
  unfold project_curve. rewrite Ei. cbn [bind].
  destruct (newton_inv (F := F) (step_curve (F := F) pt s tol) (fun us => exists v, us = [v] /\ in_domain s [v]) (fun us => exists v, us = [v] /\ in_domain s [v])) with (fuel := Z.to_nat 1001) (it := 0) (us := [u] : list F) as (us' & E & v & -> & Hv); auto.
  - intros us (v & -> & Hv). destruct (step_curve_ok s kv p pt tol v Hwf Ek Ed Hd Hv) as (d & c & b & _ & _ & _ & _ & Es).
    eexists. exists b. split; [exact Es|]. eexists. split; [reflexivity|]. unfold in_domain. rewrite Ek. constructor; [|constructor].
    apply clamp_range. now apply good_ends in Hg.
  - lia.
  - lia.
  - exists u. auto.
  - exists v. auto.
Qed.
End Real.
