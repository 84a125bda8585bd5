(* A curve with weights and one growing coordinate passes no point twice. *)
From Coq Require Import ZArith List Bool Lia Reals Lra.
From Verif Require Import Base BaseFacts RSum MultiIndex MultiIndexSpec KnotVec KnotVecSpec KnotVecFacts BSplineTheory Basis BasisSpec BasisFacts
  Spaces SpacesSpec SpacesFacts SplineEval SplineSpec EvalFacts EvalThms VariationThms UniqueFacts.
Import ListNotations.
Open Scope Z_scope.

Section Dz.
Variable dz : R -> R.
Implicit Types s : spline (Rops dz).

Lemma curve_coordinates_le s c n : (forall i, 0 <= i -> i + 1 < n -> (coordinate s [i] c < coordinate s [(i + 1)%Z] c)%R) ->
  forall i j, 0 <= i <= j -> j < n -> (coordinate s [i] c <= coordinate s [j] c)%R.
Proof.
  intros H i j Hij Hj. replace j with (i + Z.of_nat (Z.to_nat (j - i))) in * by lia. induction (Z.to_nat (j - i)) as [|m IH].
  - replace (i + Z.of_nat 0) with i by lia. lra.
  - pose proof (IH ltac:(lia) ltac:(lia)). pose proof (H (i + Z.of_nat m) ltac:(lia) ltac:(lia)) as X.
    replace (i + Z.of_nat m + 1) with (i + Z.of_nat (S m)) in X by lia. lra.
Qed.

Theorem rational_curve_strict s kv p c u v : well_formed s -> is_bspline s \/ positive_weights s -> knots_of s = [kv] -> degs_of s = [p] -> 1 <= p ->
  0 <= c < ph_dim (sp_ph s) -> (forall i, 0 <= i -> i + 1 < zlen kv - p - 1 -> (coordinate s [i] c < coordinate s [(i + 1)%Z] c)%R) ->
  (first_knot kv <= u)%R -> (u < v)%R -> (v <= final_knot kv)%R ->
  exists x y, evaluate s [u] [c] = Ok [x] /\ evaluate s [v] [c] = Ok [y] /\ (x < y)%R.
Proof.
  intros W Hw Ek Ed Hp Hc HG Hu Huv Hv.
  pose proof (curve_coordinates_le s c _ HG) as HM.
  destruct (monotone_curve dz s kv p c u v W Hw Ek Ed Hc HM Hu ltac:(lra) Hv) as (x & y & E1 & E2 & Hxy).
  exists x, y. split; [exact E1|]. split; [exact E2|]. destruct Hxy as [L|<-]; [exact L|]. exfalso.
  assert (Hg : good_direction kv p) by (pose proof (wf_directions s W) as G; rewrite Ek, Ed in G; inversion G; assumption).
  assert (Hvd : valid_dims s [c]) by (repeat constructor; lia).
  assert (Hin : forall z, (first_knot kv <= z <= final_knot kv)%R -> in_domain s [z]) by (intros z Hz; unfold in_domain; rewrite Ek; constructor; auto).
  assert (En : npts_of s = [zlen kv - p - 1]) by (rewrite (wf_npts s W), Ek, Ed; reflexivity).
  destruct (eval_direction dz kv p u Hg ltac:(lra)) as (k & _ & Hsp & K1 & K2). pose proof Hg as (_ & _ & Hn & _).
  pose proof Hsp as (A1 & A2 & A3 & A4 & A5). assert (A6 : (u < tk kv (k + 1)%Z)%R) by (destruct A5 as [A5|[A5 A5']]; lra).
  set (b := Rmin v (tk kv (k + 1)%Z)).
  assert (Hb : (u < b)%R) by (unfold b; apply Rmin_glb_lt; lra).
  assert (Hb1 : (b <= v)%R) by apply Rmin_l. assert (Hb2 : (b <= tk kv (k + 1)%Z)%R) by apply Rmin_r.
  assert (Zero : forall z, (u < z < b)%R -> lsum (fun i => weight s [i] * (coordinate s [i] c - x) * B (tk kv) k (Z.to_nat p) i z)%R (zseq (k - Z.of_nat (Z.to_nat p)) (S (Z.to_nat p))) = 0%R).
  { intros z Hz. assert (Rz : (first_knot kv <= z <= final_knot kv)%R) by lra.
    destruct (monotone_curve dz s kv p c u z W Hw Ek Ed Hc HM ltac:(lra) ltac:(lra) ltac:(lra)) as (x1 & y1 & F1 & F2 & L1).
    destruct (monotone_curve dz s kv p c z v W Hw Ek Ed Hc HM ltac:(lra) ltac:(lra) ltac:(lra)) as (x2 & y2 & F3 & F4 & L2).
    assert (Ez : evaluate s [z] [c] = Ok [x]) by (rewrite F2; do 2 f_equal; assert (x1 = x) by congruence; assert (y2 = x) by congruence; assert (x2 = y1) by congruence; lra).
    pose proof (weights_nonzero dz s [z] W Hw (Hin z Rz)) as NW.
    rewrite (eval_quotient dz s [z] [c] W (Hin z Rz) Hvd NW) in Ez. cbn [map] in Ez.
    assert (Eq : (weighted_sum s [z] c / weight_function s [z] = x)%R) by congruence. clear Ez.
    assert (Eq' : (weighted_sum s [z] c - x * weight_function s [z] = 0)%R) by (rewrite <- Eq; field; exact NW).
    unfold weighted_sum, weight_function in Eq'. rewrite En, Ek, Ed, all_indices_1, !lsum_map, <- lsum_scal, <- lsum_minus in Eq'.
    rewrite <- (lsum_zseq_extend (fun i => weight s [i] * (coordinate s [i] c - x) * B (tk kv) k (Z.to_nat p) i z)%R (k - Z.of_nat (Z.to_nat p)) (S (Z.to_nat p)) 0 (Z.to_nat (zlen kv - p - 1))); try lia.
    - rewrite <- Eq'. apply lsum_ext. intros i Hi. apply zseq_In in Hi. cbn [basis_product].
      rewrite (cox_piece kv k) by (auto; try lia; unfold in_span; repeat split; auto; try lia; left + idtac; lra). ring.
    - intros i Hi Ho. rewrite B_outside by lia. ring. }
  pose proof (pieces_independent_on (tk kv) k u b (tk_monotone kv Hn) A3 Hb (Z.to_nat p) _ Zero) as Z0. cbv beta in Z0.
  assert (Wt : forall i, 0 <= i < zlen kv - p - 1 -> weight s [i] <> 0%R) by (intros i Hi; apply (weight_nonzero dz s [i] W Hw); rewrite En; constructor; [lia | constructor]).
  assert (Same : forall i, k - p <= i <= k -> coordinate s [i] c = x).
  { intros i Hi. pose proof (Z0 i ltac:(lia)) as E. apply Rmult_integral in E. destruct E as [E|E]; [exfalso; apply (Wt i); [lia | exact E] | lra]. }
  pose proof (HG (k - p) ltac:(lia) ltac:(lia)) as Last. rewrite !Same in Last by lia. lra.
Qed.
End Dz.
