(* The integral of the slope of an inner basis function is zero; this makes linear functions pass the
   stiffness matrix. *)
From Coq Require Import ZArith List Bool Lia Reals Lra.
From Verif Require Import Base BaseFacts RSum MultiIndex MultiIndexSpec MultiIndexFacts TensorSum
  KnotVec KnotVecSpec KnotVecFacts Basis BasisSpec BSplineTheory BasisFacts
  Spaces SpacesSpec SpacesFacts SplineEval SplineSpec EvalFacts RationalDeriv EvalThms SmoothThms
  Gauss GaussSpec GaussThms IgaSpec Iga IgaFacts IgaThms IgaBasis IgaBasisThms IgaSystem IgaSystemSpec Scatter IgaSystemFacts IgaAssembly IgaStiffness IgaSystemThms
  IgaSystemCons IntegralFacts GalerkinSpec GalerkinFacts GalerkinThms StiffnessExact SolvableSpec.
Import ListNotations.
Open Scope R_scope.

Section Dz.
Variable dz : R -> R.
Notation F := (Rops dz).
Variable n : Z.
Variable rl : list (R * R).
Hypothesis Hrule : gauss_rule (F := F) n = Some rl.

Lemma slope_moved kv p i k e : good_direction kv p -> (p < n)%Z -> (0 <= i < zlen kv - p - 1)%Z -> knot_interval kv p k e ->
  moved rl e (slope_of dz kv p i) = B (tk kv) k (Z.to_nat p) i (snd e) - B (tk kv) k (Z.to_nat p) i (fst e).
Proof.
  intros Hg Hn Hi K. pose proof Hg as (Hp & _ & Hnd & _). pose proof K as (Hk & Ee & He). fold (zlen kv) in Hk.
  assert (Hlt : tk kv k < tk kv (k + 1)) by (rewrite !tk_knot' by lia; rewrite Ee in He; exact He).
  rewrite (moved_ext dz n rl Hrule e _ (DB (tk kv) k 1 (Z.to_nat p) i)); auto.
  2:{ intros x Hx. destruct (piece_in kv p k e x Hg K Hx) as (Hs & _). unfold slope_of. now rewrite (span_of_in dz kv p k x). }
  assert (P := is_poly_DB1 (tk kv) k (Z.to_nat p) i). destruct P as (a & Ha).
  assert (pr : Riemann_integrable (DB (tk kv) k 1 (Z.to_nat p) i) (fst e) (snd e)).
  { apply continuity_implies_RiemannInt; [lra|]. intros z _. apply continuity_pt_locally_ext with (f := polynomial a (Z.to_nat p)) (a := 1); [lra | intros; symmetry; apply Ha |].
    apply polynomial_continuous. }
  rewrite <- (moved_exact dz n rl Hrule e _ (Z.to_nat p) pr He); [|now exists a | lia].
  assert (pr' : Riemann_integrable (polynomial a (Z.to_nat p)) (fst e) (snd e)) by apply polynomial_integrable.
  rewrite (RiemannInt_P18 pr pr') by (try lra; intros; auto). rewrite polynomial_integral by lra.
  symmetry. apply (same_slope (B (tk kv) k (Z.to_nat p) i) (primitive a (Z.to_nat p)) (polynomial a (Z.to_nat p))).
  - intros x. rewrite <- Ha. apply B_derivable; auto. now apply tk_monotone.
  - intros x. apply primitive_deriv.
Qed.

Lemma slopes_telescope kv p i : good_direction kv p -> linked_direction kv p -> (p < n)%Z -> (0 <= i < zlen kv - p - 1)%Z ->
  forall l a b, l <> [] -> tiles a b l -> (forall e, In e l -> exists k, knot_interval kv p k e) ->
  exists kf kl, (p <= kf < zlen kv - p - 1)%Z /\ (p <= kl < zlen kv - p - 1)%Z /\
    tk kv kf = a /\ tk kv kf < tk kv (kf + 1) /\ tk kv kl < tk kv (kl + 1) /\ tk kv (kl + 1) = b /\
    lsum (fun e => moved rl e (slope_of dz kv p i)) l = B (tk kv) kl (Z.to_nat p) i b - B (tk kv) kf (Z.to_nat p) i a.
Proof.
  intros Hg Hlink Hn Hi. pose proof Hg as (Hp & _ & Hnd & _). pose proof (tk_monotone kv Hnd) as Hm.
  induction l as [|[x y] l IH]; intros a b Hl Ht H; [congruence|]. cbn [tiles] in Ht. destruct Ht as (-> & Hxy & Ht).
  destruct (H (x, y) (or_introl eq_refl)) as (k & K). pose proof K as (Hk & Ee & _). fold (zlen kv) in Hk. injection Ee as Ex Ey.
  rewrite <- tk_knot' in Ex, Ey by lia. cbn [lsum]. rewrite (slope_moved kv p i k (x, y)) by auto. cbn [fst snd].
  destruct l as [|e' l'].
  - cbn [tiles] in Ht. subst b. exists k, k. cbn [lsum]. repeat (split; [first [lia | congruence | lra]|]). lra.
  - destruct (IH y b) as (kf & kl & H1 & H2 & H3 & H4 & H5 & H6 & H7); [discriminate | exact Ht | intros e He; apply H; now right |].
    exists k, kl. repeat (split; [first [lia | congruence | lra]|]). rewrite H7.
    enough (E : B (tk kv) k (Z.to_nat p) i y = B (tk kv) kf (Z.to_nat p) i y) by lra.
    assert (L1 : (k < kf)%Z) by (destruct (Z_lt_le_dec k kf); auto; pose proof (Hm kf k ltac:(lia)); lra).
    assert (Mid : forall j, (k < j <= kf)%Z -> tk kv j = y).
    { intros j Hj. pose proof (Hm (k + 1)%Z j ltac:(lia)). pose proof (Hm j kf ltac:(lia)). lra. }
    assert (L2 : (kf - k <= p)%Z).
    { destruct (Z_le_gt_dec (kf - k) p); auto. exfalso.
      pose proof (Hlink (Z.to_nat (k + 1)) ltac:(lia) ltac:(unfold zlen in *; lia)) as X.
      assert (E1 := Mid (k + 1)%Z ltac:(lia)). assert (E2 := Mid (k + 1 + p)%Z ltac:(lia)). rewrite tk_knot' in E1, E2 by lia.
      rewrite Z2Nat.inj_add in E2 by lia. lra. }
    replace kf with (k + Z.of_nat (Z.to_nat (kf - k)))%Z by lia.
    apply B_cross; auto; try lia; try lra.
    + replace (k + Z.of_nat (Z.to_nat (kf - k)))%Z with kf by lia. lra.
    + intros j Hj. apply Mid. lia.
Qed.

(* the rule gives zero for the slope of every basis function but the first and the last *)
Lemma slope_sum_zero kv p i : good_direction kv p -> linked_direction kv p -> (p < n)%Z -> (0 < i < zlen kv - p - 2)%Z ->
  lsum (fun e => moved rl e (slope_of dz kv p i)) (pairs (inner kv p)) = 0.
Proof.
  intros Hg Hlink Hn Hi. pose proof Hg as (Hp & (Hc1 & Hc) & Hnd & _ & Hne). pose proof (tk_monotone kv Hnd) as Hm. fold (zlen kv) in Hc1.
  destruct (elements_tile (dz := dz) kv p Hg) as (l & El & Hl & Ht & HK). rewrite elements_ok in El by auto. injection El as <-.
  destruct (slopes_telescope kv p i Hg Hlink Hn ltac:(lia) _ _ _ Hl Ht HK) as (kf & kl & H1 & H2 & H3 & H4 & H5 & H6 & ->).
  assert (Z0 : forall j, (0 <= j <= kf)%Z -> tk kv j = first_knot kv).
  { intros j Hj. pose proof (Hm j kf ltac:(lia)). pose proof (tk_ge_first kv j Hnd). lra. }
  assert (Z1 : forall j, (kl < j < zlen kv)%Z -> tk kv j = final_knot kv).
  { intros j Hj. pose proof (Hm (kl + 1)%Z j ltac:(lia)). pose proof (tk_le_final kv j Hnd). lra. }
  assert (Ef : kf = p).
  { destruct (Z.eq_dec kf p); auto. exfalso. pose proof (Hlink 1%nat ltac:(lia) ltac:(unfold zlen in *; lia)) as X.
    assert (E1 := Z0 1%Z ltac:(lia)). assert (E2 := Z0 (1 + p)%Z ltac:(lia)). rewrite tk_knot' in E1, E2 by lia.
    rewrite Z2Nat.inj_add in E2 by lia. change (Z.to_nat 1) with 1%nat in *. lra. }
  assert (Ek : kl = (zlen kv - p - 2)%Z).
  { destruct (Z.eq_dec kl (zlen kv - p - 2)); auto. exfalso. pose proof (Hlink (Z.to_nat (kl + 1)) ltac:(lia) ltac:(unfold zlen in *; lia)) as X.
    assert (E1 := Z1 (kl + 1)%Z ltac:(lia)). assert (E2 := Z1 (kl + 1 + p)%Z ltac:(lia)). rewrite tk_knot' in E1, E2 by lia.
    rewrite Z2Nat.inj_add in E2 by lia. lra. }
  rewrite (B_at_left (tk kv) kf (Z.to_nat p) (first_knot kv)); auto; try lia; [|intros j Hj; apply Z0; lia].
  rewrite (B_at_right (tk kv) kl (Z.to_nat p) (final_knot kv)); auto; try lia; try lra. intros j Hj. apply Z1. lia.
Qed.

(* the functions of one direction, one of them replaced by its slope *)
Fixpoint slope_factors (knots : list (list R)) (degs : list Z) (gs : list (Z -> R -> R)) (d : Z) (a : list Z) : list (R -> R) :=
  match knots, degs, gs, a with
  | kv :: knots', p :: degs', g :: gs', i :: a' =>
      (fun u => if (d =? 0)%Z then g i u else cox_de_boor kv (Z.to_nat p) (Z.to_nat i) u) :: slope_factors knots' degs' gs' (d - 1) a'
  | _, _, _, _ => []
  end.

Lemma dprod_at knots degs gs : all_slopes knots degs gs -> forall d a us, length a = length knots -> length us = length knots ->
  prod_at (slope_factors knots degs gs d a) us = dprod knots degs gs d a us.
Proof.
  revert degs gs. induction knots as [|kv knots IH]; intros [|p degs] [|g gs] Hs d [|i a] [|u us] Ha Hu; cbn [all_slopes length] in *; try contradiction; try lia.
  - reflexivity.
  - cbn [slope_factors prod_at dprod]. destruct Hs as (_ & Hs). now rewrite IH by (auto; lia).
Qed.

Lemma slope_factors_exact knots degs : Forall2 good_direction knots degs -> Forall (fun p => p < n)%Z degs -> forall d a,
  in_box (map2 (fun kv p => zlen kv - p - 1)%Z knots degs) a ->
  Forall2 (exact_in n) (dlists knots degs) (slope_factors knots degs (slopes_of dz knots degs) d a).
Proof.
  induction 1 as [|kv p knots degs Hg H IH]; intros Hn d a Ha; cbn [map2] in Ha.
  - inversion Ha; subst. constructor.
  - destruct a as [|i a]; [inversion Ha|]. inversion Ha as [|m0 i0 ns0 a0 Hi Ha']; subst; clear Ha; rename Ha' into Ha. inversion Hn as [|p0 l0 Hpn Hn']; subst.
    unfold dlists, slopes_of. cbn [map2 slope_factors]. constructor; [|apply IH; auto].
    intros e He. destruct (elements_tile (dz := dz) kv p Hg) as (l & El & _ & _ & Hk). rewrite elements_ok in El by auto. injection El as <-.
    destruct (Hk e He) as (k & K). pose proof Hg as (Hp & _ & Hnd & _).
    exists (Z.to_nat p), (fun u => if (d =? 0)%Z then DB (tk kv) k 1 (Z.to_nat p) i u else B (tk kv) k (Z.to_nat p) i u).
    split; [lia|]. split; [destruct (d =? 0)%Z; auto using is_poly_B, is_poly_DB1|].
    intros u Hu. destruct (piece_in kv p k e u Hg K Hu) as (Hs & Hk2). unfold slope_of. rewrite (span_of_in dz kv p k u) by auto.
    rewrite !(cox_piece kv k) by (auto; lia). reflexivity.
Qed.

(* the product of the sums vanishes when direction d has an inner index *)
Lemma slope_factors_zero knots degs : Forall2 good_direction knots degs -> Forall2 linked_direction knots degs -> Forall (fun p => p < n)%Z degs -> forall d a,
  Forall2 (fun m i => 0 < i < m - 1)%Z (map2 (fun kv p => zlen kv - p - 1)%Z knots degs) a -> (d < length knots)%nat ->
  rprod (map2 (fun l f => lsum (fun e => moved rl e f) l) (dlists knots degs) (slope_factors knots degs (slopes_of dz knots degs) (Z.of_nat d) a)) = 0.
Proof.
  induction 1 as [|kv p knots degs Hg H IH]; intros Hlk Hn d a Ha Hd; cbn [map2 length] in *; [lia|].
  destruct a as [|i a]; [inversion Ha|]. inversion Ha as [|m0 i0 ns0 a0 Hi Ha']; subst; clear Ha; rename Ha' into Ha. inversion Hn as [|p0 l0 Hpn Hn']; subst.
  inversion Hlk as [|kv0 p1 ks0 ps0 Hl1 Hlk']; subst; clear Hlk; rename Hlk' into Hlk.
  unfold dlists, slopes_of. cbn [map2 slope_factors rprod fold_right]. destruct d as [|d].
  - cbn [Z.of_nat Z.eqb]. rewrite slope_sum_zero by (auto; lia). apply Rmult_0_l.
  - replace (Z.of_nat (S d) - 1)%Z with (Z.of_nat d) by lia.
    pose proof (IH Hlk Hn' d a Ha ltac:(lia)) as E. unfold rprod, dlists, slopes_of in E. rewrite E. apply Rmult_0_r.
Qed.
End Dz.

Lemma inner_indices npts a : in_box npts a -> ~ at_boundary npts a -> Forall2 (fun m i => 0 < i < m - 1)%Z npts a.
Proof.
  unfold in_box. induction 1 as [|m i npts a Hi H IH]; intros Hb; constructor.
  - destruct (Z.eq_dec i 0) as [E|E]; [exfalso; apply Hb; exists 0%nat, m, i; cbn; auto|].
    destruct (Z.eq_dec i (m - 1)) as [E'|E']; [exfalso; apply Hb; exists 0%nat, m, i; cbn; auto|]. lia.
  - apply IH. intros (d & m' & i' & H1 & H2 & H3). apply Hb. exists (S d), m', i'. cbn. auto.
Qed.
