(* The quadratic forms of the assembled matrices: zero only for the zero vector or for constants. *)
From Coq Require Import ZArith List Bool Lia Reals Lra.
From Verif Require Import Base BaseFacts RSum MultiIndex MultiIndexSpec MultiIndexFacts TensorSum
  KnotVec KnotVecSpec KnotVecFacts Basis BasisSpec BSplineTheory BasisFacts
  Spaces SpacesSpec SpacesFacts SplineEval SplineSpec EvalFacts RationalDeriv EvalThms UniqueSpec UniqueFacts
  Gauss GaussSpec GaussThms IgaSpec Iga IgaFacts IgaThms IgaBasis IgaBasisThms IgaSystem IgaSystemSpec Scatter IgaSystemFacts IgaAssembly IgaStiffness IgaSystemThms
  IgaSystemCons IntegralFacts GalerkinSpec GalerkinFacts GalerkinThms StiffnessExact SolvableSpec PolyGrid.
Import ListNotations.
Open Scope R_scope.

(* a function without slope inside an element is constant there *)
Lemma flat_interval (f : R -> R) lo hi : (forall v, lo < v < hi -> derivable_pt_lim f v 0) -> forall u v, lo < u < hi -> lo < v < hi -> f u = f v.
Proof.
  intros H. assert (L : forall u v, lo < u < hi -> lo < v < hi -> u < v -> f u = f v).
  { intros u v Hu Hv Huv. destruct (MVT_cor2 f (fun _ => 0) u v Huv) as (c & E & _); [intros c Hc; apply H; lra | lra]. }
  intros u v Hu Hv. destruct (Rtotal_order u v) as [C|[->|C]]; auto. symmetry. auto.
Qed.
Lemma flat_element lists : forall es (f : list R -> R),
  (forall us d, strictly_inside lists es us -> (d < length us)%nat -> derivable_pt_lim (fun v => f (upd us d v)) (nth d us 0) 0) ->
  forall us us', strictly_inside lists es us -> strictly_inside lists es us' -> f us = f us'.
Proof.
  induction lists as [|l lists IH]; intros [|e es] f H [|u us] [|u' us'] Hu Hu'; cbn [strictly_inside] in Hu, Hu'; try contradiction; [reflexivity|].
  destruct Hu as (U1 & U2). destruct Hu' as (V1 & V2). transitivity (f (u' :: us)).
  - apply (flat_interval (fun v => f (v :: us)) _ _) with (2 := U1) (3 := V1). intros v Hv.
    apply (H (v :: us) 0%nat); [split; assumption | cbn; lia].
  - apply (IH es (fun r => f (u' :: r))); auto. intros r d Hr Hd. apply (H (u' :: r) (S d)); [split; assumption | cbn; lia].
Qed.

(* indices that share elements *)
Lemma linked_all knots degs : Forall2 good_direction knots degs -> Forall2 full_support knots degs -> Forall2 linked_direction knots degs ->
  forall c : list Z -> R,
  (forall ks idx idx', (exists us, inside_spans knots ks us) -> used_there degs ks idx -> used_there degs ks idx' -> c idx = c idx') ->
  forall idx idx', in_box (map2 (fun kv p => zlen kv - p - 1)%Z knots degs) idx -> in_box (map2 (fun kv p => zlen kv - p - 1)%Z knots degs) idx' -> c idx = c idx'.
Proof.
  induction 1 as [|kv p knots degs Hg H IH]; intros Hf Hl c Hc idx idx' Hi Hi'; cbn [map2] in Hi, Hi'.
  - inversion Hi; inversion Hi'; subst. reflexivity.
  - inversion Hf as [|? ? ? ? F1 F2]; inversion Hl as [|? ? ? ? L1 L2]; subst. pose proof Hg as (Hp & Hcl & Hn & Hs & Hlt).
    inversion Hi as [|? i ? r I1 I2]; inversion Hi' as [|? i' ? r' J1 J2]; subst.
    assert (Span : forall a b, (0 <= a)%Z -> (b < zlen kv)%Z -> tk kv a < tk kv b -> exists k u, (a <= k < b)%Z /\ inside_span kv k u).
    { intros a b Ha Hb Hab. destruct (nonempty_span kv a b Hn Ha Hb Hab) as (k & Hk & Hk2). exists k, ((tk kv k + tk kv (k + 1)) / 2).
      split; [exact Hk|]. split; [lia|]. split; [lia|]. rewrite (tk_knot' kv k), (tk_knot' kv (k + 1)) in * by lia.
      replace (Z.to_nat k + 1)%nat with (Z.to_nat (k + 1)) by lia. lra. }
    (* the same first index *)
    assert (Same : forall j, (0 <= j < zlen kv - p - 1)%Z -> forall x y, in_box (map2 (fun kv p => zlen kv - p - 1)%Z knots degs) x ->
      in_box (map2 (fun kv p => zlen kv - p - 1)%Z knots degs) y -> c (j :: x) = c (j :: y)).
    { intros j Hj. apply (IH F2 L2 (fun x => c (j :: x))). intros ks x y (us & Hus) Hx Hy.
      pose proof (F1 (Z.to_nat j) ltac:(lia)) as Hjj.
      rewrite <- (tk_knot' kv j), <- (tk_knot kv (Z.to_nat j + Z.to_nat p + 1)) in Hjj by (unfold zlen in *; lia).
      replace (Z.of_nat (Z.to_nat j + Z.to_nat p + 1)) with (j + p + 1)%Z in Hjj by lia.
      destruct (Span j (j + p + 1)%Z ltac:(lia) ltac:(lia) Hjj) as (k & u & Hk & Hu).
      apply (Hc (k :: ks)); [exists (u :: us); split; assumption | split; [lia | assumption] | split; [lia | assumption]]. }
    (* neighbours *)
    assert (Next : forall j, (0 < j < zlen kv - p - 1)%Z -> c (j :: r) = c ((j - 1)%Z :: r)).
    { intros j Hj. destruct (supported_spans _ _ _ H F2 I2) as (ks & (us & Hus) & Hr).
      pose proof (L1 (Z.to_nat j) ltac:(lia) ltac:(unfold zlen in *; lia)) as Hjj.
      rewrite <- (tk_knot' kv j), <- (tk_knot kv (Z.to_nat j + Z.to_nat p)) in Hjj by (unfold zlen in *; lia).
      replace (Z.of_nat (Z.to_nat j + Z.to_nat p)) with (j + p)%Z in Hjj by lia.
      destruct (Span j (j + p)%Z ltac:(lia) ltac:(lia) Hjj) as (k & u & Hk & Hu).
      apply (Hc (k :: ks)); [exists (u :: us); split; assumption | split; [lia | assumption] | split; [lia | assumption]]. }
    assert (Zero : forall n : nat, (Z.of_nat n < zlen kv - p - 1)%Z -> c (Z.of_nat n :: r) = c (0%Z :: r)).
    { induction n as [|n IHn]; intros Hn'; [reflexivity|]. rewrite Next by lia. rewrite <- IHn by lia. do 2 f_equal. lia. }
    rewrite <- (Same i' J1 r r' I2 J2). transitivity (c (0%Z :: r)); [|symmetry].
    + rewrite <- (Zero (Z.to_nat i)) by lia. do 2 f_equal. lia.
    + rewrite <- (Zero (Z.to_nat i')) by lia. do 2 f_equal. lia.
Qed.

Section Dz.
Variable dz : R -> R.
Local Notation F := (Rops dz).
Implicit Types s : spline F.

(* elements and knot spans *)
Lemma inside_equiv knots degs : Forall2 good_direction knots degs -> forall ks lists es us, element_spans knots degs ks lists es ->
  (inside_spans knots ks us <-> strictly_inside lists es us).
Proof.
  induction 1 as [|kv p knots degs Hg H IH]; intros [|k ks] [|l lists] [|e es] [|u us] He; cbn [element_spans inside_spans strictly_inside] in *; try tauto.
  destruct He as ((K1 & K2 & K3) & He). rewrite (IH ks lists es us He). rewrite K2. cbn [fst snd]. destruct Hg as (Hp & _).
  unfold inside_span, zlen. replace (Z.to_nat k + 1)%nat with (Z.to_nat (k + 1)) by lia. intuition lia.
Qed.
Lemma spans_element knots degs : Forall2 good_direction knots degs -> forall ks us, inside_spans knots ks us ->
  exists es, in_box (map zlen (dlists knots degs)) es /\ element_spans knots degs ks (dlists knots degs) es.
Proof.
  induction 1 as [|kv p knots degs Hg H IH]; intros [|k ks] [|u us] Hi; cbn [inside_spans] in Hi; try contradiction.
  - exists []. split; [constructor | exact I].
  - destruct Hi as (Hu & Hi). destruct (IH ks us Hi) as (es & E1 & E2). pose proof Hg as (_ & _ & Hn & _).
    destruct (element_at_dir dz kv p Hg u (inside_domain _ _ _ Hn Hu)) as (k' & e & _ & He & _ & Hs & K & _).
    assert (k' = k) by (eapply in_span_unique; eauto; now apply inside_in_span). subst k'.
    exists (e :: es). unfold dlists. cbn [map2 map]. split; [constructor; auto | split; auto].
Qed.

(* a quadrature with positive weights of a function that is nowhere negative *)
Lemma quadrature_zero s rl f : well_formed s -> inner_rule rl -> Forall (fun q => 0 < snd q) rl ->
  (forall es us, in_box (map zlen (dlists (knots_of s) (degs_of s))) es -> strictly_inside (dlists (knots_of s) (degs_of s)) es us -> 0 <= f us) ->
  quadrature (dlists (knots_of s) (degs_of s)) rl f = 0 ->
  forall es qs, in_box (map zlen (dlists (knots_of s) (degs_of s))) es ->
  in_box (repeat (Z.of_nat (length rl)) (length (dlists (knots_of s) (degs_of s)))) qs ->
  f (element_point (dlists (knots_of s) (degs_of s)) es (grid_point rl qs)) = 0.
Proof.
  intros Hwf Hrl Hw Hf Hz es qs He Hq. set (lists := dlists (knots_of s) (degs_of s)) in *.
  assert (W : forall qs, in_box (repeat (Z.of_nat (length rl)) (length lists)) qs -> 0 < grid_weight rl qs).
  { intros qs'. generalize (length lists). intros n Hb. apply box_repeat in Hb. destruct Hb as (_ & Hb).
    unfold grid_weight. induction Hb as [|q qs' Hq1 _ IH]; cbn; [lra|]. apply Rmult_lt_0_compat; auto.
    rewrite Forall_forall in Hw. apply Hw, nth_In. lia. }
  assert (P : forall es qs, in_box (map zlen lists) es -> in_box (repeat (Z.of_nat (length rl)) (length lists)) qs ->
     0 <= f (element_point lists es (grid_point rl qs))).
  { intros es' qs' He' Hq'. apply (Hf es'); auto. exact (qpoint_inside s rl es' Hwf Hrl He' qs' Hq'). }
  destruct (P es qs He Hq) as [C|C]; [|now symmetry]. exfalso.
  assert (X : 0 < quadrature lists rl f); [|lra]. unfold quadrature. apply lsum_pos.
  - intros es' He'. apply all_indices_box in He'. apply lsum_nonneg. intros qs' Hq'. apply all_indices_box in Hq'.
    apply Rmult_le_pos; [left; now apply W | now apply P].
  - exists es. split; [now apply all_indices_box|]. apply lsum_pos.
    + intros qs' Hq'. apply all_indices_box in Hq'. apply Rmult_le_pos; [left; now apply W | now apply P].
    + exists qs. split; [now apply all_indices_box|]. apply Rmult_lt_0_compat; auto.
Qed.

(* the mass matrix *)
Lemma mass_zero mdet s rl m c : well_formed s -> is_bspline s \/ positive_weights s -> Forall2 full_support (knots_of s) (degs_of s) ->
  dense_rule rl (degs_of s) -> nondegenerate mdet s -> mass_matrix (F := F) mdet s rl = Ok m -> quadratic_form (npts_of s) m c = 0 ->
  forall idx, in_box (npts_of s) idx -> component c (position (npts_of s) idx) = 0.
Proof.
  intros Hwf Hpos Hfull Hd Hj Em Hq idx Hidx. pose proof Hd as (Hin & _ & Hw & _).
  assert (Hreg : regular s) by (intros us Hu; now apply weights_nonzero).
  destruct (mass_consequences mdet s rl m Hwf Hreg Hin Em) as (lists & jac & El & Hjac & _ & _ & HQ & _).
  rewrite element_lists_ok in El by auto. injection El as <-. set (lists := dlists (knots_of s) (degs_of s)) in *.
  pose proof Hwf as [G _ N _ _ _].
  assert (J : forall es us, in_box (map zlen lists) es -> strictly_inside lists es us -> 0 < jac us).
  { intros es us He Hu. destruct (Hj lists es us (element_lists_ok s Hwf) He Hu) as (j & Ej & Hpj). rewrite (Hjac es us He Hu) in Ej. injection Ej as <-. exact Hpj. }
  unfold quadratic_form in Hq. rewrite HQ in Hq.
  assert (Z0 : forall es qs, in_box (map zlen lists) es -> in_box (repeat (Z.of_nat (length rl)) (length lists)) qs ->
     combination s c (element_point lists es (grid_point rl qs)) = 0).
  { intros es qs He Hqs. pose proof (qpoint_inside s rl es Hwf Hin He qs Hqs) as Hu.
    assert (E : jac (element_point lists es (grid_point rl qs)) * Rsqr (combination s c (element_point lists es (grid_point rl qs))) = 0).
    { apply (quadrature_zero s rl (fun u => jac u * Rsqr (combination s c u))); auto. intros es' us He' Hu'. apply Rmult_le_pos; [left; eapply J; eauto | apply Rle_0_sqr]. }
    apply Rmult_integral in E. destruct E as [E|E]; [pose proof (J es _ He Hu); unfold qpoint, lists in *; lra | now apply Rsqr_0_uniq]. }
  set (g := fun idx => weight s idx * component c (position (npts_of s) idx)).
  assert (Sum : forall us, in_domain s us -> combination s c us = 0 -> lsum (fun i => basis_product (knots_of s) (degs_of s) us i * g i) (all_indices (npts_of s)) = 0).
  { intros us Hu E. unfold combination, nurbs_basis in E.
    rewrite (lsum_ext _ (fun i => basis_product (knots_of s) (degs_of s) us i * g i * / weight_function s us)) in E by (intros; unfold g, Rdiv; ring).
    rewrite lsum_scal_r in E. apply Rmult_integral in E. destruct E as [E|E]; auto. exfalso. revert E. apply Rinv_neq_0_compat, Hreg, Hu. }
  assert (Hb := Hidx). rewrite N in Hb. destruct (supported_spans _ _ idx G Hfull Hb) as (ks & (us0 & Hne) & Hu).
  assert (g idx = 0).
  { apply (tensor_independent dz (knots_of s) (degs_of s) ks g G (ex_intro _ us0 Hne)); [|exact Hu]. intros us Hus.
    destruct (spans_element _ _ G ks us Hus) as (es & E1 & E2).
    pose proof (proj1 (inside_equiv _ _ G _ _ _ us E2) Hus) as Hst.
    rewrite <- N. rewrite (lsum_ext _ (fun i => dprod (knots_of s) (degs_of s) (slopes_of dz (knots_of s) (degs_of s)) (-1) i us * g i))
      by (intros i _; rewrite dprod_neg; [reflexivity | now apply all_slopes_ok | lia]).
    rewrite N. apply (element_zero dz rl _ _ G Hd (-1)%Z g es E1); [|exact Hst]. intros qs Hqs. rewrite <- N.
    rewrite (lsum_ext _ (fun i => basis_product (knots_of s) (degs_of s) (element_point lists es (grid_point rl qs)) i * g i))
      by (intros i _; rewrite dprod_neg; [reflexivity | now apply all_slopes_ok | lia]).
    apply Sum; [|now apply Z0]. destruct (located_at s es _ Hwf E1 (qpoint_inside s rl es Hwf Hin E1 qs Hqs)) as (ks' & Hl). exact (loc_domain _ _ _ _ Hl). }
  unfold g in H. pose proof (weight_nonzero dz s idx Hwf Hpos Hidx). apply Rmult_integral in H. tauto.
Qed.

(* the stiffness matrix *)
Lemma stiffness_form s rl (jac : list R -> R) (G : list R -> nat -> list Z -> R) (c : list R) : well_formed s -> inner_rule rl ->
  lsum (fun a => lsum (fun b => component c (position (npts_of s) a) *
     quadrature (dlists (knots_of s) (degs_of s)) rl (fun u => jac u * lsum (fun i => G u i a * G u i b) (seq 0 (length (degs_of s)))) *
     component c (position (npts_of s) b)) (all_indices (npts_of s))) (all_indices (npts_of s)) =
  quadrature (dlists (knots_of s) (degs_of s)) rl (fun u => jac u *
     lsum (fun i => Rsqr (lsum (fun a => G u i a * component c (position (npts_of s) a)) (all_indices (npts_of s)))) (seq 0 (length (degs_of s)))).
Proof.
  intros Hwf Hin.
  set (lists := dlists (knots_of s) (degs_of s)) in *. set (n := length (degs_of s)) in *. set (cc := fun a => component c (position (npts_of s) a)).
  set (grad := fun (u : list R) i => lsum (fun a => G u i a * cc a) (all_indices (npts_of s))).
  rewrite (lsum_ext _ (fun a => quadrature lists rl (fun u => jac u * lsum (fun i => G u i a * cc a * grad u i) (seq 0 n)))).
    - rewrite qsum. apply (qext s); auto. intros es us _ _. rewrite lsum_scal. f_equal. rewrite lsum_swap. apply lsum_ext. intros i _.
      rewrite lsum_scal_r. reflexivity.
    - intros a _. rewrite (lsum_ext _ (fun b => quadrature lists rl (fun u => jac u * lsum (fun i => G u i a * cc a * (G u i b * cc b)) (seq 0 n)))).
      + rewrite qsum. apply (qext s); auto. intros es us _ _. rewrite lsum_scal. f_equal. rewrite lsum_swap. apply lsum_ext. intros i _.
        rewrite lsum_scal. reflexivity.
      + intros b _. fold (cc a) (cc b).
        transitivity (quadrature lists rl (fun u => (cc a * cc b) * (jac u * lsum (fun i => G u i a * G u i b) (seq 0 n)))); [rewrite qscal; ring|].
        apply (qext s); auto. intros es us _ _.
        transitivity (jac us * (cc a * cc b * lsum (fun i => G us i a * G us i b) (seq 0 n))); [ring|]. f_equal. rewrite <- lsum_scal. apply lsum_ext. intros; ring.
Qed.
Lemma stiffness_zero s rl (jac : list R -> R) (G : list R -> nat -> list Z -> R) (c : list R) : well_formed s -> unit_weights s ->
  Forall2 full_support (knots_of s) (degs_of s) -> Forall2 linked_direction (knots_of s) (degs_of s) -> dense_rule rl (degs_of s) ->
  (forall es us, in_box (map zlen (dlists (knots_of s) (degs_of s))) es -> strictly_inside (dlists (knots_of s) (degs_of s)) es us -> 0 < jac us) ->
  (forall es us a, in_box (map zlen (dlists (knots_of s) (degs_of s))) es -> strictly_inside (dlists (knots_of s) (degs_of s)) es us -> in_box (npts_of s) a ->
     physical_gradient s us a (fun i => G us i a)) ->
  lsum (fun a => lsum (fun b => component c (position (npts_of s) a) *
     quadrature (dlists (knots_of s) (degs_of s)) rl (fun u => jac u * lsum (fun i => G u i a * G u i b) (seq 0 (length (degs_of s)))) *
     component c (position (npts_of s) b)) (all_indices (npts_of s))) (all_indices (npts_of s)) = 0 ->
  forall a b, in_box (npts_of s) a -> in_box (npts_of s) b -> component c (position (npts_of s) a) = component c (position (npts_of s) b).
Proof.
  intros Hwf Hunit Hfull Hlink Hd J HG Hq. pose proof Hd as (Hin & _ & Hw & _). pose proof Hwf as [Gd _ N _ _ _].
  pose proof (unit_regular s Hwf Hunit) as Hreg.
  set (lists := dlists (knots_of s) (degs_of s)) in *. set (n := length (degs_of s)) in *. set (cc := fun a => component c (position (npts_of s) a)).
  set (grad := fun (u : list R) i => lsum (fun a => G u i a * cc a) (all_indices (npts_of s))).
  rewrite stiffness_form in Hq by auto. rename Hq into EQ.
  (* the gradient vanishes at the points of the rule *)
  assert (G0 : forall es qs i, in_box (map zlen lists) es -> in_box (repeat (Z.of_nat (length rl)) (length lists)) qs -> (i < n)%nat ->
     grad (element_point lists es (grid_point rl qs)) i = 0).
  { intros es qs i He Hqs Hi. pose proof (qpoint_inside s rl es Hwf Hin He qs Hqs) as Hu. set (u := element_point lists es (grid_point rl qs)) in *.
    assert (E : jac u * lsum (fun i => Rsqr (grad u i)) (seq 0 n) = 0).
    { apply (quadrature_zero s rl (fun u => jac u * lsum (fun i => Rsqr (grad u i)) (seq 0 n))); auto.
      intros es' us He' Hu'. apply Rmult_le_pos; [left; eapply J; eauto | apply lsum_nonneg; intros; apply Rle_0_sqr]. }
    apply Rmult_integral in E. destruct E as [E|E]; [pose proof (J es u He Hu); lra|].
    destruct (Req_dec (grad u i) 0) as [C|C]; auto. exfalso.
    assert (0 < lsum (fun i => Rsqr (grad u i)) (seq 0 n)); [|lra]. apply lsum_pos; [intros; apply Rle_0_sqr|].
    exists i. split; [apply in_seq; lia | now apply Rsqr_pos_lt]. }
  (* so do the slopes, everywhere in the element *)
  assert (D0 : forall es us d, in_box (map zlen lists) es -> strictly_inside lists es us -> (d < n)%nat ->
     lsum (fun a => dprod (knots_of s) (degs_of s) (slopes_of dz (knots_of s) (degs_of s)) (Z.of_nat d) a us * cc a) (all_indices (npts_of s)) = 0).
  { intros es us d He Hu Hdn. rewrite N. apply (element_zero dz rl _ _ Gd Hd (Z.of_nat d) cc es He); [|exact Hu]. intros qs Hqs. rewrite <- N.
    pose proof (qpoint_inside s rl es Hwf Hin He qs Hqs) as Hv. fold lists in Hv |- *. unfold qpoint in Hv. set (v := element_point lists es (grid_point rl qs)) in *.
    destruct (located_at s es v Hwf He Hv) as (ks & Hl).
    pose proof (dpart_partials s v Hwf Hreg (spans_domain _ _ Gd _ _ _ _ (loc_spans _ _ _ _ Hl) Hv) (strict_not_knot _ _ Gd _ _ _ _ (loc_spans _ _ _ _ Hl) Hv)) as HP.
    assert (Lv : length v = n) by (rewrite (domain_length s v (loc_domain _ _ _ _ Hl)); unfold n; now rewrite degs_length).
    rewrite (lsum_ext _ (fun a => lsum (fun i => dpart s v (Z.of_nat i) d * (G v i a * cc a)) (seq 0 n))).
    - rewrite lsum_swap. apply lsum_zero. intros i Hi. apply in_seq in Hi. rewrite lsum_scal. fold (grad v i). unfold v. rewrite G0 by (auto; lia). ring.
    - intros a Ha. apply all_indices_box in Ha.
      rewrite (uniqueness_limite _ _ _ _ (basis_deriv dz s es v a d Hwf Hunit He Hv Ha ltac:(lia)) (HG es v a He Hv Ha (dpart s v) d HP ltac:(lia))).
      rewrite Lv, <- lsum_scal_r. apply lsum_ext. intros; ring. }
  (* so the function is constant in the element *)
  assert (C0 : forall es us us', in_box (map zlen lists) es -> strictly_inside lists es us -> strictly_inside lists es us' -> combination s c us = combination s c us').
  { intros es us us' He Hu Hu'. apply (flat_element lists es (combination s c)); auto. intros v d Hv Hdv.
    assert (Hdn : (d < n)%nat).
    { destruct (located_at s es v Hwf He Hv) as (ks & Hl). rewrite (domain_length s v (loc_domain _ _ _ _ Hl)) in Hdv. unfold n. now rewrite degs_length. }
    enough (X : derivable_pt_lim (fun t => combination s c (upd v d t)) (nth d v 0)
      (lsum (fun a => dprod (knots_of s) (degs_of s) (slopes_of dz (knots_of s) (degs_of s)) (Z.of_nat d) a v * cc a) (all_indices (npts_of s))))
      by (rewrite (D0 es v d He Hv Hdn) in X; exact X).
    unfold combination. apply lsum_derivable. intros a Ha. apply all_indices_box in Ha. fold (cc a).
    pose proof (basis_deriv dz s es v a d Hwf Hunit He Hv Ha Hdv) as L.
    apply (derivable_pt_lim_scal _ (cc a)) in L. rewrite Rmult_comm in L.
    apply (derivable_local (mult_real_fct (cc a) (fun t => nurbs_basis s (upd v d t) a)) _ _ _ 1); [lra | | exact L].
    intros t _. unfold mult_real_fct. apply Rmult_comm. }
  (* and its coefficients there are equal *)
  intros a b Ha Hb. rewrite N in Ha, Hb. apply (linked_all _ _ Gd Hfull Hlink cc); auto.
  intros ks x y (us0 & Hne) Hx Hy. destruct (spans_element _ _ Gd ks us0 Hne) as (es & E1 & E2). fold lists in E1, E2.
  pose proof (proj1 (inside_equiv _ _ Gd _ _ _ us0 E2) Hne) as Hst0.
  assert (K : forall z, used_there (degs_of s) ks z -> cc z - combination s c us0 = 0).
  { apply (tensor_independent dz (knots_of s) (degs_of s) ks (fun z => cc z - combination s c us0) Gd (ex_intro _ us0 Hne)). intros us Hus.
    pose proof (proj1 (inside_equiv _ _ Gd _ _ _ us E2) Hus) as Hst. destruct (located_at s es us Hwf E1 Hst) as (ks' & Hl). pose proof (loc_domain _ _ _ _ Hl) as Hdom.
    rewrite <- N. rewrite (lsum_ext _ (fun i => nurbs_basis s us i * cc i - nurbs_basis s us i * combination s c us0)).
    - rewrite lsum_minus, lsum_scal_r. rewrite basis_unity by auto. change (lsum (fun i => nurbs_basis s us i * cc i) (all_indices (npts_of s))) with (combination s c us). rewrite (C0 es us us0) by auto. ring.
    - intros i Hi. apply all_indices_box in Hi. rewrite (unit_basis dz s us i) by auto. ring. }
  pose proof (K x Hx). pose proof (K y Hy). lra.
Qed.
End Dz.
