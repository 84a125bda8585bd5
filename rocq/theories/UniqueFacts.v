(* The control points are determined by the map: linear independence of the basis functions. *)
From Coq Require Import ZArith List Bool Lia Reals Lra.
From Verif Require Import Base BaseFacts RSum MultiIndex MultiIndexSpec MultiIndexFacts TensorSum
  KnotVec KnotVecSpec KnotVecFacts Basis BasisSpec BSplineTheory BasisFacts BasisThms
  Spaces SpacesSpec SpacesFacts SplineEval SplineSpec UniqueSpec EvalFacts RationalDeriv EvalDeriv EvalThms.
Import ListNotations.
Open Scope Z_scope.

(* ---- on one span ---- *)
Lemma derivable_zero f a b u l : (a < u < b)%R -> (forall v, (a < v < b)%R -> f v = 0%R) -> derivable_pt_lim f u l -> l = 0%R.
Proof.
  intros Hu Hf Hd. eapply uniqueness_limite; [exact Hd|].
  apply (derivable_local (fun _ => 0%R) f u 0 (Rmin (u - a) (b - u))); [apply Rmin_pos; lra | | apply derivable_pt_lim_const].
  intros v Hv. symmetry. apply Hf.
  assert (A : (Rabs (v - u) < u - a)%R) by (eapply Rlt_le_trans; [exact Hv | apply Rmin_l]).
  assert (A2 : (Rabs (v - u) < b - u)%R) by (eapply Rlt_le_trans; [exact Hv | apply Rmin_r]).
  apply Rabs_def2 in A. apply Rabs_def2 in A2. lra.
Qed.

(* it is enough that the sum vanishes on a part (a, b) of the span *)
Lemma pieces_independent_on t k a b : monotone t -> (t k < t (k + 1)%Z)%R -> (a < b)%R -> forall p c,
  (forall u, (a < u < b)%R -> lsum (fun i => c i * B t k p i u)%R (zseq (k - Z.of_nat p) (S p)) = 0%R) ->
  forall i, k - Z.of_nat p <= i <= k -> c i = 0%R.
Proof.
  intros Ht Hk Hab. set (mid := ((a + b) / 2)%R). assert (Hmid : (a < mid < b)%R) by (unfold mid; lra).
  induction p as [|q IH]; intros c H i Hi.
  - specialize (H mid Hmid). replace (Z.of_nat 0) with 0 in * by lia. assert (i = k) by lia. subst i.
    cbn [zseq lsum B] in H. replace (k - 0) with k in H by lia. destruct (Z.eq_dec k k); [lra | contradiction].
  - set (lo := k - Z.of_nat (S q)) in *.
    set (d := fun j => (INR (S q) * (c j - c (j - 1)%Z) / (t (j + Z.of_nat (S q))%Z - t j))%R).
    (* the derivative of the sum vanishes too *)
    assert (D : forall u, (a < u < b)%R -> lsum (fun j => d j * B t k q j u)%R (zseq (k - Z.of_nat q) (S q)) = 0%R).
    { intros u Hu.
      assert (L0 : lsum (fun j => c j * DB t k 1 (S q) j u)%R (zseq lo (S (S q))) = 0%R).
      { apply (derivable_zero (fun v => lsum (fun j => c j * B t k (S q) j v)%R (zseq lo (S (S q)))) a b u); auto.
        apply lsum_derivable. intros j _.
        replace (c j * DB t k 1 (S q) j u)%R with (0 * B t k (S q) j u + c j * DB t k 1 (S q) j u)%R by ring.
        apply (derivable_pt_lim_mult (fun _ => c j) (B t k (S q) j) u 0); [apply derivable_pt_lim_const | now apply B_derivable]. }
      set (bf := fun j => (INR (S q) * (B t k q j u / (t (j + Z.of_nat (S q))%Z - t j)))%R).
      assert (Bout : forall j, ~ (j <= k <= j + Z.of_nat q) -> bf j = 0%R).
      { intros j Hj. unfold bf. rewrite B_outside by auto. unfold Rdiv. ring. }
      assert (E1 : lsum (fun j => c j * DB t k 1 (S q) j u)%R (zseq lo (S (S q))) =
                   (lsum (fun j => c j * bf j) (zseq lo (S (S q))) - lsum (fun j => c j * bf (j + 1)%Z) (zseq lo (S (S q))))%R).
      { rewrite <- lsum_minus. apply lsum_ext. intros j _. rewrite DB_1 by auto. unfold bf. ring. }
      rewrite E1 in L0. clear E1.
      assert (E2 : lsum (fun j => c j * bf j)%R (zseq lo (S (S q))) = lsum (fun j => c j * bf j)%R (zseq (k - Z.of_nat q) (S q))).
      { apply lsum_zseq_extend; try (unfold lo; lia). intros j _ Hj. rewrite Bout by lia. ring. }
      assert (E3 : lsum (fun j => c j * bf (j + 1)%Z)%R (zseq lo (S (S q))) = lsum (fun j => c (j - 1)%Z * bf j)%R (zseq (k - Z.of_nat q) (S q))).
      { rewrite (lsum_ext _ (fun j => (fun j => c (j - 1)%Z * bf j)%R (j + 1)%Z)) by (intros j _; cbn beta; repeat f_equal; lia).
        rewrite <- (lsum_zseq_shift (fun j => c (j - 1)%Z * bf j)%R lo (S (S q)) 1).
        apply lsum_zseq_extend; try (unfold lo; lia). intros j _ Hj. rewrite Bout by lia. ring. }
      rewrite E2, E3, <- lsum_minus in L0. rewrite <- L0. apply lsum_ext. intros j _. unfold d, bf, Rdiv. ring. }
    pose proof (IH d D) as Z0.
    assert (Step : forall j, lo < j <= k -> c j = c (j - 1)%Z).
    { intros j Hj. pose proof (Z0 j ltac:(unfold lo in *; lia)) as E. unfold d in E.
      pose proof (active_den t Ht k Hk j (Z.of_nat (S q)) ltac:(lia) ltac:(unfold lo in *; lia)) as Hd.
      assert (N : (INR (S q) <> 0)%R) by (apply not_0_INR; lia).
      assert (I : (/ (t (j + Z.of_nat (S q))%Z - t j) <> 0)%R) by (apply Rinv_neq_0_compat; lra).
      unfold Rdiv in E. apply Rmult_integral in E. destruct E as [E|E]; [|contradiction]. apply Rmult_integral in E. destruct E as [E|E]; [contradiction | lra]. }
    assert (Same : forall n : nat, lo + Z.of_nat n <= k -> c (lo + Z.of_nat n) = c lo).
    { induction n as [|n IHn]; intros Hn; [f_equal; lia|]. rewrite Step by lia. rewrite <- IHn by lia. f_equal. lia. }
    assert (All : forall j, lo <= j <= k -> c j = c lo).
    { intros j Hj. rewrite <- (Same (Z.to_nat (j - lo))) by lia. f_equal. lia. }
    rewrite All by (unfold lo in *; lia). specialize (H mid Hmid).
    rewrite (lsum_ext _ (fun j => c lo * B t k (S q) j mid)%R) in H.
    2:{ intros j Hj. apply zseq_In in Hj. rewrite All by (unfold lo in *; lia). reflexivity. }
    rewrite lsum_scal in H. rewrite B_sum in H by (auto; unfold lo; lia). lra.
Qed.

Lemma pieces_independent t k : monotone t -> (t k < t (k + 1)%Z)%R -> forall p c,
  (forall u, (t k < u < t (k + 1)%Z)%R -> lsum (fun i => c i * B t k p i u)%R (zseq (k - Z.of_nat p) (S p)) = 0%R) ->
  forall i, k - Z.of_nat p <= i <= k -> c i = 0%R.
Proof. intros Ht Hk. exact (pieces_independent_on t k _ _ Ht Hk Hk). Qed.

(* ---- one direction ---- *)
Section Dz.
Variable dz : R -> R.
Local Notation F := (Rops dz).
Implicit Types s : spline F.

Lemma inside_in_span kv k u : inside_span kv k u -> in_span kv k u.
Proof.
  intros (H1 & H2 & H3). rewrite <- (tk_knot' kv k), <- (tk_knot kv (Z.to_nat k + 1)) in H3 by (unfold zlen in *; lia).
  replace (Z.of_nat (Z.to_nat k + 1)) with (k + 1) in H3 by lia.
  unfold in_span. repeat (split; [first [lia | lra]|]). left; lra.
Qed.

Lemma inside_domain kv k u : nondecreasing kv -> inside_span kv k u -> (first_knot kv <= u <= final_knot kv)%R.
Proof.
  intros Hn H. apply inside_in_span in H. destruct H as (A1 & A2 & A3 & A4 & A5).
  pose proof (tk_ge_first kv k Hn). pose proof (tk_le_final kv (k + 1) Hn). destruct A5 as [A5|[A5 A6]]; lra.
Qed.

Lemma span_range kv p k u : good_direction kv p -> in_span kv k u -> (first_knot kv <= u <= final_knot kv)%R -> p <= k < zlen kv - p - 1.
Proof.
  intros Hg Hs Hu. destruct (eval_direction dz kv p u Hg Hu) as (k' & _ & Hs' & H1 & H2).
  pose proof Hg as (_ & _ & Hn & _). rewrite (in_span_unique kv k k' u Hn Hs Hs'). lia.
Qed.

Lemma direction_independent kv p k (c : Z -> R) : good_direction kv p -> 0 <= k -> k + 1 < zlen kv -> (tk kv k < tk kv (k + 1)%Z)%R ->
  (forall u, inside_span kv k u ->
     lsum (fun i => cox_de_boor kv (Z.to_nat p) (Z.to_nat i) u * c i)%R (zseq 0 (Z.to_nat (zlen kv - p - 1))) = 0%R) ->
  forall i, k - p <= i <= k -> c i = 0%R.
Proof.
  intros Hg K0 K1 Hk2 H i Hi. pose proof Hg as (Hp & Hc & Hn & Hs & Hlt).
  assert (Hin : forall u, (tk kv k < u < tk kv (k + 1)%Z)%R -> inside_span kv k u).
  { intros u Hu. split; [exact K0|]. split; [exact K1|]. rewrite (tk_knot' kv k), (tk_knot' kv (k + 1)) in Hu by lia.
    replace (Z.to_nat k + 1)%nat with (Z.to_nat (k + 1)) by lia. exact Hu. }
  pose proof (Hin ((tk kv k + tk kv (k + 1)%Z) / 2)%R ltac:(lra)) as Hmid.
  pose proof (span_range kv p k _ Hg (inside_in_span _ _ _ Hmid) (inside_domain _ _ _ Hn Hmid)) as Hr.
  apply (pieces_independent (tk kv) k (tk_monotone kv Hn) Hk2 (Z.to_nat p)); [|lia].
  intros u Hu. rewrite <- (H u) by auto. pose proof (inside_in_span _ _ _ (Hin u Hu)) as Hsp.
  rewrite <- (lsum_zseq_extend (fun i => c i * B (tk kv) k (Z.to_nat p) i u)%R (k - Z.of_nat (Z.to_nat p)) (S (Z.to_nat p)) 0 (Z.to_nat (zlen kv - p - 1))); try lia.
  - apply lsum_ext. intros j Hj. apply zseq_In in Hj. rewrite (cox_piece kv k) by (auto; lia). ring.
  - intros j _ Hj. rewrite B_outside by lia. ring.
Qed.

Lemma cox_off kv p i u : good_direction kv p -> 0 <= i < zlen kv - p - 1 -> (first_knot kv <= u <= final_knot kv)%R ->
  (u < knot kv (Z.to_nat i))%R \/ (knot kv (Z.to_nat (i + p + 1)) < u)%R \/ knot kv (Z.to_nat i) = knot kv (Z.to_nat (i + p + 1)) ->
  cox_de_boor kv (Z.to_nat p) (Z.to_nat i) u = 0%R.
Proof.
  intros Hg Hi Hu Ho. destruct (eval_direction dz kv p u Hg Hu) as (k & _ & Hs & _). pose proof Hg as (Hp & _ & Hn & _).
  rewrite (cox_piece kv k) by (auto; lia). apply B_outside. intros Hk. rewrite Z2Nat.id in Hk by lia.
  destruct Hs as (A1 & A2 & A3 & A4 & A5). rewrite <- !tk_knot' in Ho by lia.
  pose proof (tk_monotone kv Hn i k ltac:(lia)). pose proof (tk_monotone kv Hn (k + 1) (i + p + 1) ltac:(lia)).
  destruct A5 as [A5|[A5 A6]]; destruct Ho as [Ho|[Ho|Ho]]; lra.
Qed.

(* ---- all directions ---- *)
Lemma inside_in_domain knots degs ks us : Forall2 good_direction knots degs -> inside_spans knots ks us ->
  Forall2 (fun kv u => (first_knot kv <= u <= final_knot kv)%R) knots us.
Proof.
  intros H. revert ks us. induction H as [|kv p knots degs Hg H IH]; intros [|k ks] [|u us] Hi; cbn [inside_spans] in Hi; try contradiction; constructor.
  - apply (inside_domain kv k); [apply Hg | apply Hi].
  - apply (IH ks). apply Hi.
Qed.

Lemma tensor_independent knots degs ks (g : list Z -> R) : Forall2 good_direction knots degs ->
  (exists us, inside_spans knots ks us) ->
  (forall us, inside_spans knots ks us ->
     lsum (fun idx => basis_product knots degs us idx * g idx)%R (all_indices (map2 (fun kv p => zlen kv - p - 1) knots degs)) = 0%R) ->
  forall idx, used_there degs ks idx -> g idx = 0%R.
Proof.
  intros H. revert g ks. induction H as [|kv p knots degs Hg H IH]; intros g ks (us0 & Hne) Hz idx Hi.
  - destruct ks, us0; cbn [inside_spans] in Hne; try contradiction. destruct idx; cbn [used_there] in Hi; try contradiction.
    specialize (Hz [] I). cbn [map2 all_indices lsum basis_product] in Hz. lra.
  - destruct ks as [|k ks], us0 as [|u0 us0]; cbn [inside_spans] in Hne; try contradiction. destruct Hne as [N1 N2].
    destruct idx as [|i idx]; cbn [used_there] in Hi; try contradiction. destruct Hi as [I1 I2].
    apply (IH (fun r => g (i :: r)) ks); [eauto | | exact I2]. intros us Hu.
    pose proof (inside_in_span _ _ _ N1) as (A1 & A2 & A3 & _).
    apply (direction_independent kv p k (fun i => lsum (fun r => basis_product knots degs us r * g (i :: r))%R
       (all_indices (map2 (fun kv p => zlen kv - p - 1) knots degs))) Hg A1 A2 A3); [|exact I1].
    intros u Hu0. rewrite <- (Hz (u :: us)) by (split; assumption). cbn [map2 all_indices].
    rewrite lsum_flat_map. apply lsum_ext. intros j _. rewrite lsum_map, <- lsum_scal. apply lsum_ext. intros r _.
    cbn [basis_product]. ring.
Qed.

Lemma nonempty_span kv i j : nondecreasing kv -> 0 <= i -> j < zlen kv -> (tk kv i < tk kv j)%R -> exists k, i <= k < j /\ (tk kv k < tk kv (k + 1)%Z)%R.
Proof.
  intros Hn H0 Hj. assert (Hi : i <= j -> j < zlen kv -> (tk kv i < tk kv j)%R -> exists k, i <= k < j /\ (tk kv k < tk kv (k + 1)%Z)%R).
  { clear Hj. intros Hij. replace j with (i + Z.of_nat (Z.to_nat (j - i))) by lia. generalize (Z.to_nat (j - i)). clear j Hij.
    induction n as [|n IH]; intros Hj Hlt; [replace (i + Z.of_nat 0) with i in Hlt by lia; lra|].
    destruct (Rlt_dec (tk kv (i + Z.of_nat n)) (tk kv (i + Z.of_nat n + 1)%Z)) as [C|C]; [exists (i + Z.of_nat n); split; [lia | exact C]|].
    replace (i + Z.of_nat (S n)) with (i + Z.of_nat n + 1) in * by lia.
    destruct IH as (k & Hk & Hk2); [lia | lra|]. exists k. split; [lia | exact Hk2]. }
  intros Hlt. apply Hi; auto. destruct (Z_le_dec i j) as [C|C]; auto. pose proof (tk_monotone kv Hn j i ltac:(lia)). lra.
Qed.

Lemma supported_spans knots degs idx : Forall2 good_direction knots degs -> Forall2 full_support knots degs ->
  in_box (map2 (fun kv p => zlen kv - p - 1) knots degs) idx ->
  exists ks, (exists us, inside_spans knots ks us) /\ used_there degs ks idx.
Proof.
  intros H. revert idx. induction H as [|kv p knots degs Hg H IH]; intros idx Hf Hb.
  - inversion Hb; subst. exists []. split; [exists []; exact I | exact I].
  - inversion Hf as [|? ? ? ? F1 F2]; subst. cbn [map2] in Hb. inversion Hb as [|? i ? idx' B1 B2]; subst.
    destruct (IH idx' F2 B2) as (ks & (us & Hu) & Ha). pose proof Hg as (Hp & Hc & Hn & Hs & Hlt).
    pose proof (F1 (Z.to_nat i) ltac:(lia)) as Hlt2.
    rewrite <- (tk_knot' kv i), <- (tk_knot kv (Z.to_nat i + Z.to_nat p + 1)) in Hlt2 by (unfold zlen in *; lia).
    replace (Z.of_nat (Z.to_nat i + Z.to_nat p + 1)) with (i + p + 1) in Hlt2 by lia.
    destruct (nonempty_span kv i (i + p + 1) Hn ltac:(lia) ltac:(lia) Hlt2) as (k & Hk & Hk2).
    exists (k :: ks). split; [|split; [lia | exact Ha]]. exists (((tk kv k + tk kv (k + 1)%Z) / 2)%R :: us). split; [|exact Hu].
    split; [lia|]. split; [lia|]. rewrite (tk_knot' kv k), (tk_knot' kv (k + 1)) in * by lia.
    replace (Z.to_nat k + 1)%nat with (Z.to_nat (k + 1)) by lia. lra.
Qed.

(* ---- splines ---- *)
Lemma weights_nonzero s us : well_formed s -> is_bspline s \/ positive_weights s -> in_domain s us -> weight_function s us <> 0%R.
Proof.
  intros Hwf [Hb|Hb] Hu; destruct (weight_function_facts dz s us Hwf Hu) as [W1 W2].
  - rewrite W1 by auto. lra.
  - specialize (W2 Hb). lra.
Qed.

Lemma weight_nonzero s idx : well_formed s -> is_bspline s \/ positive_weights s -> in_box (npts_of s) idx -> weight s idx <> 0%R.
Proof.
  intros Hwf [Hb|Hb] Hi; [unfold weight; rewrite Hb; lra|]. pose proof (weight_positive dz s idx Hwf Hb Hi). lra.
Qed.

Lemma same_shape s s' : well_formed s -> well_formed s' -> sp_ps s' = sp_ps s -> npts_of s' = npts_of s.
Proof.
  intros [_ _ H3 _ _ _] [_ _ H3' _ _ _] E. rewrite H3, H3'. unfold knots_of, degs_of. now rewrite E.
Qed.

Lemma same_weight s s' idx : npts_of s' = npts_of s -> ph_wts (sp_ph s') = ph_wts (sp_ph s) -> weight s' idx = weight s idx.
Proof. intros E1 E2. unfold weight. now rewrite E1, E2. Qed.

Lemma used_in_box knots degs ks idx : Forall2 good_direction knots degs -> (exists us, inside_spans knots ks us) -> used_there degs ks idx ->
  in_box (map2 (fun kv p => zlen kv - p - 1) knots degs) idx.
Proof.
  intros H. revert ks idx. induction H as [|kv p knots degs Hg H IH]; intros [|k ks] [|i idx] ([|u us] & Hu) Hi;
    cbn [inside_spans used_there] in *; try contradiction; [constructor|].
  cbn [map2]. constructor.
  - pose proof Hg as (_ & _ & Hn & _).
    pose proof (span_range kv p k _ Hg (inside_in_span _ _ _ (proj1 Hu)) (inside_domain _ _ _ Hn (proj1 Hu))). lia.
  - apply (IH ks); [exists us; apply Hu | apply Hi].
Qed.

Lemma local_points : forall s s' ks c, well_formed s -> well_formed s' -> sp_ps s' = sp_ps s ->
  ph_dim (sp_ph s') = ph_dim (sp_ph s) -> ph_wts (sp_ph s') = ph_wts (sp_ph s) -> is_bspline s \/ positive_weights s ->
  0 <= c < ph_dim (sp_ph s) -> (exists us, inside_spans (knots_of s) ks us) ->
  (forall us, inside_spans (knots_of s) ks us -> evaluate s' us [c] = evaluate s us [c]) ->
  forall idx, used_there (degs_of s) ks idx -> coordinate s' idx c = coordinate s idx c.
Proof.
  intros s s' ks c Hwf Hwf' Eps Edim Ew Hw Hc Hne He idx Hi.
  pose proof (same_shape s s' Hwf Hwf' Eps) as En. pose proof Hwf as [Hd _ Hnp _ _ _].
  assert (Ek : knots_of s' = knots_of s) by (unfold knots_of; now rewrite Eps).
  assert (Eg : degs_of s' = degs_of s) by (unfold degs_of; now rewrite Eps).
  assert (Hw' : is_bspline s' \/ positive_weights s') by (unfold is_bspline, positive_weights; rewrite Ew; exact Hw).
  pose proof (used_in_box _ _ ks idx Hd Hne Hi) as Hb. rewrite <- Hnp in Hb.
  assert (Z0 : (weight s idx * (coordinate s' idx c - coordinate s idx c))%R = 0%R).
  { apply (tensor_independent (knots_of s) (degs_of s) ks (fun idx => weight s idx * (coordinate s' idx c - coordinate s idx c))%R Hd Hne); [|exact Hi].
    intros us Hu. pose proof (inside_in_domain _ _ _ _ Hd Hu) as Hdom. specialize (He us Hu).
    assert (Hdom' : in_domain s' us) by (unfold in_domain; rewrite Ek; exact Hdom).
    rewrite (eval_quotient dz s us [c]), (eval_quotient dz s' us [c]) in He; auto using weights_nonzero;
      try (constructor; [rewrite ?Edim; lia | constructor]).
    cbn [map] in He. inversion He as [He1].
    assert (EW : weight_function s' us = weight_function s us).
    { unfold weight_function. rewrite Ek, Eg, En. apply lsum_ext. intros j _. now rewrite (same_weight s s'). }
    rewrite EW in He1. pose proof (weights_nonzero s us Hwf Hw Hdom) as Hnz.
    assert (ES : weighted_sum s' us c = weighted_sum s us c).
    { apply (f_equal (fun x => x * weight_function s us)%R) in He1. unfold Rdiv in He1. rewrite !Rmult_assoc, Rinv_l in He1 by auto. lra. }
    rewrite <- Hnp. unfold weighted_sum in ES. rewrite Ek, Eg, En in ES.
    rewrite (lsum_ext _ (fun j => (basis_product (knots_of s) (degs_of s) us j * (weight s' j * coordinate s' j c) -
       basis_product (knots_of s) (degs_of s) us j * (weight s j * coordinate s j c)))%R).
    2:{ intros j _. rewrite (same_weight s s') by auto. ring. }
    rewrite lsum_minus, ES. lra. }
  pose proof (weight_nonzero s idx Hwf Hw Hb). apply Rmult_integral in Z0. destruct Z0 as [Z0|Z0]; [contradiction | lra].
Qed.

Lemma all_points : forall s s', well_formed s -> well_formed s' -> sp_ps s' = sp_ps s ->
  ph_dim (sp_ph s') = ph_dim (sp_ph s) -> ph_wts (sp_ph s') = ph_wts (sp_ph s) -> is_bspline s \/ positive_weights s ->
  Forall2 full_support (knots_of s) (degs_of s) ->
  (forall us c, in_domain s us -> 0 <= c < ph_dim (sp_ph s) -> evaluate s' us [c] = evaluate s us [c]) ->
  ph_cps (sp_ph s') = ph_cps (sp_ph s).
Proof.
  intros s s' Hwf Hwf' Eps Edim Ew Hw Hf He. pose proof Hwf as [Hd _ Hnp Hdim Hl _]. pose proof Hwf' as [_ _ _ _ Hl' _].
  pose proof (same_shape s s' Hwf Hwf' Eps) as En. rewrite Edim, En in Hl'. rnorm.
  apply (nth_ext (A := R)) with (d := 0%R) (d' := 0%R); [unfold zlen in *; rnorm; lia|].
  intros n Hn. assert (Hn' : 0 <= Z.of_nat n < ph_dim (sp_ph s) * total (npts_of s)) by (unfold zlen in *; rnorm; lia).
  set (D := ph_dim (sp_ph s)) in *. set (q := Z.of_nat n / D). set (c := Z.of_nat n mod D).
  assert (Eq : Z.of_nat n = D * q + c) by (apply Z.div_mod; lia).
  assert (Hc : 0 <= c < D) by (apply Z.mod_pos_bound; lia).
  assert (Hq : 0 <= q < total (npts_of s)) by (split; [apply Z.div_pos; lia | apply Z.div_lt_upper_bound; lia]).
  assert (Hpos : pos_lens (npts_of s)).
  { rewrite Hnp. clear - Hd. unfold pos_lens. induction Hd as [|kv p l1 l2 (A & (B & _) & _) _ IH]; constructor; auto. unfold zlen. lia. }
  destruct (get1d_surj (npts_of s) q Hpos Hq) as (idx & Hb & Ei).
  assert (Hb2 := Hb). rewrite Hnp in Hb2. destruct (supported_spans _ _ idx Hd Hf Hb2) as (ks & Hne & Hu).
  assert (E := local_points s s' ks c Hwf Hwf' Eps Edim Ew Hw Hc Hne
    (fun us Hus => He us c (inside_in_domain _ _ _ _ Hd Hus) Hc) idx Hu).
  unfold coordinate in E. rewrite En, Edim, position_get1d, Ei in E. fold D in E. rewrite <- Eq, Nat2Z.id in E. exact E.
Qed.

(* ---- moving one control point ---- *)
Lemma moved_point : forall s s' us c idx, well_formed s -> well_formed s' -> sp_ps s' = sp_ps s ->
  ph_dim (sp_ph s') = ph_dim (sp_ph s) -> ph_wts (sp_ph s') = ph_wts (sp_ph s) -> is_bspline s \/ positive_weights s ->
  in_domain s us -> 0 <= c < ph_dim (sp_ph s) -> in_box (npts_of s) idx ->
  (forall j, in_box (npts_of s) j -> j <> idx -> coordinate s' j c = coordinate s j c) ->
  exists v v' : R, evaluate s us [c] = Ok [v] /\ evaluate s' us [c] = Ok [v'] /\
    (v' = v + basis_product (knots_of s) (degs_of s) us idx * weight s idx / weight_function s us * (coordinate s' idx c - coordinate s idx c))%R.
Proof.
  intros s s' us c idx Hwf Hwf' Eps Edim Ew Hw Hdom Hc Hb Hoff.
  pose proof (same_shape s s' Hwf Hwf' Eps) as En.
  assert (Ek : knots_of s' = knots_of s) by (unfold knots_of; now rewrite Eps).
  assert (Eg : degs_of s' = degs_of s) by (unfold degs_of; now rewrite Eps).
  assert (Hw' : is_bspline s' \/ positive_weights s') by (unfold is_bspline, positive_weights; rewrite Ew; exact Hw).
  assert (Hdom' : in_domain s' us) by (unfold in_domain; rewrite Ek; exact Hdom).
  assert (EW : weight_function s' us = weight_function s us).
  { unfold weight_function. rewrite Ek, Eg, En. apply lsum_ext. intros j _. now rewrite (same_weight s s'). }
  pose proof (weights_nonzero s us Hwf Hw Hdom) as Hnz.
  exists (weighted_sum s us c / weight_function s us)%R, (weighted_sum s' us c / weight_function s us)%R.
  split; [rewrite eval_quotient; auto; constructor; [lia | constructor]|].
  split; [rewrite eval_quotient, EW; auto; [constructor; [rewrite Edim; lia | constructor] | rewrite EW; auto]|].
  assert (E : (weighted_sum s' us c - weighted_sum s us c)%R =
     (basis_product (knots_of s) (degs_of s) us idx * (weight s idx * (coordinate s' idx c - coordinate s idx c)))%R).
  { unfold weighted_sum. rewrite Ek, Eg, En, <- lsum_minus.
    rewrite (lsum_ext _ (fun j => basis_product (knots_of s) (degs_of s) us j * (weight s j * (coordinate s' j c - coordinate s j c)))%R).
    2:{ intros j _. rewrite (same_weight s s') by auto. ring. }
    rewrite (lsum_single _ _ idx); [reflexivity | | |].
    - rewrite all_indices_boxl. apply boxl_NoDup. apply Forall_forall. intros l Hl0. apply in_map_iff in Hl0 as (n & <- & _). apply zseq_NoDup.
    - apply all_indices_box. exact Hb.
    - intros j Hj Hne. apply all_indices_box in Hj. rewrite Hoff by auto. ring. }
  replace (weighted_sum s' us c) with (weighted_sum s us c + (weighted_sum s' us c - weighted_sum s us c))%R by ring.
  rewrite E. field. exact Hnz.
Qed.

Lemma product_off knots degs us idx : Forall2 good_direction knots degs ->
  Forall2 (fun kv u => (first_knot kv <= u <= final_knot kv)%R) knots us ->
  in_box (map2 (fun kv p => zlen kv - p - 1) knots degs) idx -> off_support knots degs us idx ->
  basis_product knots degs us idx = 0%R.
Proof.
  intros H. revert us idx. induction H as [|kv p knots degs Hg H IH]; intros us idx Hu Hb Ho; [destruct Ho|].
  inversion Hu as [|? u ? us' U1 U2]; subst. cbn [map2] in Hb. inversion Hb as [|? i ? idx' B1 B2]; subst.
  cbn [basis_product off_support] in *. destruct Ho as [Ho|[Ho|[Ho|Ho]]].
  - rewrite cox_off by auto. ring.
  - rewrite cox_off by auto. ring.
  - rewrite cox_off by auto. ring.
  - rewrite IH by auto. ring.
Qed.

Lemma far_point : forall s s' us c idx, well_formed s -> well_formed s' -> sp_ps s' = sp_ps s ->
  ph_dim (sp_ph s') = ph_dim (sp_ph s) -> ph_wts (sp_ph s') = ph_wts (sp_ph s) -> is_bspline s \/ positive_weights s ->
  in_domain s us -> 0 <= c < ph_dim (sp_ph s) -> in_box (npts_of s) idx ->
  (forall j, in_box (npts_of s) j -> j <> idx -> coordinate s' j c = coordinate s j c) ->
  off_support (knots_of s) (degs_of s) us idx ->
  evaluate s' us [c] = evaluate s us [c].
Proof.
  intros s s' us c idx Hwf Hwf' Eps Edim Ew Hw Hdom Hc Hb Hoff Ho.
  destruct (moved_point s s' us c idx Hwf Hwf' Eps Edim Ew Hw Hdom Hc Hb Hoff) as (v & v' & E1 & E2 & E3).
  pose proof Hwf as [Hd _ Hnp _ _ _]. rewrite product_off in E3; auto; [|rewrite <- Hnp; exact Hb].
  assert (E : v' = v) by (rewrite E3; unfold Rdiv; ring). rewrite E1, E2, E. reflexivity.
Qed.
End Dz.
