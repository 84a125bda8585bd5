(* Linear precision of B-splines. *)
From Coq Require Import ZArith List Bool Lia Reals Lra.
From Verif Require Import Base BaseFacts RSum MultiIndex MultiIndexSpec MultiIndexFacts TensorSum
  KnotVec KnotVecSpec KnotVecFacts Basis BasisSpec BSplineTheory BasisFacts
  Spaces SpacesSpec SpacesFacts SplineEval SplineSpec EvalFacts EvalThms GrevilleSpec.
Import ListNotations.
Open Scope Z_scope.

Definition ksum (t : Z -> R) (p : nat) (i : Z) : R := lsum (fun j => t (i + j)%Z) (zseq 1 p).

Lemma ksum_last t p i : ksum t (S p) i = (ksum t p i + t (i + Z.of_nat p + 1)%Z)%R.
Proof. unfold ksum. rewrite lsum_zseq_S. do 2 f_equal. lia. Qed.
Lemma ksum_first t p i : ksum t (S p) (i - 1) = (t i + ksum t p i)%R.
Proof.
  unfold ksum. cbn [zseq lsum]. replace (i - 1 + 1) with i by lia. f_equal.
  rewrite (lsum_zseq_shift (fun j => t (i - 1 + j)%Z) 1 p 1). apply lsum_ext. intros j _. f_equal. lia.
Qed.

Lemma B_linear (t : Z -> R) k : monotone t -> (t k < t (k + 1)%Z)%R ->
  forall p u lo n, (lo <= k - Z.of_nat p)%Z -> (k < lo + Z.of_nat n)%Z ->
  lsum (fun i => ksum t p i * B t k p i u)%R (zseq lo n) = (INR p * u)%R.
Proof.
  intros Hm Hk. induction p as [|p IH]; intros u lo n H1 H2.
  - rewrite lsum_zero; [cbn [INR]; ring|]. intros i _. unfold ksum. cbn [zseq lsum]. ring.
  - rewrite (lsum_ext _ (fun i => ksum t (S p) i * (w t i (S p) u * B t k p i u)
        + ksum t (S p) ((i + 1) - 1)%Z * ((1 - w t (i + 1)%Z (S p) u) * B t k p (i + 1)%Z u))%R).
    2:{ intros i _. rewrite (B_S t Hm k Hk p i u). replace (i + 1 - 1) with i by lia. ring. }
    rewrite lsum_plus.
    rewrite <- (lsum_zseq_shift (fun i => ksum t (S p) (i - 1)%Z * ((1 - w t i (S p) u) * B t k p i u))%R lo n 1).
    rewrite (lsum_zseq_extend _ (k - Z.of_nat p) (S p) lo n); try lia.
    2:{ intros i Hi Hn. rewrite B_outside by lia. ring. }
    rewrite (lsum_zseq_extend (fun i => ksum t (S p) (i - 1)%Z * ((1 - w t i (S p) u) * B t k p i u))%R (k - Z.of_nat p) (S p)); try lia.
    2:{ intros i Hi Hn. rewrite B_outside by lia. ring. }
    rewrite <- lsum_plus.
    transitivity (lsum (fun i => ksum t p i * B t k p i u + u * B t k p i u)%R (zseq (k - Z.of_nat p) (S p))).
    + apply lsum_ext. intros i Hi. apply zseq_In in Hi. rewrite ksum_first, ksum_last.
      pose proof (active_den t Hm k Hk i (Z.of_nat p + 1) ltac:(lia) ltac:(lia)) as Hd.
      unfold w. replace (i + Z.of_nat (S p)) with (i + (Z.of_nat p + 1)) by lia. replace (i + Z.of_nat p + 1) with (i + (Z.of_nat p + 1)) by lia.
      field. lra.
    + rewrite lsum_plus, lsum_scal, IH, (B_sum t Hm k Hk) by lia. rewrite S_INR. ring.
Qed.

Lemma greville_ksum kv p i : 1 <= p -> 0 <= i -> i + p < zlen kv -> greville kv p i = (ksum (tk kv) (Z.to_nat p) i / INR (Z.to_nat p))%R.
Proof.
  intros Hp Hi Hl. unfold greville, ksum. rewrite INR_IZR_INZ, Z2Nat.id by lia. f_equal. apply lsum_ext. intros j Hj. apply zseq_In in Hj.
  rewrite tk_knot' by lia. reflexivity.
Qed.

Section Precision.
Context {dz : R -> R}.
Notation F := (Rops dz).
Implicit Types s : spline F.

Lemma dfactor_linear x : good_dir dz x -> dm x = 0 -> 1 <= dp x ->
  lsum (fun i => dfactor x i * greville (dk x) (dp x) i)%R (drange x) = du x.
Proof.
  intros ((Hp & Hc & Hn & _) & (A1 & A2 & A3 & A4 & A5) & Hk & _) H0 H1.
  assert (Hlt : (tk (dk x) (dsp x) < tk (dk x) (dsp x + 1))%R) by (destruct A5 as [A5|[A5 _]]; lra).
  assert (Hi0 : INR (Z.to_nat (dp x)) <> 0%R) by (apply not_0_INR; lia).
  rewrite (lsum_ext _ (fun i => / INR (Z.to_nat (dp x)) * (ksum (tk (dk x)) (Z.to_nat (dp x)) i * B (tk (dk x)) (dsp x) (Z.to_nat (dp x)) i (du x)))%R).
  - rewrite lsum_scal. unfold drange, dlen. rewrite B_linear; auto; [field; auto | now apply tk_monotone | lia | lia].
  - intros i Hi. unfold drange, dlen in Hi. apply zseq_In in Hi. rewrite dfactor_0 by auto. rewrite greville_ksum by lia. field. auto.
Qed.

Lemma tsum_affine L bs a : Forall (good_dir dz) L -> order0 L -> Forall (fun x => 1 <= dp x) L -> length bs = length L ->
  tsum (map dfactor L) (map drange L) (fun idx => a + greville_combination (map dk L) (map dp L) bs idx)%R =
  (a + combination bs (map du L))%R.
Proof.
  intros HL. revert bs a. induction HL as [|x L Hx HL IH]; intros [|b bs] a H0 H1 Hl; cbn [length map] in *; try discriminate.
  - cbn. ring.
  - cbn [tsum greville_combination combination]. inversion H0; subst. inversion H1; subst.
    rewrite (lsum_ext _ (fun i => b * (dfactor x i * greville (dk x) (dp x) i) + (a + combination bs (map du L)) * dfactor x i)%R).
    + rewrite lsum_plus, !lsum_scal, dfactor_linear, (dfactor_sum dz) by auto. ring.
    + intros i _. rewrite (tsum_ext_c _ _ _ (fun r => (a + b * greville (dk x) (dp x) i) + greville_combination (map dk L) (map dp L) bs r)%R).
      * rewrite IH by auto. ring.
      * now rewrite !map_length.
      * intros; ring.
Qed.

Lemma linear_precision s us c a bs : well_formed s -> is_bspline s -> in_domain s us -> 0 <= c < ph_dim (sp_ph s) ->
  Forall (fun p => 1 <= p) (degs_of s) -> length bs = length (knots_of s) ->
  (forall idx, In idx (all_indices (npts_of s)) -> coordinate s idx c = a + greville_combination (knots_of s) (degs_of s) bs idx)%R ->
  evaluate s us [c] = Ok [a + combination bs us]%R.
Proof.
  intros Hwf Hb Hu Hc Hp Hl Hcoord.
  assert (EW := weight_function_bspline dz s us Hwf Hb Hu).
  rewrite (eval_quotient dz) by (auto; try (repeat constructor; lia); rewrite EW; lra). cbn [map]. do 2 f_equal. rewrite EW. unfold Rdiv. rewrite Rinv_1, Rmult_1_r.
  destruct (wf_dirs dz s us Hwf Hu) as (L & HwfL & -> & H0). pose proof HwfL as (HL & _).
  destruct (wfL_of dz s L HwfL) as (E1 & E2 & E3).
  transitivity (lsum (fun idx => basis_product (knots_of s) (degs_of s) (map du L) idx * (a + greville_combination (knots_of s) (degs_of s) bs idx))%R (all_indices (npts_of s))).
  - unfold weighted_sum. apply lsum_ext. intros idx Hi. rewrite Hcoord by auto. unfold weight. rewrite Hb. ring.
  - rewrite (full_sum dz s L (fun idx => a + greville_combination (knots_of s) (degs_of s) bs idx)%R) by auto.
    rewrite E1, E2. apply tsum_affine; auto.
    + rewrite E2 in Hp. apply Forall_forall. intros x Hx. rewrite Forall_forall in Hp. apply Hp. now apply in_map.
    + rewrite E1, map_length in Hl. exact Hl.
Qed.
End Precision.
