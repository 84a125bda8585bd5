(* Splines without interior knots are Bezier curves, surfaces, ... *)
From Coq Require Import ZArith List Bool Lia Reals Lra.
From Verif Require Import Base BaseFacts RSum MultiIndex MultiIndexSpec
  KnotVec KnotVecSpec KnotVecFacts Basis BasisSpec BSplineTheory BasisFacts
  Spaces SpacesSpec SpacesFacts SplineEval SplineSpec EvalFacts EvalThms TangentSpec.
Import ListNotations.
Open Scope Z_scope.

Lemma C_pascal n i : (i < n)%nat -> (C n i + C n (S i))%R = C (S n) (S i).
Proof. intros H. now apply pascal. Qed.
Lemma C_0 n : C n 0 = 1%R.
Proof. unfold C. rewrite Nat.sub_0_r. cbn [fact INR]. field. apply INR_fact_neq_0. Qed.
Lemma C_n n : C n n = 1%R.
Proof. unfold C. rewrite Nat.sub_diag. cbn [fact INR]. field. apply INR_fact_neq_0. Qed.

(* the pieces of all degrees up to p on the only span *)
Lemma pieces_bernstein (t : Z -> R) a b p : (a < b)%R -> (forall j, 0 <= j <= Z.of_nat p -> t j = a) ->
  (forall j, Z.of_nat p < j <= 2 * Z.of_nat p + 1 -> t j = b) -> forall u q j, (q <= p)%nat -> (j <= q)%nat ->
  let x := ((u - a) / (b - a))%R in
  B t (Z.of_nat p) q (Z.of_nat (p - q + j)) u = (C q j * x ^ j * (1 - x) ^ (q - j))%R.
Proof.
  intros Hab Ha Hb u. induction q as [|q IH]; intros j Hq Hj x.
  - assert (j = O) by lia. subst j. cbn [B]. replace (p - 0 + 0)%nat with p by lia. destruct (Z.eq_dec (Z.of_nat p) (Z.of_nat p)); [|contradiction].
    rewrite C_0. cbn. ring.
  - cbn [B]. set (i := Z.of_nat (p - S q + j)).
    assert (Q1 : (1 <= j)%nat -> (quot0 (u - t i) (t (i + Z.of_nat (S q))%Z - t i) * B t (Z.of_nat p) q i u)%R = (x * (C q (j - 1) * x ^ (j - 1) * (1 - x) ^ (q - (j - 1))))%R).
    { intros Hj1. rewrite (Ha i), (Hb (i + Z.of_nat (S q))) by (unfold i; lia). rewrite quot0_den by lra.
      replace i with (Z.of_nat (p - q + (j - 1))) by (unfold i; lia). rewrite IH by lia. reflexivity. }
    assert (Q2 : (j <= q)%nat -> (quot0 (t (i + Z.of_nat (S q) + 1)%Z - u) (t (i + Z.of_nat (S q) + 1)%Z - t (i + 1)%Z) * B t (Z.of_nat p) q (i + 1) u)%R = ((1 - x) * (C q j * x ^ j * (1 - x) ^ (q - j)))%R).
    { intros Hj1. rewrite (Ha (i + 1)), (Hb (i + Z.of_nat (S q) + 1)) by (unfold i; lia). rewrite quot0_den by lra.
      replace (i + 1) with (Z.of_nat (p - q + j)) by (unfold i; lia). rewrite IH by lia. fold x. f_equal. unfold x. field. lra. }
    assert (O1 : (j = 0)%nat -> B t (Z.of_nat p) q i u = 0%R) by (intros ->; apply B_outside; unfold i; lia).
    assert (O2 : (j = S q)%nat -> B t (Z.of_nat p) q (i + 1) u = 0%R) by (intros ->; apply B_outside; unfold i; lia).
    destruct (Nat.eq_dec j 0) as [E|E]; [|destruct (Nat.eq_dec j (S q)) as [E'|E']].
    + rewrite Q2, (O1 E) by lia. subst j. rewrite !C_0. replace (S q - 0)%nat with (S (q - 0)) by lia. cbn [pow]. ring.
    + rewrite Q1, (O2 E') by lia. subst j. replace (S q - 1)%nat with q by lia. rewrite !C_n, !Nat.sub_diag. cbn [pow]. ring.
    + rewrite Q1, Q2 by lia. destruct j as [|j]; [lia|]. rewrite <- (C_pascal q j) by lia.
      replace (S j - 1)%nat with j by lia. replace (q - j)%nat with (S (q - S j)) by lia. replace (S q - S j)%nat with (S (q - S j)) by lia. cbn [pow]. ring.
Qed.

Lemma nth_rep (a d : R) n i : (i < n)%nat -> nth i (repeat a n) d = a.
Proof. revert i; induction n as [|n IH]; intros [|i] H; cbn [repeat nth]; try lia; auto. apply IH. lia. Qed.

Lemma bezier_tk kv p a b : kv = repeat a (S p) ++ repeat b (S p) ->
  (forall j, 0 <= j <= Z.of_nat p -> tk kv j = a) /\ (forall j, Z.of_nat p < j <= 2 * Z.of_nat p + 1 -> tk kv j = b).
Proof.
  intros E. assert (Hl : zlen kv = 2 * Z.of_nat p + 2) by (rewrite E; unfold zlen; rewrite app_length, !repeat_length; lia).
  split; intros j Hj; rewrite tk_knot' by lia; unfold knot; rewrite E.
  - rewrite app_nth1 by (rewrite repeat_length; lia). apply nth_rep. lia.
  - rewrite app_nth2 by (rewrite repeat_length; lia). rewrite repeat_length. apply nth_rep. lia.
Qed.

Section Dz.
Variable dz : R -> R.
Local Notation F := (Rops dz).
Implicit Types s : spline F.

Lemma cox_bernstein kv p i u : good_direction kv p -> bezier_knots kv p -> (first_knot kv <= u <= final_knot kv)%R ->
  0 <= i < zlen kv - p - 1 -> cox_de_boor kv (Z.to_nat p) (Z.to_nat i) u = bernstein kv (Z.to_nat p) (Z.to_nat i) u.
Proof.
  intros Hg (a & b & E) Hu Hi. pose proof Hg as (Hp & Hc & Hn & Hs & Hlt). destruct (bezier_tk kv (Z.to_nat p) a b E) as [T1 T2].
  assert (Hl : zlen kv = 2 * p + 2) by (rewrite E; unfold zlen; rewrite app_length, !repeat_length; lia).
  assert (Ef : first_knot kv = a) by (rewrite E; reflexivity).
  assert (Ee : final_knot kv = b) by (rewrite <- tk_last; apply T2; lia).
  destruct (eval_direction dz kv p u Hg Hu) as (k & _ & Hsp & K1 & K2). assert (k = p) by lia. subst k.
  rewrite (cox_piece kv p) by (auto; lia). unfold bernstein. rewrite Ef, Ee in *.
  replace p with (Z.of_nat (Z.to_nat p)) at 1 by lia. replace i with (Z.of_nat (Z.to_nat p - Z.to_nat p + Z.to_nat i)) at 1 by lia.
  apply pieces_bernstein; auto; lia.
Qed.

Lemma product_bernstein knots degs us idx : Forall2 good_direction knots degs -> Forall2 bezier_knots knots degs ->
  Forall2 (fun kv u => (first_knot kv <= u <= final_knot kv)%R) knots us ->
  in_box (map2 (fun kv p => zlen kv - p - 1) knots degs) idx ->
  basis_product knots degs us idx = bernstein_product knots degs us idx.
Proof.
  intros H. revert us idx. induction H as [|kv p knots degs Hg H IH]; intros us idx Hz Hu Hb; [reflexivity|].
  inversion Hu as [|? u ? us' U1 U2]; subst. cbn [map2] in Hb. inversion Hb as [|? i ? idx' B1 B2]; subst. inversion Hz as [|? ? ? ? Z1 Z2]; subst.
  cbn [basis_product bernstein_product]. rewrite cox_bernstein, IH by auto. reflexivity.
Qed.

Lemma bezier_form : forall s us dims, well_formed s -> is_bspline s \/ positive_weights s -> Forall2 bezier_knots (knots_of s) (degs_of s) ->
  in_domain s us -> valid_dims s dims ->
  let n := map (fun p => p + 1) (degs_of s) in
  evaluate s us dims = Ok (map (fun c =>
    lsum (fun idx => bernstein_product (knots_of s) (degs_of s) us idx * (weight s idx * coordinate s idx c))%R (all_indices n) /
    lsum (fun idx => bernstein_product (knots_of s) (degs_of s) us idx * weight s idx)%R (all_indices n))%R dims).
Proof.
  intros s us dims Hwf Hw Hz Hu Hv n. pose proof Hwf as [Hd _ Hnp _ _ _].
  assert (En : map (fun p => p + 1) (degs_of s) = npts_of s).
  { rewrite Hnp. clear - Hd Hz. induction Hd as [|kv p l1 l2 (Hp & _) _ IH]; [reflexivity|]. inversion Hz as [|? ? ? ? (a & b & E) Z2]; subst.
    cbn [map map2]. rewrite IH by auto. f_equal. unfold zlen. rewrite app_length, !repeat_length. lia. }
  assert (HW : weight_function s us <> 0%R).
  { destruct (weight_function_facts dz s us Hwf Hu) as [W1 W2]. destruct Hw as [Hb|Hb]; [rewrite W1 by auto; lra | specialize (W2 Hb); lra]. }
  rewrite (eval_quotient dz s us dims) by auto. f_equal. apply map_ext. intros c. unfold n; rewrite En. unfold weighted_sum, weight_function.
  f_equal; apply lsum_ext; intros idx Hi; apply all_indices_box in Hi; rewrite Hnp in Hi; rewrite product_bernstein by auto; reflexivity.
Qed.
End Dz.
