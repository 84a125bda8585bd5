(* Polynomials with more zeros than their degree; sums of products of polynomials that vanish on a grid. *)
From Coq Require Import ZArith List Bool Lia Reals Lra.
From Verif Require Import Base BaseFacts RSum MultiIndex MultiIndexSpec MultiIndexFacts TensorSum
  KnotVec KnotVecSpec KnotVecFacts Basis BasisSpec BSplineTheory BasisFacts
  Spaces SpacesSpec SpacesFacts SplineEval SplineSpec EvalFacts RationalDeriv EvalThms
  Gauss GaussSpec GaussThms IgaSpec Iga IgaFacts IgaThms IgaBasis IgaBasisThms IgaSystem IgaSystemSpec Scatter IgaSystemFacts IgaAssembly IgaStiffness IgaSystemThms
  IgaSystemCons IntegralFacts GalerkinSpec GalerkinFacts GalerkinThms StiffnessExact SolvableSpec.
Import ListNotations.
Open Scope R_scope.

Lemma is_poly_shift d f : is_poly (S d) f -> exists a h, is_poly d h /\ forall x, f x = a + x * h x.
Proof.
  intros (a & H). exists (a 0%nat), (polynomial (fun k => a (S k)) d). split; [now exists (fun k => a (S k))|].
  intros x. rewrite H. clear H f. induction d as [|d IH].
  - unfold polynomial. cbn. ring.
  - rewrite polynomial_S, IH, (polynomial_S (fun k => a (S k))). change (x ^ S (S d)) with (x * x ^ S d). ring.
Qed.
Lemma is_poly_root d : forall f r, is_poly (S d) f -> exists g, is_poly d g /\ forall x, f x = f r + (x - r) * g x.
Proof.
  induction d as [|d IH]; intros f r Hf; destruct (is_poly_shift _ _ Hf) as (a & h & Hh & E).
  - destruct Hh as (b & Hb). exists (fun _ => b 0%nat). split; [apply is_poly_const|]. intros x. rewrite !E, !Hb. unfold polynomial. cbn. ring.
  - destruct (IH h r Hh) as (g & Hg & Eg). exists (fun x => h r + x * g x). split.
    + apply is_poly_plus; [apply is_poly_const | now apply is_poly_x].
    + intros x. rewrite !E, (Eg x). ring.
Qed.
Lemma poly_zeros d : forall f (xs : list R), is_poly d f -> NoDup xs -> (d < length xs)%nat -> (forall x, In x xs -> f x = 0) -> forall x, f x = 0.
Proof.
  induction d as [|d IH]; intros f xs Hf Hn Hl Hz x; (destruct xs as [|r xs]; [cbn in Hl; lia|]).
  - destruct Hf as (a & Ha). rewrite <- (Hz r) by now left. rewrite !Ha. unfold polynomial. cbn. ring.
  - destruct (is_poly_root d f r Hf) as (g & Hg & E). inversion Hn as [|? ? N1 N2]; subst.
    rewrite E, (Hz r) by now left. rewrite (IH g xs Hg N2); [ring | cbn in Hl; lia|].
    intros y Hy. pose proof (Hz y (or_intror Hy)) as Ey. rewrite E, (Hz r) in Ey by now left.
    assert (y - r <> 0) by (intros C; apply N1; now replace r with y by lra).
    rewrite Rplus_0_l in Ey. apply Rmult_integral in Ey. tauto.
Qed.
Lemma is_poly_lsum {A} d (l : list A) (f : A -> R -> R) : (forall a, In a l -> is_poly d (f a)) -> is_poly d (fun x => lsum (fun a => f a x) l).
Proof.
  induction l as [|a l IH]; intros H; cbn [lsum]; [apply is_poly_const|].
  apply is_poly_plus; [apply H; now left | apply IH; intros; apply H; now right].
Qed.

Section Dz.
Variable dz : R -> R.
Local Notation F := (Rops dz).
Implicit Types s : spline F.

(* one direction: a combination of basis functions, or of their slopes, that vanishes at more points than the degree *)
Lemma direction_zero kv p e (x : bool) (h : Z -> R) (rl : list (R * R)) : good_direction kv p -> (0 <= e < zlen (pairs (inner kv p)))%Z ->
  inner_rule rl -> NoDup (map fst rl) -> (p < Z.of_nat (length rl))%Z ->
  let lo := fst (nth (Z.to_nat e) (pairs (inner kv p)) (0, 0)) in let hi := snd (nth (Z.to_nat e) (pairs (inner kv p)) (0, 0)) in
  let phi := fun i u => if x then slope_of dz kv p i u else cox_de_boor kv (Z.to_nat p) (Z.to_nat i) u in
  (forall q, In q rl -> lsum (fun i => phi i (lo + (hi - lo) * ((fst q + 1) / 2)) * h i) (zseq 0 (Z.to_nat (zlen kv - p - 1))) = 0) ->
  forall u, lo < u < hi -> lsum (fun i => phi i u * h i) (zseq 0 (Z.to_nat (zlen kv - p - 1))) = 0.
Proof.
  intros Hg He (Hne & Hin) Hnd Hp lo hi phi Hz u Hu.
  destruct (element_dir dz kv p Hg e He) as (k & K & _). pose proof Hg as (Hp0 & _ & Hnon & _).
  set (psi := fun i v => if x then DB (tk kv) k 1 (Z.to_nat p) i v else B (tk kv) k (Z.to_nat p) i v).
  assert (E : forall i v, (0 <= i < zlen kv - p - 1)%Z -> lo < v < hi -> phi i v = psi i v).
  { intros i v Hi Hv. destruct (piece_in kv p k _ v Hg K Hv) as (Hs & Hk2). unfold phi, psi, slope_of. rewrite (span_of_in dz kv p k v) by auto.
    rewrite (cox_piece kv k) by (auto; lia). reflexivity. }
  assert (ES : forall v, lo < v < hi -> lsum (fun i => phi i v * h i) (zseq 0 (Z.to_nat (zlen kv - p - 1))) =
                                        lsum (fun i => psi i v * h i) (zseq 0 (Z.to_nat (zlen kv - p - 1)))).
  { intros v Hv. apply lsum_ext. intros i Hi. apply zseq_In in Hi. rewrite E by (auto; lia). reflexivity. }
  rewrite ES by auto. destruct K as (K1 & K2 & K3). fold lo hi in K3.
  apply (poly_zeros (Z.to_nat p) (fun v => lsum (fun i => psi i v * h i) (zseq 0 (Z.to_nat (zlen kv - p - 1))))
           (map (fun q => lo + (hi - lo) * ((fst q + 1) / 2)) rl)).
  - apply is_poly_lsum. intros i _. apply (is_poly_ext _ (fun v => h i * psi i v)); [intros; ring|]. apply is_poly_scal.
    unfold psi. destruct x; [apply is_poly_DB1 | apply is_poly_B].
  - rewrite <- (map_map fst (fun y => lo + (hi - lo) * ((y + 1) / 2))). apply FinFun.Injective_map_NoDup; auto.
    intros y y' Ey. apply Rplus_eq_reg_l in Ey. apply Rmult_eq_reg_l in Ey; lra.
  - rewrite map_length. lia.
  - intros v Hv. apply in_map_iff in Hv. destruct Hv as (q & <- & Hq). rewrite Forall_forall in Hin. pose proof (Hin q Hq).
    rewrite <- ES; [now apply Hz|]. split; nra.
Qed.

(* all directions *)
Lemma element_zero rl knots degs : Forall2 good_direction knots degs -> dense_rule rl degs -> forall d g es,
  in_box (map zlen (dlists knots degs)) es ->
  (forall qs, in_box (repeat (Z.of_nat (length rl)) (length (dlists knots degs))) qs ->
     lsum (fun idx => dprod knots degs (slopes_of dz knots degs) d idx (element_point (dlists knots degs) es (grid_point rl qs)) * g idx)
          (all_indices (map2 (fun kv p => zlen kv - p - 1)%Z knots degs)) = 0) ->
  forall us, strictly_inside (dlists knots degs) es us ->
  lsum (fun idx => dprod knots degs (slopes_of dz knots degs) d idx us * g idx) (all_indices (map2 (fun kv p => zlen kv - p - 1)%Z knots degs)) = 0.
Proof.
  intros H (Hin & Hnd & _ & Hdeg). induction H as [|kv p knots degs Hg H IH]; intros d g es He Hz us Hu.
  - destruct us; cbn in Hu; try (destruct es; contradiction). specialize (Hz [] (Forall2_nil _)). destruct es; [|inversion He]. exact Hz.
  - inversion Hdeg as [|? ? D1 D2]; subst. unfold dlists in *. cbn [map2 map] in He. inversion He as [|? e ? es' E1 E2]; subst.
    destruct us as [|u us]; cbn [map2 strictly_inside] in Hu; try contradiction. destruct Hu as (U1 & U2).
    set (phi := fun i u => if (d =? 0)%Z then slope_of dz kv p i u else cox_de_boor kv (Z.to_nat p) (Z.to_nat i) u).
    assert (Split : forall v r, lsum (fun idx => dprod (kv :: knots) (p :: degs) (slopes_of dz (kv :: knots) (p :: degs)) d idx (v :: r) * g idx)
        (all_indices (map2 (fun kv p => zlen kv - p - 1)%Z (kv :: knots) (p :: degs))) =
      lsum (fun i => phi i v * lsum (fun j => dprod knots degs (slopes_of dz knots degs) (d - 1) j r * g (i :: j))
                                    (all_indices (map2 (fun kv p => zlen kv - p - 1)%Z knots degs))) (zseq 0 (Z.to_nat (zlen kv - p - 1)))).
    { intros v r. cbn [map2 all_indices]. rewrite lsum_flat_map. apply lsum_ext. intros i _. rewrite lsum_map, <- lsum_scal. apply lsum_ext. intros j _.
      unfold slopes_of. cbn [map2 dprod]. unfold phi. ring. }
    rewrite Split. rewrite (lsum_ext _ (fun i => lsum (fun j => phi i u * (dprod knots degs (slopes_of dz knots degs) (d - 1) j us * g (i :: j)))
       (all_indices (map2 (fun kv p => zlen kv - p - 1)%Z knots degs)))) by (intros; now rewrite lsum_scal).
    rewrite lsum_swap. rewrite (lsum_ext _ (fun j => dprod knots degs (slopes_of dz knots degs) (d - 1) j us *
       lsum (fun i => phi i u * g (i :: j)) (zseq 0 (Z.to_nat (zlen kv - p - 1))))).
    2:{ intros j _. rewrite <- lsum_scal. apply lsum_ext. intros; ring. }
    apply (IH D2 (d - 1)%Z (fun j => lsum (fun i => phi i u * g (i :: j)) (zseq 0 (Z.to_nat (zlen kv - p - 1)))) es'); auto.
    intros qs Hq. set (r := element_point (map2 (fun kv p => pairs (inner kv p)) knots degs) es' (grid_point rl qs)) in *.
    rewrite (lsum_ext _ (fun j => lsum (fun i => phi i u * (dprod knots degs (slopes_of dz knots degs) (d - 1) j r * g (i :: j))) (zseq 0 (Z.to_nat (zlen kv - p - 1))))).
    2:{ intros j _. rewrite <- lsum_scal. apply lsum_ext. intros; ring. }
    rewrite lsum_swap. rewrite (lsum_ext _ (fun i => phi i u * lsum (fun j => dprod knots degs (slopes_of dz knots degs) (d - 1) j r * g (i :: j))
                                    (all_indices (map2 (fun kv p => zlen kv - p - 1)%Z knots degs)))) by (intros; now rewrite lsum_scal).
    apply (direction_zero kv p e (d =? 0)%Z _ rl Hg E1 Hin Hnd D1); [|exact U1].
    intros q Hq0. apply (In_nth _ _ (0, 0)) in Hq0. destruct Hq0 as (n & Hn & En).
    specialize (Hz (Z.of_nat n :: qs)). cbn [map2 length repeat] in Hz.
    specialize (Hz (Forall2_cons (Z.of_nat (length rl)) (Z.of_nat n) (conj (Nat2Z.is_nonneg n) (proj1 (Nat2Z.inj_lt _ _) Hn)) Hq)).
    cbn [grid_point map element_point] in Hz. rewrite Nat2Z.id, En in Hz.
    destruct (nth (Z.to_nat e) (pairs (inner kv p)) (0, 0)) as [lo hi]. cbn [fst snd]. rewrite Split in Hz. exact Hz.
Qed.
End Dz.
