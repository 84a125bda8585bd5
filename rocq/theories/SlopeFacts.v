(* First derivatives of splines whose control points are an affine function of the knot means. *)
From Coq Require Import ZArith List Bool Lia Reals Lra.
From Verif Require Import Base BaseFacts RSum MultiIndex MultiIndexSpec MultiIndexFacts TensorSum
  KnotVec KnotVecSpec KnotVecFacts Basis BasisSpec BSplineTheory BasisFacts
  Spaces SpacesSpec SpacesFacts SplineEval SplineSpec RationalDeriv EvalFacts EvalDeriv EvalThms GrevilleSpec GrevilleFacts.
Import ListNotations.
Open Scope Z_scope.

Lemma DB_weighted (t : Z -> R) k (g : Z -> R) : monotone t -> (t k < t (k + 1)%Z)%R ->
  forall q u lo n, (lo <= k - Z.of_nat (S q))%Z -> (k < lo + Z.of_nat n)%Z ->
  lsum (fun i => g i * DB t k 1 (S q) i u)%R (zseq lo n) =
  lsum (fun i => INR (S q) * (g i - g (i - 1)%Z) / (t (i + Z.of_nat (S q))%Z - t i) * B t k q i u)%R (zseq (k - Z.of_nat q) (S q)).
Proof.
  intros Hm Hk q u lo n H1 H2.
  rewrite (lsum_ext _ (fun i => g i * (INR (S q) * (B t k q i u / (t (i + Z.of_nat (S q))%Z - t i)))
      + (fun j => - (g (j - 1)%Z * (INR (S q) * (B t k q j u / (t (j + Z.of_nat (S q))%Z - t j))))) (i + 1)%Z)%R).
  2:{ intros i _. rewrite (DB_1 t Hm k Hk q i u). replace (i + 1 - 1) with i by lia.
      ring. }
  rewrite lsum_plus.
  rewrite <- (lsum_zseq_shift (fun j => - (g (j - 1)%Z * (INR (S q) * (B t k q j u / (t (j + Z.of_nat (S q))%Z - t j)))))%R lo n 1).
  rewrite (lsum_zseq_extend _ (k - Z.of_nat q) (S q) lo n); try lia.
  2:{ intros i Hi Hn. rewrite B_outside by lia. unfold Rdiv. ring. }
  rewrite (lsum_zseq_extend (fun j => - (g (j - 1)%Z * (INR (S q) * (B t k q j u / (t (j + Z.of_nat (S q))%Z - t j)))))%R (k - Z.of_nat q) (S q)); try lia.
  2:{ intros i Hi Hn. rewrite B_outside by lia. unfold Rdiv. ring. }
  rewrite <- lsum_plus. apply lsum_ext. intros i Hi. apply zseq_In in Hi. unfold Rdiv. ring.
Qed.

Lemma DB_sum_zero (t : Z -> R) k : monotone t -> (t k < t (k + 1)%Z)%R ->
  forall q u lo n, (lo <= k - Z.of_nat (S q))%Z -> (k < lo + Z.of_nat n)%Z -> lsum (fun i => DB t k 1 (S q) i u) (zseq lo n) = 0%R.
Proof.
  intros Hm Hk q u lo n H1 H2. rewrite (lsum_ext _ (fun i => (fun _ : Z => 1) i * DB t k 1 (S q) i u)%R) by (intros; ring).
  rewrite DB_weighted by auto. rewrite lsum_zero; auto. intros i _. unfold Rdiv. ring.
Qed.

Lemma DB_slope (t : Z -> R) k : monotone t -> (t k < t (k + 1)%Z)%R ->
  forall q u lo n, (lo <= k - Z.of_nat (S q))%Z -> (k < lo + Z.of_nat n)%Z ->
  lsum (fun i => ksum t (S q) i * DB t k 1 (S q) i u)%R (zseq lo n) = INR (S q).
Proof.
  intros Hm Hk q u lo n H1 H2. rewrite DB_weighted by auto.
  rewrite (lsum_ext _ (fun i => INR (S q) * B t k q i u)%R).
  - rewrite lsum_scal, (B_sum t Hm k Hk) by lia. ring.
  - intros i Hi. apply zseq_In in Hi. rewrite ksum_first, ksum_last.
    pose proof (active_den t Hm k Hk i (Z.of_nat q + 1) ltac:(lia) ltac:(lia)) as Hd.
    replace (i + Z.of_nat (S q)) with (i + (Z.of_nat q + 1)) by lia. replace (i + Z.of_nat q + 1) with (i + (Z.of_nat q + 1)) by lia.
    field. lra.
Qed.

Section Slope.
Context {dz : R -> R}.
Notation F := (Rops dz).
Implicit Types s : spline F.

Lemma slope_dir x : good_dir dz x -> 1 <= dp x ->
  lsum (dfactor (setm x 1)) (drange x) = 0%R /\
  lsum (fun i => dfactor (setm x 1) i * greville (dk x) (dp x) i)%R (drange x) = 1%R.
Proof.
  intros ((Hp & Hc & Hn & _) & (A1 & A2 & A3 & A4 & A5) & Hk & _) H1.
  assert (Hlt : (tk (dk x) (dsp x) < tk (dk x) (dsp x + 1))%R) by (destruct A5 as [A5|[A5 _]]; lra).
  destruct (Z.to_nat (dp x)) as [|q] eqn:Eq; [lia|].
  assert (Hi0 : INR (S q) <> 0%R) by (apply not_0_INR; lia).
  assert (Ef : forall i, dfactor (setm x 1) i = DB (tk (dk x)) (dsp x) 1 (S q) i (du x)) by (intros i; unfold dfactor, setm; cbn [dk dp du dsp dm]; now rewrite Eq).
  assert (Hmon : monotone (tk (dk x))) by now apply tk_monotone.
  split.
  - rewrite (lsum_ext _ _ _ (fun i _ => Ef i)). unfold drange, dlen. apply DB_sum_zero; auto; lia.
  - rewrite (lsum_ext _ (fun i => / INR (S q) * (ksum (tk (dk x)) (S q) i * DB (tk (dk x)) (dsp x) 1 (S q) i (du x)))%R).
    + rewrite lsum_scal. unfold drange, dlen. rewrite DB_slope; auto; [now field | lia | lia].
    + intros i Hi. unfold drange, dlen in Hi. apply zseq_In in Hi. rewrite Ef, greville_ksum by lia. rewrite Eq. field. auto.
Qed.

Lemma facs_zeros L n : order0 L -> n = length L -> facs L (repeat 0 n) = map dfactor L.
Proof.
  intros H ->. unfold facs. f_equal. induction H as [|x L Hx HL IH]; [reflexivity|]. cbn [length repeat withm map2].
  unfold withm in *. f_equal; auto. destruct x. cbn in *. subst. reflexivity.
Qed.

Lemma tsum_affine_unit L : forall bs a d, Forall (good_dir dz) L -> order0 L -> Forall (fun x => 1 <= dp x) L -> length bs = length L ->
  (d < length L)%nat ->
  tsum (facs L (upd (repeat 0 (length L)) d 1)) (map drange L) (fun idx => a + greville_combination (map dk L) (map dp L) bs idx)%R = nth d bs 0%R.
Proof.
  induction L as [|x L IH]; intros [|b bs] a d HL H0 H1 Hl Hd; cbn [length] in *; try lia.
  inversion HL; subst. inversion H0; subst. inversion H1; subst. destruct d as [|d].
  - cbn [repeat upd]. unfold facs. cbn [withm map2 map]. fold (withm L (repeat 0 (length L))). fold (facs L (repeat 0 (length L))).
    rewrite facs_zeros by auto. cbn [map tsum greville_combination nth].
    destruct (slope_dir x) as [S0 S1]; auto.
    rewrite (lsum_ext _ (fun i => b * (dfactor (setm x 1) i * greville (dk x) (dp x) i) + (a + combination bs (map du L)) * dfactor (setm x 1) i)%R).
    + rewrite lsum_plus, !lsum_scal, S0, S1. ring.
    + intros i _. rewrite (tsum_ext_c _ _ _ (fun r => (a + b * greville (dk x) (dp x) i) + greville_combination (map dk L) (map dp L) bs r)%R).
      * rewrite (tsum_affine (dz := dz)) by (auto; lia). ring.
      * rewrite !map_length. reflexivity.
      * intros; ring.
  - cbn [repeat upd]. unfold facs. cbn [withm map2 map]. fold (withm L (upd (repeat 0 (length L)) d 1)). fold (facs L (upd (repeat 0 (length L)) d 1)).
    cbn [map tsum greville_combination nth].
    replace (setm x 0) with x by (destruct x; cbn in *; subst; reflexivity).
    rewrite (lsum_ext _ (fun i => nth d bs 0 * dfactor x i)%R).
    + rewrite lsum_scal, (dfactor_sum dz) by auto. ring.
    + intros i _. rewrite (tsum_ext_c _ _ _ (fun r => (a + b * greville (dk x) (dp x) i) + greville_combination (map dk L) (map dp L) bs r)%R).
      * rewrite IH by (auto; lia). ring.
      * rewrite facs_length by (rewrite upd_length, repeat_length; reflexivity). now rewrite map_length.
      * intros; ring.
Qed.

Lemma linear_derivative s us c a bs d : well_formed s -> is_bspline s -> in_domain s us -> 0 <= c < ph_dim (sp_ph s) ->
  Forall (fun p => 1 <= p) (degs_of s) -> length bs = length (knots_of s) -> (d < length (degs_of s))%nat ->
  (forall idx, In idx (all_indices (npts_of s)) -> coordinate s idx c = a + greville_combination (knots_of s) (degs_of s) bs idx)%R ->
  evaluate_derivative s us [c] (upd (repeat 0 (length (degs_of s))) d 1) = Ok [nth d bs 0%R].
Proof.
  intros Hwf Hb Hu Hc Hp Hl Hdl Hcoord.
  destruct (wf_dirs dz s us Hwf Hu) as (L & HwfL & -> & H0). pose proof HwfL as (HL & _).
  destruct (wfL_of dz s L HwfL) as (E1 & E2 & E3).
  assert (El : length (degs_of s) = length L) by (rewrite E2; apply map_length). rewrite El in *.
  rewrite (evaluate_derivative_ok dz s L [c]); auto.
  - cbn [map]. do 2 f_equal. unfold dvalue. rewrite Hb.
    rewrite <- (tsum_affine_unit L bs a d); auto.
    + rewrite <- E1, <- E2. apply tsum_ext_c.
      * rewrite facs_length by (rewrite upd_length, repeat_length; reflexivity). now rewrite map_length.
      * intros idx Hi. apply Hcoord. rewrite all_indices_boxl, E3, lensL_ranges. exact Hi.
    + rewrite E2 in Hp. apply Forall_forall. intros x Hx. rewrite Forall_forall in Hp. apply Hp. now apply in_map.
    + rewrite E1, map_length in Hl. exact Hl.
  - unfold nonneg_orders. apply Forall_forall. intros m Hm. apply In_nth_error in Hm. destruct Hm as (i & Hi).
    destruct (Nat.eq_dec i d) as [-> |Hne].
    + rewrite (nth_error_upd_same _ _ _ 0) in Hi by (now apply nth_error_repeat). inversion Hi. lia.
    + rewrite nth_error_upd in Hi by (now rewrite repeat_length). destruct (Nat.eqb_spec i d); [congruence|]. apply nth_error_In in Hi. apply repeat_spec in Hi. lia.
  - rewrite upd_length, repeat_length. reflexivity.
  - repeat constructor; lia.
Qed.
End Slope.
