(* Splines with the same knots and weights and nearby control points are near each other. *)
From Coq Require Import ZArith Ascii List Lia Reals Lra.
From Verif Require Import Base BaseFacts RSum MultiIndex MultiIndexSpec MultiIndexFacts KnotVecSpec BasisSpec Spaces SpacesSpec SplineEval SplineSpec SplineNew TensorSum EvalFacts EvalThms EditSpec Format FormatSpec Fixed Rebuild.
Import ListNotations.
Open Scope Z_scope.

Section Near.
Context {dz : R -> R}.
Notation F := (Rops dz).
Implicit Types s : spline F.

Lemma products_nonneg s us idx : well_formed s -> in_domain s us -> In idx (all_indices (npts_of s)) ->
  (0 <= basis_product (knots_of s) (degs_of s) us idx)%R.
Proof.
  intros Hwf Hu Hi. apply all_indices_box in Hi. destruct (wf_dirs dz s us Hwf Hu) as (L & HwfL & -> & H0). pose proof HwfL as (HL & _).
  destruct (wfL_of dz s L HwfL) as (E1 & E2 & E3). rewrite E1, E2, (basis_product_dirs dz) by (auto; now rewrite <- E3).
  rewrite E3 in Hi. clear - HL H0 Hi. unfold in_box, lensL, order0 in *. revert idx Hi.
  induction HL as [|x L Hx HL IH]; intros idx Hi; cbn [map prodf] in *; [lra|].
  inversion Hi as [|? i ? idx' Hi1 Hi2]; subst. inversion H0; subst. apply Rmult_le_pos; [|auto].
  now apply (dfactor_nonneg dz).
Qed.
Lemma regular_weights s idx : well_formed s -> regular s -> In idx (all_indices (npts_of s)) -> (0 < weight s idx)%R.
Proof. intros Hwf [Hb|Hp] Hi; [unfold weight; rewrite Hb; lra|]. apply (weight_positive dz); auto. now apply all_indices_box. Qed.
Lemma regular_function s us : well_formed s -> regular s -> in_domain s us -> (0 < weight_function s us)%R.
Proof. intros Hwf [Hb|Hp] Hu; [rewrite (weight_function_bspline dz) by auto; lra | now apply (weight_function_positive dz)]. Qed.

(* moving the control points by at most e moves the points by at most e *)
Lemma stability s s' us c e : well_formed s -> well_formed s' -> regular s -> knots_of s' = knots_of s -> degs_of s' = degs_of s ->
  ph_wts (sp_ph s') = ph_wts (sp_ph s) -> in_domain s us -> 0 <= c < ph_dim (sp_ph s) -> c < ph_dim (sp_ph s') ->
  (forall idx, In idx (all_indices (npts_of s)) -> (Rabs (coordinate s' idx c - coordinate s idx c) <= e)%R) ->
  exists a b, evaluate s us [c] = Ok [a] /\ evaluate s' us [c] = Ok [b] /\ (Rabs (b - a) <= e)%R.
Proof.
  intros Hwf Hwf' Hr Ek Ed Ew Hu Hc Hc' He.
  assert (En : npts_of s' = npts_of s) by (rewrite (wf_npts s Hwf), (wf_npts s' Hwf'), Ek, Ed; reflexivity).
  assert (Ewt : forall idx, weight s' idx = weight s idx).
  { intros idx. unfold weight. rewrite Ew, En. reflexivity. }
  assert (EW : weight_function s' us = weight_function s us).
  { unfold weight_function. rewrite Ek, Ed, En. apply lsum_ext. intros idx _. now rewrite Ewt. }
  pose proof (regular_function s us Hwf Hr Hu) as HW.
  assert (Hu' : in_domain s' us) by (unfold in_domain; rewrite Ek; exact Hu).
  exists (weighted_sum s us c / weight_function s us)%R, (weighted_sum s' us c / weight_function s us)%R. split; [|split].
  - rewrite (eval_quotient dz) by (auto; try lra; constructor; auto). reflexivity.
  - rewrite (eval_quotient dz) by (auto; try (rewrite EW; lra); constructor; auto; lia). rewrite EW. reflexivity.
  - set (lam := fun idx => (basis_product (knots_of s) (degs_of s) us idx * weight s idx / weight_function s us)%R).
    assert (L0 : forall idx, In idx (all_indices (npts_of s)) -> (0 <= lam idx)%R).
    { intros idx Hi. unfold lam. apply Rmult_le_pos; [|left; now apply Rinv_0_lt_compat].
      apply Rmult_le_pos; [now apply products_nonneg | left; now apply regular_weights]. }
    assert (L1 : lsum lam (all_indices (npts_of s)) = 1%R).
    { unfold lam, Rdiv. rewrite lsum_scal_r. apply Rinv_r. lra. }
    assert (Ea : (weighted_sum s us c / weight_function s us = lsum (fun idx => lam idx * coordinate s idx c) (all_indices (npts_of s)))%R).
    { unfold weighted_sum, Rdiv. rewrite <- lsum_scal_r. apply lsum_ext. intros. unfold lam, Rdiv. ring. }
    assert (Eb : (weighted_sum s' us c / weight_function s us = lsum (fun idx => lam idx * coordinate s' idx c) (all_indices (npts_of s)))%R).
    { unfold weighted_sum, Rdiv. rewrite Ek, Ed, En. rewrite <- lsum_scal_r. apply lsum_ext. intros. rewrite Ewt. unfold lam, Rdiv. ring. }
    rewrite Ea, Eb. clear Ea Eb. clearbody lam.
    assert (U : forall l, (forall idx, In idx l -> (0 <= lam idx)%R /\ (Rabs (coordinate s' idx c - coordinate s idx c) <= e)%R) ->
      (Rabs (lsum (fun idx => lam idx * coordinate s' idx c) l - lsum (fun idx => lam idx * coordinate s idx c) l) <= e * lsum lam l)%R).
    { induction l as [|i l IH]; intros H; cbn [lsum]; [rewrite Rminus_diag_eq, Rabs_R0 by auto; lra|].
      match goal with |- (Rabs (?a + ?b - (?c0 + ?d)) <= _)%R => replace (a + b - (c0 + d))%R with ((a - c0) + (b - d))%R by ring end.
      eapply Rle_trans; [apply Rabs_triang|]. destruct (H i (or_introl eq_refl)) as [P1 P2]. specialize (IH (fun idx Hi => H idx (or_intror Hi))).
      rewrite <- Rmult_minus_distr_l, Rabs_mult, (Rabs_right (lam i)) by lra.
      pose proof (Rmult_le_compat_l _ _ _ P1 P2). lra. }
    specialize (U (all_indices (npts_of s))). rewrite L1, Rmult_1_r in U. apply U. auto.
Qed.

Lemma within_exact fmt tol l l' : Forall (prints fmt 0) l -> within fmt tol l l' -> l' = l.
Proof. intros Hp H. induction H as [|a b l l' (_ & Hab) H IH]; auto. inversion Hp; subst. f_equal; auto. Qed.
Lemma knots_exact fmt tol k k' : Forall (Forall (prints fmt 0)) k -> Forall2 (within fmt tol) k k' -> k' = k.
Proof. intros Hp H. induction H as [|a b l l' Hab H IH]; auto. inversion Hp; subst. f_equal; auto. now apply (within_exact fmt tol). Qed.

Lemma same_weights fmt tol s s' : well_formed s -> well_formed s' -> npts_of s' = npts_of s -> exact_parts fmt s ->
  (ph_wts (sp_ph s') = None <-> ph_wts (sp_ph s) = None) ->
  (forall idx, In idx (all_indices (npts_of s)) -> comes_back fmt tol (weight s idx) (weight s' idx)) -> ph_wts (sp_ph s') = ph_wts (sp_ph s).
Proof.
  intros Hwf Hwf' En Hp [K1 K2] H. destruct (ph_wts (sp_ph s)) as [w|] eqn:Ew; [|now apply K2].
  destruct (ph_wts (sp_ph s')) as [w'|] eqn:Ew'; [|specialize (K1 eq_refl); discriminate]. f_equal.
  pose proof (wf_wts s Hwf w Ew) as L. pose proof (wf_wts s' Hwf' w' Ew') as L'. rewrite En in L'. unfold zlen in L, L'. pose proof (ep_weights _ _ Hp w Ew) as Hw.
  change (num F) with R in *.
  assert (LL : length w' = length w) by (apply Nat2Z.inj; etransitivity; [exact L' | symmetry; exact L]).
  apply (nth_ext w' w 0%R 0%R); [exact LL|]. intros n Hn. assert (Hn2 : Z.of_nat n < total (npts_of s)) by (rewrite <- L'; apply inj_lt; exact Hn).
  destruct (get1d_surj (npts_of s) (Z.of_nat n) (wf_pos s Hwf)) as (idx & Hi & Ei); [lia|].
  assert (E : position (npts_of s) idx = Z.of_nat n) by now rewrite position_get1d.
  destruct (H idx) as [_ Hb]; [now apply all_indices_box|]. unfold weight in Hb. rewrite Ew, Ew', En, E, Nat2Z.id in Hb. apply Hb.
  rewrite Forall_forall in Hw. apply Hw, nth_In. exact (eq_ind _ (fun k => (n < k)%nat) Hn _ LL).
Qed.
Lemma weights_exact fmt s idx : well_formed s -> exact_parts fmt s -> In idx (all_indices (npts_of s)) -> ph_wts (sp_ph s) = None \/ prints fmt 0 (weight s idx).
Proof.
  intros Hwf Hp Hi. destruct (ph_wts (sp_ph s)) as [w|] eqn:Ew; [right | now left]. pose proof (ep_weights _ _ Hp w Ew) as Hw. rewrite Forall_forall in Hw. unfold weight. rewrite Ew. apply Hw. apply nth_In.
  apply all_indices_box in Hi. pose proof (position_range _ _ Hi). pose proof (wf_wts s Hwf w Ew) as L. unfold zlen in L. change (num F) with R in *. lia.
Qed.

Section Back.
Variables (fmt : R -> list ascii) (tol e : R) (s s' : spline F).
Hypotheses (Hwf : well_formed s) (Hr : regular s) (Hp : exact_parts fmt s) (Hs : sound s') (Ed : degs_of s' = degs_of s) (En : npts_of s' = npts_of s)
  (Hw : ph_wts (sp_ph s') = None <-> ph_wts (sp_ph s) = None)
  (Hk : Forall2 (within fmt tol) (knots_of s) (knots_of s'))
  (Hwt : forall idx, In idx (all_indices (npts_of s)) -> comes_back fmt tol (weight s idx) (weight s' idx))
  (He : forall idx c, In idx (all_indices (npts_of s)) -> 0 <= c < ph_dim (sp_ph s) -> c < ph_dim (sp_ph s') -> (Rabs (coordinate s' idx c - coordinate s idx c) <= e)%R).
Lemma back_near : near_map e s s'.
Proof.
  assert (Ek : knots_of s' = knots_of s) by (apply (knots_exact fmt tol); auto; apply Hp).
  assert (Hwf' : well_formed s') by (apply Hs; rewrite Ek, Ed; apply Hwf).
  assert (Ew : ph_wts (sp_ph s') = ph_wts (sp_ph s)) by now apply (same_weights fmt tol).
  split; [exact Hwf'|]. split; [exact Ed|]. split; [exact Ek|]. split; [exact Ew|]. intros us c Hu Hc Hc'.
  apply stability; auto.
Qed.
End Back.

Lemma plain_near fmt tol s s' : well_formed s -> regular s -> exact_parts fmt s -> plain_back fmt tol s s' -> near_map tol s s'.
Proof.
  intros Hwf Hr Hp [(A & B & C & D & E) S K W P]. apply (back_near fmt tol); auto. intros idx c Hi Hc _. now apply P.
Qed.
Lemma irit_near fmt tol e s s' : well_formed s -> regular s -> exact_parts fmt s -> irit_back fmt tol s s' ->
  (forall idx, In idx (all_indices (npts_of s)) -> (tol <= e * weight s idx)%R) -> near_map e s s'.
Proof.
  intros Hwf Hr Hp [(A & B & C & D & E) S K W _ P] He. apply (back_near fmt tol); auto. intros idx c Hi Hc _.
  pose proof (regular_weights s idx Hwf Hr Hi) as Hpos. eapply Rle_trans; [apply P; auto|].
  - destruct (weights_exact fmt s idx Hwf Hp Hi); auto.
  - apply (Rmult_le_reg_r (weight s idx)); auto. unfold Rdiv. rewrite Rmult_assoc, Rinv_l, Rmult_1_r by lra. now apply He.
Qed.
Lemma iges_near fmt tol s s' : well_formed s -> regular s -> exact_parts fmt s -> iges_back fmt tol s s' -> near_map tol s s'.
Proof.
  intros Hwf Hr Hp [S A B D E K W P]. apply (back_near fmt tol); auto. intros idx c Hi Hc Hc'. rewrite D in Hc'.
  destruct (P idx c Hi ltac:(lia)) as [X _]. unfold padded in X. rewrite (proj2 (Z.ltb_lt _ _)) in X by lia. exact X.
Qed.
End Near.

(* numbers with six decimals are printed exactly *)
Lemma fixed6_exact n : (Rabs (IZR n / 1000000) < IZR (2 ^ 1024))%R -> prints fixed6 0 (IZR n / 1000000)%R.
Proof.
  intros Hx. destruct (fixed6_numeral _ Hx) as (ds & E & A & B & C). eexists. split; [exact E|]. split; [exact A|]. split; [exact B|]. rewrite C.
  assert (M : micro (IZR n / 1000000) = Z.abs n).
  { unfold micro. replace (Rabs (IZR n / 1000000) * 1000000 + 1 / 2)%R with (IZR (Z.abs n) + 1 / 2)%R.
    - destruct (base_Int_part (IZR (Z.abs n) + 1 / 2)) as [A1 A2]. set (k := Int_part (IZR (Z.abs n) + 1 / 2)) in *.
      assert (k < Z.abs n + 1) by (apply lt_IZR; rewrite plus_IZR; lra). assert (Z.abs n - 1 < k) by (apply lt_IZR; rewrite minus_IZR; lra). lia.
    - unfold Rdiv at 2. rewrite Rabs_mult, (Rabs_right (/ 1000000)) by lra. rewrite abs_IZR. field. }
  rewrite M. right. match goal with |- Rabs ?x = _ => replace x with 0%R; [apply Rabs_R0|] end.
  destruct (Rlt_dec (IZR n / 1000000) 0) as [H|H].
  - assert (n < 0) by (apply lt_IZR; lra). rewrite Z.abs_neq by lia. rewrite opp_IZR. field.
  - assert (0 <= n) by (apply le_IZR; lra). rewrite Z.abs_eq by lia. field.
Qed.
