(* Knot insertion into NURBS in doubles: the statements about the constructed splines. *)
From Coq Require Import ZArith List Bool Lia Reals Floats Lra Psatz Permutation.
From Verif Require Import Base BaseFacts RSum MultiIndex MultiIndexSpec MultiIndexFacts TensorSum
  KnotVec KnotVecSpec KnotVecFacts Boehm Basis BasisSpec BSplineTheory BasisFacts VecUtils
  Spaces SpacesSpec SpacesFacts SplineEval SplineEdit SplineSpec EvalFacts RationalDeriv EvalDeriv EvalThms SplineNew
  PhysFacts AdjustFacts InsertKnots InsertFacts InsertThms EditSpec NearMap AdjustAny
  DoubleSpec DoubleRationalSpec DoubleFacts DoubleError DoubleKnots DoubleBasis DoubleSum DoubleEval DoubleThms DoubleRationalEval DoubleRationalThms
  DoubleMix DoubleMixRational DoubleInsert DoubleInsertThms DoubleInsertRational DoubleInsertRationalThms.
Import ListNotations.
Open Scope Z_scope.

(* ---- constants ---- *)
Definition nurbs_error (M m W : R) : R := (W / m * (M * / 2 ^ 44 + / 2 ^ 890))%R.

Lemma roundoff_scale k : (k <= 53)%nat -> (/ 2 ^ (53 - k) = 2 ^ k * roundoff)%R.
Proof. intros H. unfold roundoff. now rewrite pow2_inv_mul. Qed.

Section Caps.
Variables (M m W k : R).
Hypothesis HM : (0 <= M <= 2 ^ 498)%R.
Hypothesis Hm : (/ 2 ^ 99 <= m)%R.
Hypothesis HmW : (m <= W)%R.
Hypothesis HW : (W <= 2 ^ 99)%R.
Hypothesis Hk : (0 <= k)%R.
Hypothesis HkW : (k * W <= 2 ^ 40 * m)%R.
Let t := (/ 2 ^ 850)%R.
Let X := (2 * M + t)%R.
Let Y := (2 * W)%R.
Let z := (m / 2)%R.

Lemma cap_m : (0 < m)%R.
Proof. pose proof (inv_pow2_pos 99). lra. Qed.
Lemma cap_X : (0 <= X <= 2 ^ 500)%R.
Proof.
  unfold X, t. pose proof (inv_pow2_pos 850). pose proof (inv_pow2_le 850 0 ltac:(lia)). rewrite pow_O in *.
  split; [lra|]. replace (2 ^ 500)%R with (4 * 2 ^ 498)%R by ring. pose proof (pow2_ge1 498). lra.
Qed.
Lemma cap_Y : (0 <= Y <= 2 ^ 102)%R.
Proof. unfold Y. pose proof cap_m. replace (2 ^ 102)%R with (8 * 2 ^ 99)%R by ring. pose proof (pow2_ge1 99). lra. Qed.
Lemma cap_z : (/ 2 ^ 102 <= z)%R.
Proof.
  unfold z. rewrite (inv_pow2 102 99) by lia. change (102 - 99)%nat with 3%nat. replace (/ 2 ^ 3)%R with (/ 8)%R by (f_equal; ring). pose proof (inv_pow2_pos 99). lra.
Qed.
(* underflow against the smallest weight *)
Lemma cap_under : (underflow <= m * / 2 ^ 976)%R.
Proof.
  unfold underflow. rewrite (inv_pow2 1075 99) by lia. change (1075 - 99)%nat with 976%nat.
  apply Rmult_le_compat_r; [left; apply inv_pow2_pos | exact Hm].
Qed.
Lemma cap_mix : (mix_error Y <= W * / 2 ^ 48)%R.
Proof.
  unfold mix_error, Y. change 48%nat with (53 - 5)%nat. rewrite roundoff_scale by lia. replace (2 ^ 5)%R with 32%R by ring.
  pose proof cap_under as U. pose proof cap_m. assert (m * / 2 ^ 976 <= W * roundoff)%R.
  { apply Rmult_le_compat; [lra | left; apply inv_pow2_pos | exact HmW | unfold roundoff; apply inv_pow2_le; lia]. }
  lra.
Qed.
Lemma cap_few : (k * (W * / 2 ^ 48) <= m / 2)%R.
Proof.
  apply Rle_trans with (k * W * / 2 ^ 48)%R; [lra|]. apply Rle_trans with (2 ^ 40 * m * / 2 ^ 48)%R; [apply Rmult_le_compat_r; [left; apply inv_pow2_pos | exact HkW]|].
  replace (2 ^ 40 * m * / 2 ^ 48)%R with (m * (2 ^ 40 * / 2 ^ 48))%R by ring. rewrite pow2_inv_mul by lia.
  pose proof cap_m. pose proof (inv_pow2_le (48 - 40) 1 ltac:(lia)) as Q. rewrite pow_1 in Q. unfold Rdiv. apply Rmult_le_compat_l; lra.
Qed.
Lemma cap_grow : (grow X Y z <= nurbs_error M m W)%R.
Proof.
  unfold grow, nurbs_error. pose proof cap_m as m0. pose proof cap_under as U. pose proof underflow_pos as Up. pose proof roundoff_pos as Rp.
  pose proof cap_X as [X0 _].
  apply (Rmult_le_reg_r (m / 2)); [lra|]. unfold z. replace ((X * mix_error Y + hom_error X Y) / (m / 2) * (m / 2))%R with (X * mix_error Y + hom_error X Y)%R by (field; lra).
  replace (W / m * (M * / 2 ^ 44 + / 2 ^ 890) * (m / 2))%R with (W * (M * (/ 2 ^ 44 / 2)) + W * (/ 2 ^ 890 / 2))%R by (field; repeat split; try lra; apply pow_nonzero; lra).
  assert (E44 : (/ 2 ^ 44 / 2 = 256 * roundoff)%R).
  { change 44%nat with (53 - 9)%nat. rewrite roundoff_scale by lia. replace (2 ^ 9)%R with 512%R by ring. field. }
  rewrite E44. unfold mix_error, hom_error, Y.
  replace (X * (14 * roundoff * (2 * W) + 3 * underflow) + (20 * roundoff * (X * (2 * W)) + (8 + 2 * (2 * W)) * underflow))%R with
    (68 * (roundoff * (W * X)) + 3 * (X * underflow) + 8 * underflow + 4 * (W * underflow))%R by ring.
  (* everything in terms of W *)
  set (q := (/ 2 ^ 976)%R) in *. assert (q0 : (0 < q)%R) by apply inv_pow2_pos.
  assert (U1 : (underflow <= W * q)%R) by (eapply Rle_trans; [exact U | apply Rmult_le_compat_r; lra]).
  assert (W1 : (W * underflow <= W * q)%R).
  { apply Rmult_le_compat_l; [lra|]. unfold underflow, q. apply inv_pow2_le. lia. }
  assert (Q2 : (3 * q <= roundoff)%R).
  { unfold q. rewrite (inv_pow2 976 53) by lia. fold roundoff. pose proof (inv_pow2_le (976 - 53) 2 ltac:(lia)) as Q. replace (2 ^ 2)%R with 4%R in Q by ring.
    assert (roundoff * / 2 ^ (976 - 53) <= roundoff * / 4)%R by (apply Rmult_le_compat_l; lra). lra. }
  assert (X1 : (3 * (X * underflow) <= roundoff * (W * X))%R).
  { apply Rle_trans with (X * (W * (3 * q)))%R; [|rewrite (Rmult_comm roundoff), (Rmult_comm W X), Rmult_assoc; apply Rmult_le_compat_l; [exact X0 | apply Rmult_le_compat_l; lra]].
    replace (X * (W * (3 * q)))%R with (3 * (X * (W * q)))%R by ring. apply Rmult_le_compat_l; [lra|]. apply Rmult_le_compat_l; [exact X0 | exact U1]. }
  apply Rle_trans with (69 * (roundoff * (W * X)) + 12 * (W * q))%R; [lra|]. clear X1 W1 U1.
  replace (69 * (roundoff * (W * X)) + 12 * (W * q))%R with (W * (138 * (roundoff * M)) + W * (69 * (roundoff * t) + 12 * q))%R by (unfold X; ring).
  assert (0 <= W)%R by lra. apply Rplus_le_compat; apply Rmult_le_compat_l; auto.
  - rewrite (Rmult_comm M). rewrite <- !Rmult_assoc. apply Rmult_le_compat_r; [lra|]. lra.
  - assert (T1 : (roundoff * t = / 2 ^ 903)%R) by (unfold roundoff, t; rewrite <- Rinv_mult, pow2_mul; reflexivity).
    rewrite T1. unfold q. pose proof (inv_pow2_pos 890). rewrite (inv_pow2 903 890), (inv_pow2 976 890) by lia.
    change (903 - 890)%nat with 13%nat. change (976 - 890)%nat with 86%nat.
    assert (A : (/ 2 ^ 13 <= / 1000)%R) by (apply Rinv_le_contravar; lra). pose proof (inv_pow2_le 86 13 ltac:(lia)) as B.
    set (y := (/ 2 ^ 890)%R) in *. assert (y * / 2 ^ 13 <= y * / 1000)%R by (apply Rmult_le_compat_l; lra).
    assert (y * / 2 ^ 86 <= y * / 1000)%R by (apply Rmult_le_compat_l; lra). lra.
Qed.
Lemma cap_all : (k * nurbs_error M m W <= M + t)%R.
Proof.
  unfold nurbs_error. pose proof cap_m as m0.
  replace (k * (W / m * (M * / 2 ^ 44 + / 2 ^ 890)))%R with ((k * W) / m * (M * / 2 ^ 44 + / 2 ^ 890))%R by (field; repeat split; try lra; apply pow_nonzero; lra).
  assert (K : (0 <= k * W / m <= 2 ^ 40)%R).
  { split; [apply Rmult_le_pos; [apply Rmult_le_pos; lra | left; now apply Rinv_0_lt_compat]|].
    apply (Rmult_le_reg_r m); [exact m0|]. replace (k * W / m * m)%R with (k * W)%R by (field; lra). exact HkW. }
  assert (P44 : (0 <= M * / 2 ^ 44)%R) by (apply Rmult_le_pos; [lra | left; apply inv_pow2_pos]). pose proof (inv_pow2_pos 890).
  apply Rle_trans with (2 ^ 40 * (M * / 2 ^ 44 + / 2 ^ 890))%R; [apply Rmult_le_compat_r; lra|].
  rewrite Rmult_plus_distr_l. apply Rplus_le_compat.
  - replace (2 ^ 40 * (M * / 2 ^ 44))%R with (M * (2 ^ 40 * / 2 ^ 44))%R by ring. rewrite pow2_inv_mul by lia.
    pose proof (inv_pow2_le (44 - 40) 0 ltac:(lia)) as Q. rewrite pow_O in Q. rewrite <- (Rmult_1_r M) at 2. apply Rmult_le_compat_l; lra.
  - rewrite pow2_inv_mul by lia. unfold t. right. reflexivity.
Qed.
End Caps.

Lemma wbounded_le ph M m W M' m' W' : (M <= M')%R -> (m' <= m)%R -> (W <= W')%R -> wbounded ph M m W -> wbounded ph M' m' W'.
Proof.
  intros H1 H2 H3 (A & w & Ew & B). split.
  - unfold bounded in *. eapply Forall_impl; [|exact A]. intros x [F1 F2]. split; [exact F1 | lra].
  - exists w. split; [exact Ew|]. eapply Forall_impl; [|exact B]. intros x [F1 F2]. split; [exact F1 | lra].
Qed.

(* ---- sums of weights and weighted coordinates ---- *)
Lemma csum_const knots degs (ph : phys Fops) us : Forall2 double_direction knots degs -> g_phys_ok ph -> ph_npts ph = point_counts knots degs -> inside knots us ->
  (csum (map (map dval) knots) degs (fun _ => 1%R) us = 1)%R /\
  (forall idx, in_box (point_counts knots degs) idx -> (0 <= basis_product (map (map dval) knots) degs us idx)%R).
Proof.
  intros Hg Hp En Hu. pose proof (exact_wf knots degs ph Hg Hp En) as Hwf. set (s := exact_spline knots degs ph) in *.
  assert (Hdom : in_domain s us) by exact (inside_map _ _ Hu).
  pose proof (weight_function_bspline noz s us Hwf eq_refl Hdom) as W.
  assert (EN : npts_of s = point_counts (map (map dval) knots) degs) by (rewrite counts_map; exact En).
  split.
  - unfold csum. rewrite <- EN. exact W.
  - intros idx Hi. apply (products_nonneg s us idx Hwf Hdom). apply all_indices_box. rewrite EN, counts_map. exact Hi.
Qed.
Lemma csum_range knots degs (ph : phys Fops) us c a b : Forall2 double_direction knots degs -> g_phys_ok ph -> ph_npts ph = point_counts knots degs -> inside knots us ->
  (forall idx, in_box (point_counts knots degs) idx -> (a <= c idx <= b)%R) -> (a <= csum (map (map dval) knots) degs c us <= b)%R.
Proof.
  intros Hg Hp En Hu Hc. destruct (csum_const knots degs ph us Hg Hp En Hu) as [S1 S2]. unfold csum in *.
  apply (weighted_range (fun idx => basis_product (map (map dval) knots) degs us idx)).
  - rewrite <- S1. apply lsum_ext. intros. now rewrite Rmult_1_r.
  - intros idx Hi. apply all_indices_box in Hi. rewrite counts_map in Hi. split; auto.
Qed.
Lemma csum_abs knots degs (ph : phys Fops) us (w c : list Z -> R) M : Forall2 double_direction knots degs -> g_phys_ok ph -> ph_npts ph = point_counts knots degs -> inside knots us ->
  (forall idx, in_box (point_counts knots degs) idx -> (0 <= w idx /\ Rabs (c idx) <= M)%R) ->
  (Rabs (csum (map (map dval) knots) degs (fun idx => w idx * c idx)%R us) <= M * csum (map (map dval) knots) degs w us)%R.
Proof.
  intros Hg Hp En Hu Hc. destruct (csum_const knots degs ph us Hg Hp En Hu) as [_ S2]. unfold csum.
  eapply Rle_trans; [apply lsum_abs|]. rewrite <- lsum_scal. apply lsum_le. intros idx Hi. apply all_indices_box in Hi. rewrite counts_map in Hi.
  specialize (S2 idx Hi). destruct (Hc idx Hi) as [C1 C2]. rewrite !Rabs_mult, (Rabs_right _ (Rle_ge _ _ S2)), (Rabs_right _ (Rle_ge _ _ C1)).
  replace (M * (basis_product (map (map dval) knots) degs us idx * w idx))%R with (basis_product (map (map dval) knots) degs us idx * (w idx * M))%R by ring.
  apply Rmult_le_compat_l; [exact S2|]. apply Rmult_le_compat_l; auto.
Qed.

Lemma quotient_near N D N' D' M z a b : (0 < D)%R -> (0 < z)%R -> (z <= D')%R -> (0 <= M)%R -> (Rabs N <= M * D)%R -> (Rabs (N' - N) <= a)%R -> (Rabs (D' - D) <= b)%R ->
  (Rabs (N' / D' - N / D) <= (a + M * b) / z)%R.
Proof.
  intros D0 z0 D1 M0 HN Ha Hb. assert (D'0 : (0 < D')%R) by lra.
  replace (N' / D' - N / D)%R with (((N' - N) - N / D * (D' - D)) / D')%R by (field; lra).
  unfold Rdiv at 1. rewrite Rabs_mult, (Rabs_right (/ D')) by (left; now apply Rinv_0_lt_compat).
  assert (Q : (Rabs (N / D) <= M)%R).
  { unfold Rdiv. rewrite Rabs_mult, (Rabs_right (/ D)) by (left; now apply Rinv_0_lt_compat). apply (Rmult_le_reg_r D); [exact D0|].
    rewrite Rmult_assoc, Rinv_l by lra. lra. }
  apply Rmult_le_compat; [apply Rabs_pos | left; now apply Rinv_0_lt_compat | | now apply Rinv_le_contravar].
  unfold Rminus at 1. eapply Rle_trans; [apply Rabs_triang|]. rewrite Rabs_Ropp, Rabs_mult. apply Rplus_le_compat; [exact Ha|].
  apply Rmult_le_compat; auto using Rabs_pos.
Qed.

Lemma rational_csum knots degs (ph : phys Fops) (cps : list (list float)) (wts : list float) us c : g_phys_ok ph -> ph_npts ph = point_counts knots degs ->
  ph_cps ph = concat cps -> ph_wts ph = Some wts -> Forall (fun cp => zlen cp = ph_dim ph) cps -> zlen cps = total (ph_npts ph) -> 0 <= c < ph_dim ph ->
  exact_rational (map (map dval) knots) degs (map (map dval) cps) (map dval wts) us c =
  (csum (map (map dval) knots) degs (hom ph c) us / csum (map (map dval) knots) degs (wgt ph) us)%R.
Proof.
  intros Hp En Ec Ew Hd Hz Hc. unfold exact_rational, exact_weight, csum.
  assert (Wt : forall idx, In idx (all_indices (point_counts (map (map dval) knots) degs)) ->
    nth (Z.to_nat (position (point_counts (map (map dval) knots) degs) idx)) (map dval wts) 0%R = wgt ph idx).
  { intros idx Hi. apply all_indices_box in Hi. rewrite counts_map, <- En in *. pose proof (get1d_range _ _ Hi) as Hg.
    rewrite position_get1d. unfold wgt, g_pweight, g_wat. rewrite Ew. rewrite <- (proj2 zero_exact). apply map_nth. }
  f_equal.
  - apply lsum_ext. intros idx Hi. rewrite (Wt idx Hi). unfold hom, wgt. do 2 f_equal.
    apply all_indices_box in Hi. rewrite counts_map, <- En in *. pose proof (get1d_range _ _ Hi) as Hg.
    rewrite position_get1d. unfold g_pcoord, g_cpat. change (num Fops) with float in *. rewrite Ec, (fconcat_nth cps (ph_dim ph)) by (auto; lia).
    change (@nil R) with (map dval []). rewrite map_nth. rewrite <- (proj2 zero_exact). apply map_nth.
  - apply lsum_ext. intros idx Hi. now rewrite (Wt idx Hi).
Qed.

Lemma rows_new_w knots degs (ph : phys Fops) wts : Forall2 double_direction knots degs -> g_phys_ok ph -> ph_wts ph = Some wts ->
  ph_npts ph = point_counts knots degs -> total (ph_npts ph) < 2 ^ 64 ->
  spline_new (F := Fops) knots degs (rows ph) (Some wts) = Ok (mkSpline (F := Fops) (fmkps knots degs) ph).
Proof.
  intros Hg Hp Hw En Ht. pose proof Hp as (_ & H1 & _ & H3). specialize (H3 wts Hw). change (num Fops) with float in *.
  rewrite (fspline_new_w knots degs (rows ph) wts (ph_dim ph)); auto using rows_dim; rewrite ?rows_zlen by auto; try congruence; auto.
  rewrite rows_concat by auto. do 2 f_equal. destruct ph; cbn in *. congruence.
Qed.
Lemma phys_of_rows_w knots degs (cps : list (list float)) (wts : list float) dim M m W : Forall2 double_direction knots degs -> 1 <= dim ->
  Forall (fun cp => zlen cp = dim) cps -> zlen cps = total (point_counts knots degs) -> zlen wts = zlen cps ->
  Forall (Forall (fun x => finite x /\ (Rabs (dval x) <= M)%R)) cps -> Forall (fun x => finite x /\ (m <= dval x <= W)%R) wts ->
  let ph := mkPhys (F := Fops) dim (point_counts knots degs) (concat cps) (Some wts) in g_phys_ok ph /\ wbounded ph M m W.
Proof.
  intros Hg Hd Hr Hz Hw Hb Hwt. cbv zeta. destruct (phys_of_rows knots degs cps dim M Hg Hd Hr Hz Hb) as [(P1 & P2 & P3 & _) Q]. split.
  - split; [exact P1|]. split; [exact P2|]. split; [exact P3|]. cbn [ph_wts]. intros w E. injection E as <-. cbn [ph_npts]. change (num Fops) with float. lia.
  - split; [exact Q|]. exists wts. split; [reflexivity | exact Hwt].
Qed.

(* what both theorems conclude, for k insertions *)
Definition inserted (knots : list (list float)) degs d p (cps : list (list float)) (wts : list float) dim M m W (k : Z) kv' cps' wts' (s' : spline Fops) : Prop :=
  spline_new (F := Fops) (upd knots d kv') degs cps' (Some wts') = Ok s' /\ double_direction kv' p /\
  zlen cps' = total (point_counts (upd knots d kv') degs) /\ zlen wts' = zlen cps' /\ Forall (fun cp => zlen cp = dim) cps' /\
  Forall (fun w => finite w /\ (m - IZR k * (W * / 2 ^ 48) <= dval w <= W + IZR k * (W * / 2 ^ 48))%R) wts' /\
  Forall (Forall (fun x => finite x /\ (Rabs (dval x) <= M + IZR k * nurbs_error M m W)%R)) cps' /\
  forall us c, inside knots us -> 0 <= c < dim ->
    (Rabs (exact_rational (map (map dval) (upd knots d kv')) degs (map (map dval) cps') (map dval wts') us c -
           exact_rational (map (map dval) knots) degs (map (map dval) cps) (map dval wts) us c) <= IZR k * nurbs_error M m W)%R.

Lemma close_rational knots degs d kv kv' p (cps : list (list float)) (wts : list float) dim M m W k (ph' : phys Fops) :
  let ph := mkPhys (F := Fops) dim (point_counts knots degs) (concat cps) (Some wts) in
  let X := (2 * M + / 2 ^ 850)%R in let Y := (2 * W)%R in let z := (m / 2)%R in
  Forall2 double_direction knots degs -> nth_error knots d = Some kv -> nth_error degs d = Some p -> double_direction kv' p ->
  first_knot (map dval kv') = first_knot (map dval kv) -> final_knot (map dval kv') = final_knot (map dval kv) ->
  1 <= dim -> Forall (fun cp => zlen cp = dim) cps -> zlen cps = total (point_counts knots degs) -> zlen wts = zlen cps ->
  (0 <= M <= 2 ^ 498)%R -> (/ 2 ^ 99 <= m)%R -> (m <= W)%R -> (W <= 2 ^ 99)%R -> 0 <= k -> (IZR k * W <= 2 ^ 40 * m)%R ->
  total (point_counts (upd knots d kv') degs) < 2 ^ 64 ->
  g_phys_ok ph -> wbounded ph M m W ->
  ph_dim ph' = dim -> ph_npts ph' = point_counts (upd knots d kv') degs -> g_phys_ok ph' ->
  wbounded ph' (M + IZR k * grow X Y z) (m - IZR k * mix_error Y) (W + IZR k * mix_error Y) ->
  (forall us, inside knots us ->
      (Rabs (csum (map (map dval) (upd knots d kv')) degs (wgt ph') us - csum (map (map dval) knots) degs (wgt ph) us) <= IZR k * mix_error Y)%R /\
      forall c, 0 <= c < dim ->
        (Rabs (csum (map (map dval) (upd knots d kv')) degs (hom ph' c) us - csum (map (map dval) knots) degs (hom ph c) us) <= IZR k * hom_error X Y)%R) ->
  exists cps' wts', inserted knots degs d p cps wts dim M m W k kv' cps' wts' (mkSpline (F := Fops) (fmkps (upd knots d kv') degs) ph').
Proof.
  intros ph X Y z Hg Ek Ed Dk A1 A2 Hd Hrow Hn Hw HM Hm HmW HW Hk HkW Ht Hph Hb D1 D2 D3 D5 D6.
  assert (K0 : (0 <= IZR k)%R) by (now apply IZR_le).
  assert (Hg' : Forall2 double_direction (upd knots d kv') degs).
  { apply Forall2_upd; auto. intros q Eq. replace q with p by congruence. exact Dk. }
  pose proof (cap_m m Hm) as m0. pose proof (cap_grow M m W HM Hm HmW) as CG. pose proof (cap_mix m W Hm HmW) as CM.
  pose proof (cap_few m W (IZR k) Hm HkW) as CF. fold X Y z in CG. fold Y in CM.
  assert (KG : (IZR k * grow X Y z <= IZR k * nurbs_error M m W)%R) by (apply Rmult_le_compat_l; lra).
  assert (KM : (IZR k * mix_error Y <= IZR k * (W * / 2 ^ 48))%R) by (apply Rmult_le_compat_l; lra).
  assert (E0 : (0 <= mix_error Y)%R) by (apply mix_error_nonneg; unfold Y; lra).
  pose proof D5 as D5'. apply (wbounded_le _ _ _ _ (M + IZR k * nurbs_error M m W) (m - IZR k * (W * / 2 ^ 48)) (W + IZR k * (W * / 2 ^ 48))) in D5'; try lra.
  destruct D5' as (B1 & w' & Ew' & B2). exists (rows ph'), w'. unfold inserted.
  assert (Zw' : zlen w' = zlen (rows ph')).
  { rewrite rows_zlen by auto. destruct D3 as (_ & _ & _ & Q). specialize (Q w' Ew'). change (num Fops) with float in Q. exact Q. }
  assert (Hdim' : 1 <= ph_dim ph') by lia.
  split; [apply rows_new_w; auto; now rewrite D2|]. split; [exact Dk|]. split; [rewrite rows_zlen, D2 by auto; reflexivity|]. split; [exact Zw'|].
  split; [rewrite <- D1; now apply rows_dim|]. split; [exact B2|]. split; [now apply rows_bounded|].
  intros us c Hus Hc. destruct (D6 us Hus) as [S1 S2]. specialize (S2 c Hc).
  rewrite (rational_csum knots degs ph cps wts us c) by (auto; reflexivity).
  rewrite (rational_csum (upd knots d kv') degs ph' (rows ph') w' us c);
    [ | exact D3 | exact D2 | symmetry; now apply rows_concat | exact Ew' | now apply rows_dim | now apply rows_zlen | now rewrite D1].
  pose proof (inside_upd _ _ _ _ _ Ek A1 A2 Hus) as Hus'.
  assert (R1 : (m <= csum (map (map dval) knots) degs (wgt ph) us <= W)%R).
  { apply (csum_range knots degs ph); auto. intros idx Hi. unfold wgt, g_pweight. destruct Hph as (Hpl & Hs).
    apply (wbounded_at ph M m W _ _ Hs Hb). now apply get1d_range. }
  assert (R2 : (z <= csum (map (map dval) (upd knots d kv')) degs (wgt ph') us)%R).
  { apply Rle_trans with (m - IZR k * mix_error Y)%R; [unfold z; lra|]. eapply (csum_range (upd knots d kv') degs ph'); auto. intros idx Hi. unfold wgt, g_pweight.
    destruct D3 as (Hpl & Hs). apply (wbounded_at ph' _ _ _ _ _ Hs D5). apply get1d_range. now rewrite D2. }
  assert (R3 : (Rabs (csum (map (map dval) knots) degs (hom ph c) us) <= M * csum (map (map dval) knots) degs (wgt ph) us)%R).
  { apply (csum_abs knots degs ph us (wgt ph) (fun idx => dval (g_pcoord ph idx c))); auto. intros idx Hi. destruct Hph as (Hpl & Hs).
    assert (Q : 0 <= get1d (ph_npts ph) idx < total (ph_npts ph)) by (now apply get1d_range).
    split; [unfold wgt, g_pweight; pose proof (wbounded_at ph M m W _ _ Hs Hb Q); lra|].
    apply (bounded_at ph M _ c _ Hs (proj1 Hb) Q Hc). }
  eapply Rle_trans; [apply (quotient_near _ _ _ _ M z (IZR k * hom_error X Y) (IZR k * mix_error Y)); auto; unfold z; lra|].
  eapply Rle_trans; [|exact KG]. unfold grow, Rdiv. rewrite <- (Rmult_assoc (IZR k) (X * mix_error Y + hom_error X Y)). apply Rmult_le_compat_r; [left; apply Rinv_0_lt_compat; unfold z; lra|].
  assert (M * (IZR k * mix_error Y) <= X * (IZR k * mix_error Y))%R.
  { apply Rmult_le_compat_r; [apply Rmult_le_pos; lra|]. unfold X. pose proof (inv_pow2_pos 850). lra. }
  lra.
Qed.

Lemma nurbs_insert : forall (knots : list (list float)) degs (cps : list (list float)) (wts : list float) d kv p (u : float) r dim M m W,
  Forall2 double_direction knots degs -> nth_error knots d = Some kv -> nth_error degs d = Some p ->
  finite u -> insertable (map dval kv) p (dval u) r -> 0 <= r -> zlen kv < 2 ^ 31 ->
  1 <= dim -> Forall (fun cp => zlen cp = dim) cps -> zlen cps = total (point_counts knots degs) -> zlen wts = zlen cps -> zlen cps * (1 + r) < 2 ^ 64 ->
  Forall (Forall (fun x => finite x /\ (Rabs (dval x) <= M)%R)) cps -> (M <= 2 ^ 498)%R ->
  Forall (fun w => finite w /\ (m <= dval w <= W)%R) wts -> (/ 2 ^ 99 <= m)%R -> (W <= 2 ^ 99)%R -> (IZR r * W <= 2 ^ 40 * m)%R ->
  exists s s' kv' cps' wts', spline_new (F := Fops) knots degs cps (Some wts) = Ok s /\ insert_knot s u d r = Ok s' /\
    Permutation kv' (repeat u (Z.to_nat r) ++ kv) /\
    first_knot (map dval kv') = first_knot (map dval kv) /\ final_knot (map dval kv') = final_knot (map dval kv) /\
    inserted knots degs d p cps wts dim M m W r kv' cps' wts' s'.
Proof.
  intros knots degs cps wts d kv p u r dim M m W Hg Ek Ed Fu Hins Hr Hz Hd Hrow Hn Hw Hb Hv HM Hwt Hm HW HkW.
  destruct (phys_of_rows_w knots degs cps wts dim M m W Hg Hd Hrow Hn Hw Hv Hwt) as [Hph Hbd].
  set (ph := mkPhys (F := Fops) dim (point_counts knots degs) (concat cps) (Some wts)) in *.
  pose proof (ins_M ph M Hph (proj1 Hbd)) as M0. assert (K0 : (0 <= IZR r)%R) by (now apply IZR_le).
  assert (mW : (m <= W)%R).
  { destruct Hph as (Hpl & Hs). pose proof (total_pos _ Hpl). pose proof (wbounded_at ph M m W 0 _ Hs Hbd ltac:(lia)). lra. }
  pose proof (cap_m m Hm) as m0. pose proof (cap_grow M m W (conj M0 HM) Hm mW) as CG. pose proof (cap_mix m W Hm mW) as CM.
  pose proof (cap_few m W (IZR r) Hm HkW) as CF. pose proof (cap_all M m W (IZR r) (conj M0 HM) Hm mW K0 HkW) as CA.
  pose proof (cap_X M (conj M0 HM)) as CX. pose proof (cap_Y m W Hm mW HW) as CY. pose proof (cap_z m Hm) as Cz.
  set (X := (2 * M + / 2 ^ 850)%R) in *. set (Y := (2 * W)%R) in *. set (z := (m / 2)%R) in *.
  assert (KG : (IZR r * grow X Y z <= IZR r * nurbs_error M m W)%R) by (apply Rmult_le_compat_l; lra).
  assert (KM : (IZR r * mix_error Y <= IZR r * (W * / 2 ^ 48))%R) by (apply Rmult_le_compat_l; lra).
  destruct (r_insert_phys knots degs d kv p u r ph M m W X Y z Hg Ek Ed Fu Hins Hr Hz Hph eq_refl Hbd CX CY Cz) as (kv' & ph' & E & Pm & Dk & A1 & A2 & D1 & D2 & D3 & D5 & D6).
  { unfold X at 2. lra. } { unfold Y at 2. lra. } { unfold z. lra. }
  assert (Lk : zlen kv' = zlen kv + r).
  { apply Permutation_length in Pm. rewrite app_length, repeat_length in Pm. unfold zlen. lia. }
  pose proof (counts_grow knots degs d kv kv' p Ek Ed Hg ltac:(lia)) as Ct. rewrite Lk in Ct. replace (zlen kv + r - zlen kv) with r in Ct by lia.
  assert (H0 : 0 <= zlen cps) by (unfold zlen; lia).
  destruct (close_rational knots degs d kv kv' p cps wts dim M m W r ph' Hg Ek Ed Dk A1 A2 Hd Hrow Hn Hw (conj M0 HM) Hm mW HW Hr HkW) as (cps' & wts' & I); auto.
  { nia. }
  exists (mkSpline (F := Fops) (fmkps knots degs) ph), (mkSpline (F := Fops) (fmkps (upd knots d kv') degs) ph'), kv', cps', wts'.
  split; [apply fspline_new_w; auto; nia|]. split; [exact E|]. split; [exact Pm|]. split; [exact A1|]. split; [exact A2|]. exact I.
Qed.

Lemma nurbs_refine : forall (knots : list (list float)) degs (cps : list (list float)) (wts : list float) d kv p (new : list float) dim M m W,
  Forall2 double_direction knots degs -> nth_error knots d = Some kv -> nth_error degs d = Some p ->
  Forall finite new -> all_insertable (map dval kv) p (map dval new) -> zlen kv + zlen new <= 2 ^ 31 ->
  1 <= dim -> Forall (fun cp => zlen cp = dim) cps -> zlen cps = total (point_counts knots degs) -> zlen wts = zlen cps -> zlen cps * (1 + zlen new) < 2 ^ 64 ->
  Forall (Forall (fun x => finite x /\ (Rabs (dval x) <= M)%R)) cps -> (M <= 2 ^ 498)%R ->
  Forall (fun w => finite w /\ (m <= dval w <= W)%R) wts -> (/ 2 ^ 99 <= m)%R -> (W <= 2 ^ 99)%R -> (IZR (zlen new) * W <= 2 ^ 40 * m)%R ->
  exists s s' kv' cps' wts', spline_new (F := Fops) knots degs cps (Some wts) = Ok s /\ refine_knots s new d = Ok s' /\
    Permutation kv' (new ++ kv) /\
    first_knot (map dval kv') = first_knot (map dval kv) /\ final_knot (map dval kv') = final_knot (map dval kv) /\
    inserted knots degs d p cps wts dim M m W (zlen new) kv' cps' wts' s'.
Proof.
  intros knots degs cps wts d kv p new dim M m W Hg Ek Ed Hf Hall Hz Hd Hrow Hn Hw Hb Hv HM Hwt Hm HW HkW.
  destruct (phys_of_rows_w knots degs cps wts dim M m W Hg Hd Hrow Hn Hw Hv Hwt) as [Hph Hbd].
  set (ph := mkPhys (F := Fops) dim (point_counts knots degs) (concat cps) (Some wts)) in *.
  pose proof (ins_M ph M Hph (proj1 Hbd)) as M0. assert (Hr : 0 <= zlen new) by (unfold zlen; lia). assert (K0 : (0 <= IZR (zlen new))%R) by (now apply IZR_le).
  assert (mW : (m <= W)%R).
  { destruct Hph as (Hpl & Hs). pose proof (total_pos _ Hpl). pose proof (wbounded_at ph M m W 0 _ Hs Hbd ltac:(lia)). lra. }
  pose proof (cap_m m Hm) as m0. pose proof (cap_grow M m W (conj M0 HM) Hm mW) as CG. pose proof (cap_mix m W Hm mW) as CM.
  pose proof (cap_few m W (IZR (zlen new)) Hm HkW) as CF. pose proof (cap_all M m W (IZR (zlen new)) (conj M0 HM) Hm mW K0 HkW) as CA.
  pose proof (cap_X M (conj M0 HM)) as CX. pose proof (cap_Y m W Hm mW HW) as CY. pose proof (cap_z m Hm) as Cz.
  set (X := (2 * M + / 2 ^ 850)%R) in *. set (Y := (2 * W)%R) in *. set (z := (m / 2)%R) in *.
  assert (KG : (IZR (zlen new) * grow X Y z <= IZR (zlen new) * nurbs_error M m W)%R) by (apply Rmult_le_compat_l; lra).
  assert (KM : (IZR (zlen new) * mix_error Y <= IZR (zlen new) * (W * / 2 ^ 48))%R) by (apply Rmult_le_compat_l; lra).
  destruct (r_refine_phys degs d p X Y z CX CY Cz Ed new knots kv ph M m W Hg Ek Hf Hall Hz Hph eq_refl Hbd) as (kv' & ph' & E & Pm & Dk & A1 & A2 & D1 & D2 & D3 & D5 & D6).
  { unfold X at 2. lra. } { unfold Y at 2. lra. } { unfold z. lra. }
  assert (Lk : zlen kv' = zlen kv + zlen new).
  { apply Permutation_length in Pm. rewrite app_length in Pm. unfold zlen. lia. }
  pose proof (counts_grow knots degs d kv kv' p Ek Ed Hg ltac:(lia)) as Ct. rewrite Lk in Ct. replace (zlen kv + zlen new - zlen kv) with (zlen new) in Ct by lia.
  assert (H0 : 0 <= zlen cps) by (unfold zlen; lia).
  destruct (close_rational knots degs d kv kv' p cps wts dim M m W (zlen new) ph' Hg Ek Ed Dk A1 A2 Hd Hrow Hn Hw (conj M0 HM) Hm mW HW Hr HkW) as (cps' & wts' & I); auto.
  { nia. }
  exists (mkSpline (F := Fops) (fmkps knots degs) ph), (mkSpline (F := Fops) (fmkps (upd knots d kv') degs) ph'), kv', cps', wts'.
  split; [apply fspline_new_w; auto; nia|]. split; [exact E|]. split; [exact Pm|]. split; [exact A1|]. split; [exact A2|]. exact I.
Qed.

(* ---- evaluating the result ---- *)
Lemma nurbs_insert_evaluate : forall (knots : list (list float)) degs (cps : list (list float)) (wts : list float) d kv p (u : float) r (us : list float) dim dims M m W,
  Forall2 double_direction knots degs -> nth_error knots d = Some kv -> nth_error degs d = Some p ->
  finite u -> insertable (map dval kv) p (dval u) r -> 0 <= r -> zlen kv < 2 ^ 31 ->
  1 <= dim -> Forall (fun cp => zlen cp = dim) cps -> zlen cps = total (point_counts knots degs) -> zlen wts = zlen cps -> zlen cps * (1 + r) < 2 ^ 64 ->
  Forall (Forall (fun x => finite x /\ (Rabs (dval x) <= M)%R)) cps -> (M <= 2 ^ 498)%R ->
  Forall (fun w => finite w /\ (m <= dval w <= W)%R) wts -> (/ 2 ^ 99 <= m)%R -> (W <= 2 ^ 99)%R -> (IZR r * W <= 2 ^ 40 * m)%R ->
  Forall2 double_parameter knots us -> Forall (fun c => 0 <= c < dim) dims ->
  3 * (degree_cost degs + summands degs) + 7 <= 2 ^ 50 -> depth degs <= 200 ->
  exists s s' vs, spline_new (F := Fops) knots degs cps (Some wts) = Ok s /\ insert_knot s u d r = Ok s' /\ evaluate s' us dims = Ok vs /\
    let e := (IZR r * (W / m * (M * / 2 ^ 44 + / 2 ^ 890)))%R in
    Forall2 (fun c v => finite v /\
      (Rabs (dval v - exact_rational (map (map dval) knots) degs (map (map dval) cps) (map dval wts) (map dval us) c) <=
        IZR (3 * (degree_cost degs + summands degs) + 7) * / 2 ^ 52 * (M + e) +
        2 * IZR (summands degs) * (2 ^ 202 * 4 ^ Z.to_nat (depth degs) * (M + e) + 2 ^ 104) * underflow + e)%R) dims vs.
Proof.
  intros knots degs cps wts d kv p u r us dim dims M m W Hg Ek Ed Fu Hins Hr Hz Hd Hrow Hn Hw Hb Hv HM Hwt Hm HW HkW Hus Hdims Hc1 Hc2.
  destruct (nurbs_insert knots degs cps wts d kv p u r dim M m W Hg Ek Ed Fu Hins Hr Hz Hd Hrow Hn Hw Hb Hv HM Hwt Hm HW HkW)
    as (s & s' & kv' & cps' & wts' & E1 & E2 & Pm & A1 & A2 & E3 & Dk & Z' & Zw & R' & B1 & B2 & V).
  destruct (phys_of_rows_w knots degs cps wts dim M m W Hg Hd Hrow Hn Hw Hv Hwt) as [Hph Hbd].
  set (ph := mkPhys (F := Fops) dim (point_counts knots degs) (concat cps) (Some wts)) in *.
  pose proof (ins_M ph M Hph (proj1 Hbd)) as M0. assert (K0 : (0 <= IZR r)%R) by (now apply IZR_le).
  assert (mW : (m <= W)%R).
  { destruct Hph as (Hpl & Hs). pose proof (total_pos _ Hpl). pose proof (wbounded_at ph M m W 0 _ Hs Hbd ltac:(lia)). lra. }
  pose proof (cap_m m Hm) as m0. pose proof (cap_few m W (IZR r) Hm HkW) as CF. pose proof (cap_all M m W (IZR r) (conj M0 HM) Hm mW K0 HkW) as CA.
  pose proof (cap_X M (conj M0 HM)) as CX.
  cbv zeta. change (W / m * (M * / 2 ^ 44 + / 2 ^ 890))%R with (nurbs_error M m W). set (e := (IZR r * nurbs_error M m W)%R) in *.
  assert (Hg' : Forall2 double_direction (upd knots d kv') degs).
  { apply Forall2_upd; auto. intros q Eq. replace q with p by congruence. exact Dk. }
  assert (Lk : zlen kv' = zlen kv + r).
  { apply Permutation_length in Pm. rewrite app_length, repeat_length in Pm. unfold zlen. lia. }
  pose proof (counts_grow knots degs d kv kv' p Ek Ed Hg ltac:(lia)) as Ct. rewrite Lk in Ct. replace (zlen kv + r - zlen kv) with r in Ct by lia.
  assert (H0 : 0 <= zlen cps) by (unfold zlen; lia).
  assert (Hz' : zlen cps' < 2 ^ 64) by (rewrite Z'; rewrite Hn in Hb; nia).
  assert (Us' : Forall2 double_parameter (upd knots d kv') us).
  { clear - Hus Ek A1 A2. revert d Ek. induction Hus as [|k v ks vs Hv H IH]; intros [|d] Ek; cbn in *; try discriminate; constructor; auto.
    injection Ek as ->. unfold double_parameter in *. rewrite A1, A2. exact Hv. }
  assert (HM' : (M + e <= 2 ^ 500)%R) by lra.
  assert (Bm : Forall (Forall moderate) cps').
  { eapply Forall_impl; [|exact B2]. intros l Hl. eapply Forall_impl; [|exact Hl]. intros x [X1 X2]. split; [exact X1 | lra]. }
  assert (Bb : Forall (Forall (fun x => Rabs (dval x) <= M + e)%R) cps').
  { eapply Forall_impl; [|exact B2]. intros l Hl. eapply Forall_impl; [|exact Hl]. intros x [_ X2]. exact X2. }
  assert (Bw : Forall double_weight wts').
  { eapply Forall_impl; [|exact B1]. intros x [X1 X2]. split; [exact X1|]. replace (2 ^ 100)%R with (2 * 2 ^ 99)%R by ring.
    rewrite Rinv_mult. lra. }
  destruct (double_rational (upd knots d kv') degs cps' wts' us dim dims (M + e) Hg' Us' R' Z' Hz' Zw Bw Hdims Bm Bb HM' Hc1 Hc2) as (s2 & vs & E4 & E5 & Q).
  pose proof (eq_trans (eq_sym E3) E4) as E6. injection E6 as <-. exists s, s', vs. split; [exact E1|]. split; [exact E2|]. split; [exact E5|].
  assert (Din : forall c, In c dims -> 0 <= c < dim) by (now apply Forall_forall).
  assert (Dom : inside knots (map dval us)).
  { clear - Hus. induction Hus as [|k v ks vs [_ Hv] _ IH]; cbn [map]; constructor; auto. }
  clear - Q Din Dom V. induction Q as [|c v dims vs [V1 V2] _ IH]; constructor.
  - split; [exact V1|]. specialize (V (map dval us) c Dom (Din c (or_introl eq_refl))). fold e in V.
    match type of V2 with (_ <= ?x)%R => set (b := x) in * end.
    clearbody b e. apply Rabs_between in V2. apply Rabs_between in V. clear - V2 V. apply Rabs_le. lra.
  - apply IH. intros; apply Din. now right.
Qed.
