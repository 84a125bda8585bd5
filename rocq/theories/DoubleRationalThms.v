(* The error of NURBS evaluation in doubles. *)
From Coq Require Import ZArith List Bool Lia Reals Floats Lra Psatz.
From Verif Require Import Base BaseFacts RSum MultiIndex MultiIndexSpec MultiIndexFacts TensorSum
  KnotVec KnotVecSpec KnotVecFacts Basis BasisSpec BSplineTheory BasisFacts
  Spaces SpacesSpec SpacesFacts SplineEval SplineSpec EvalFacts RationalDeriv EvalDeriv EvalThms SplineNew
  DoubleSpec DoubleFacts DoubleError DoubleKnots DoubleBasis DoubleSum DoubleEval DoubleThms
  DoubleRationalSpec DoubleRational DoubleRationalEval.
Import ListNotations.
Open Scope Z_scope.

Lemma fweight_in npts (wts : list float) idx : zlen wts = total npts -> in_box npts idx -> In (fweight npts wts idx) wts.
Proof. intros Hw Hb. pose proof (position_range _ _ Hb). unfold fweight. apply nth_In. unfold zlen in Hw. lia. Qed.

Lemma weighted_range {I} (N w : I -> R) l a b : lsum N l = 1%R -> (forall i, In i l -> (0 <= N i /\ a <= w i <= b)%R) ->
  (a <= lsum (fun i => N i * w i) l <= b)%R.
Proof.
  intros HN H. assert (K : (a * lsum N l <= lsum (fun i => N i * w i) l <= b * lsum N l)%R); [|rewrite HN in K; lra].
  clear HN. induction l as [|i l IH]; cbn [lsum]; [lra|]. destruct (H i (or_introl eq_refl)) as (A & B & C).
  destruct IH as [D E]; [intros; apply H; now right|]. nra.
Qed.

Lemma slack_small W : (W <= 200)%nat -> (slack4 W <= / 2 ^ 675)%R.
Proof.
  intros H. unfold slack4, underflow. replace 4%R with (2 ^ 2)%R by ring. rewrite <- pow_mult.
  apply (Rmult_le_reg_r (2 ^ 1075)); [apply pow_lt; lra|]. rewrite Rmult_assoc, Rinv_l by (apply pow_nonzero; lra).
  replace 1075%nat with (675 + 400)%nat by lia. rewrite (pow_add 2 675 400), <- Rmult_assoc, Rinv_l, Rmult_1_l, Rmult_1_r by (apply pow_nonzero; lra).
  apply pow2_le. lia.
Qed.
Lemma inv_pow2 m n : (n <= m)%nat -> (/ 2 ^ m = / 2 ^ n * / 2 ^ (m - n))%R.
Proof. intros H. rewrite <- Rinv_mult, <- pow_add. do 2 f_equal. lia. Qed.
Lemma inv_pow2_le m n : (n <= m)%nat -> (/ 2 ^ m <= / 2 ^ n)%R.
Proof. intros H. apply Rinv_le_contravar; [apply pow_lt; lra | now apply pow2_le]. Qed.
Lemma inv_pow2_pos n : (0 < / 2 ^ n)%R.
Proof. apply Rinv_0_lt_compat, pow_lt. lra. Qed.
Lemma pow2_inv_mul m n : (m <= n)%nat -> (2 ^ m * / 2 ^ n = / 2 ^ (n - m))%R.
Proof. intros H. rewrite (inv_pow2 n m H), <- Rmult_assoc, Rinv_r, Rmult_1_l; [reflexivity | apply pow_nonzero; lra]. Qed.

Lemma double_rational knots degs cps wts us dim dims M :
  Forall2 double_direction knots degs -> Forall2 double_parameter knots us ->
  Forall (fun cp => zlen cp = dim) cps -> zlen cps = total (point_counts knots degs) -> zlen cps < 2 ^ 64 ->
  zlen wts = zlen cps -> Forall double_weight wts -> Forall (fun c => 0 <= c < dim) dims ->
  Forall (Forall moderate) cps -> Forall (Forall (fun x => Rabs (dval x) <= M)%R) cps -> (M <= 2 ^ 500)%R ->
  3 * (degree_cost degs + summands degs) + 7 <= 2 ^ 50 -> depth degs <= 200 ->
  exists s vs, spline_new (F := Fops) knots degs cps (Some wts) = Ok s /\ evaluate s us dims = Ok vs /\
    Forall2 (fun c v => finite v /\
      (Rabs (dval v - exact_rational (map (map dval) knots) degs (map (map dval) cps) (map dval wts) (map dval us) c) <=
        IZR (3 * (degree_cost degs + summands degs) + 7) * / 2 ^ 52 * M +
        2 * IZR (summands degs) * (2 ^ 202 * 4 ^ Z.to_nat (depth degs) * M + 2 ^ 104) * underflow)%R) dims vs.
Proof.
  intros Hk Hu Hc Hn Hb Hw Hwt Hdims Hm HM HM5 Hcost Hdepth.
  destruct (fdirections noz knots degs us Hk Hu) as (L & HL & -> & -> & ->).
  eexists. eexists. split; [apply (fspline_new_w _ _ cps wts dim); auto|].
  split; [apply (feval_w L cps wts dim HL Hc Hn ltac:(lia) dims Hdims)|].
  set (npts := point_counts (map fk L) (map fp L)) in *. set (sh := map (fun d => fsp d - fp d)%Z L).
  set (vis := visited (map (fun q => q + 1) (map fp L))).
  assert (Evl : Z.of_nat (length vis) = summands (map fp L)).
  { unfold vis, visited. rewrite map_length, seq_length, <- summands_total. pose proof (summands_pos L noz HL). lia. }
  pose proof (cost_dcost L noz HL) as Ecost. pose proof (depth_ddepth L noz HL) as Edepth. pose proof (summands_pos L noz HL) as Npos.
  pose proof roundoff_pos as Rp. pose proof underflow_pos as Up. pose proof phi_gt as Pg. pose proof phi_small_const as Pc. pose proof phi_ge1 as Pg1.
  set (n := length vis) in *. set (D := dcost L) in *. set (W := (1 + ddepth L)%nat) in *.
  set (N := fun cur => prodf (map dfactor (map ex L)) (map2 Z.add cur sh)).
  set (wf := fun cur => fweight npts wts (map2 Z.add cur sh)).
  assert (PS : lsum N vis = 1%R) by exact (prod_sum L HL).
  assert (Hact : forall cur, In cur vis -> factive L (map2 Z.add cur sh) /\ in_box npts (map2 Z.add cur sh)).
  { intros cur Hcur. exact (fvisited noz L cur HL Hcur). }
  assert (HN : forall cur, In cur vis -> (0 <= N cur <= 1)%R).
  { intros cur Hcur. apply (prodf_unit noz L _ HL). now apply Hact. }
  assert (HWf : forall cur, In cur vis -> double_weight (wf cur)).
  { intros cur Hcur. rewrite Forall_forall in Hwt. apply Hwt. apply fweight_in; [lia | now apply Hact]. }
  set (Ws := lsum (fun cur => N cur * dval (wf cur))%R vis).
  assert (WsR : (/ 2 ^ 100 <= Ws <= 2 ^ 100)%R).
  { apply weighted_range; auto. intros cur Hcur. split; [now apply HN|]. apply (HWf cur Hcur). }
  pose proof (inv_pow2_pos 100) as I100. assert (Ws0 : (0 < Ws)%R) by lra.
  assert (Ew : exact_weight (map (map dval) (map fk L)) (map fp L) (map dval wts) (map dval (map fu L)) = Ws).
  { unfold exact_weight. rewrite point_counts_map. fold npts.
    etransitivity; [exact (sum_visited L (fun idx => nth (Z.to_nat (position npts idx)) (map dval wts) 0%R) HL)|]. fold sh vis.
    apply lsum_ext. intros cur _. unfold N, wf, fweight. f_equal. rewrite <- (proj2 zero_exact). apply (map_nth dval). }
  assert (Ex : forall c, exact_rational (map (map dval) (map fk L)) (map fp L) (map (map dval) cps) (map dval wts) (map dval (map fu L)) c =
     lsum (fun cur => N cur * dval (wf cur) / Ws * dval (fcoord npts cps (map2 Z.add cur sh) c))%R vis).
  { intros c. unfold exact_rational. rewrite Ew, point_counts_map. fold npts.
    assert (E0 := sum_visited L (fun idx => nth (Z.to_nat (position npts idx)) (map dval wts) 0%R *
       nth (Z.to_nat c) (nth (Z.to_nat (position npts idx)) (map (map dval) cps) []) 0%R)%R HL). fold npts sh vis in E0. rewrite E0. clear E0.
    unfold Rdiv at 1. rewrite Rmult_comm, <- lsum_scal. apply lsum_ext. intros cur _.
    assert (E1 : nth (Z.to_nat (position npts (map2 Z.add cur sh))) (map dval wts) 0%R = dval (wf cur)).
    { unfold wf, fweight. rewrite <- (proj2 zero_exact). apply (map_nth dval). }
    assert (E2 : nth (Z.to_nat c) (nth (Z.to_nat (position npts (map2 Z.add cur sh))) (map (map dval) cps) []) 0%R =
       dval (fcoord npts cps (map2 Z.add cur sh) c)).
    { unfold fcoord. rewrite <- (proj2 zero_exact). rewrite <- (map_nth dval). f_equal. exact (map_nth (map dval) cps [] _). }
    rewrite E1, E2. unfold N. field. lra. }
  assert (Small : (INR (3 * (D + n) + 7) * roundoff <= / 4)%R).
  { assert (INR (3 * (D + n) + 7) <= 2 ^ 50)%R.
    { rewrite INR_IZR_INZ. replace (2 ^ 50)%R with (IZR (2 ^ 50)) by exact (eq_sym (pow_IZR 2 50)).
      apply IZR_le. lia. }
    apply Rle_trans with (2 ^ 50 * roundoff)%R; [apply Rmult_le_compat_r; lra|].
    unfold roundoff. replace (2 ^ 53)%R with (2 ^ 50 * 8)%R by ring. rewrite Rinv_mult, <- Rmult_assoc, Rinv_r; [lra | apply pow_nonzero; lra]. }
  destruct (phi_small (3 * (D + n) + 7) Small) as [Ph1 Ph2].
  assert (Phk : forall k, (k <= 3 * (D + n) + 7)%nat -> (1 <= phi ^ k <= 4 / 3)%R).
  { intros k Hk'. split; [apply phi_pow_ge|]. eapply Rle_trans; [|exact Ph2]. apply Rle_pow; [lra | lia]. }
  assert (HW : (W <= 200)%nat) by lia. destruct (slack4_half W ltac:(lia)) as [S0 S1].
  pose proof (slack_small W HW) as S675.
  assert (Hcl : forall cur, In cur vis -> finite (fprod 1 L (map2 Z.add cur sh)) /\
     close (phi ^ D) (slack4 W) (dval (fprod 1 L (map2 Z.add cur sh))) (N cur)).
  { intros cur Hcur. destruct (Hact cur Hcur) as [Ha _].
    destruct (fprod_close noz L (map2 Z.add cur sh) HL Ha 1%float 1%R 0%nat 1%nat) as [Ff Cf]; try lia; try lra.
    + apply one_exact.
    + rewrite (proj2 one_exact). destruct (slack4_half 1 ltac:(lia)). unfold close. replace (1 - 1)%R with 0%R by ring.
      rewrite Rabs_R0. cbn [pow]. lra.
    + eapply Rle_trans; [|exact Small]. apply Rmult_le_compat_r; [lra|]. apply le_INR. fold D. lia.
    + rewrite Rmult_1_l in Cf. cbn [Nat.add] in Cf. fold D in Cf. fold W in Cf. auto. }
  assert (N50 : (INR n <= 2 ^ 50)%R).
  { rewrite INR_IZR_INZ. replace (2 ^ 50)%R with (IZR (2 ^ 50)) by exact (eq_sym (pow_IZR 2 50)).
    apply IZR_le. lia. }
  (* the sum of the weights *)
  set (ws := fwsum L wts). 
  assert (Ewsum : finite ws /\ within (phi ^ (2 * (D + n + 2))) (dval ws) Ws).
  { set (e := (phi * slack4 W * 2 ^ 100 + underflow)%R).
    assert (E0 : (0 <= e)%R) by (unfold e; assert (0 <= phi * slack4 W * 2 ^ 100)%R by (apply Rmult_le_pos; [nra | apply pow_le; lra]); lra).
    assert (Eb : (e <= / 2 ^ 573)%R).
    { assert (slack4 W * 2 ^ 100 <= / 2 ^ 675 * 2 ^ 100)%R by (apply Rmult_le_compat_r; [apply pow_le; lra | lra]).
      assert (E575 : (/ 2 ^ 675 * 2 ^ 100 = / 2 ^ 575)%R) by (rewrite Rmult_comm; rewrite pow2_inv_mul by lia; reflexivity).
      assert (E573 : (/ 2 ^ 573 = 4 * / 2 ^ 575)%R).
      { rewrite (inv_pow2 575 573) by lia. change (575 - 573)%nat with 2%nat. field. }
      assert (underflow <= / 2 ^ 575)%R by (apply inv_pow2_le; lia). pose proof (inv_pow2_pos 575).
      unfold e. rewrite E573. assert (0 <= slack4 W * 2 ^ 100)%R by (apply Rmult_le_pos; [lra | apply pow_le; lra]).
      rewrite Rmult_assoc. assert (phi * (slack4 W * 2 ^ 100) <= 2 * (slack4 W * 2 ^ 100))%R by (apply Rmult_le_compat_r; lra). lra. }
    assert (Ene : (INR n * e <= / 2 ^ 523)%R).
    { apply Rle_trans with (2 ^ 50 * / 2 ^ 573)%R; [apply Rmult_le_compat; auto using pos_INR|]. right. rewrite pow2_inv_mul by lia. reflexivity. }
    destruct (sum_error (fun cur => (fprod 1 L (map2 Z.add cur sh) * wf cur)%float) (fun cur => N cur * dval (wf cur) / Ws)%R
       (fun _ => Ws) Ws (phi ^ D * phi) e vis) with (acc := 0%float) (A := 0%R) (T := 0%R) (k := 0%nat) as [Fr Er].
    - split; [lra|]. apply Rle_trans with (2 ^ 100)%R; [lra | apply pow2_le; lia].
    - pose proof (phi_pow_ge D). nra.
    - exact E0.
    - intros cur Hcur. destruct (Hcl cur Hcur) as [Ff Cf]. destruct (HWf cur Hcur) as [Fw Bw]. pose proof (HN cur Hcur) as [N0 N1].
      assert (Mw : moderate (wf cur)).
      { split; [exact Fw|]. rewrite Rabs_right by lra. apply Rle_trans with (2 ^ 100)%R; [lra | apply pow2_le; lia]. }
      destruct (product_error _ _ (phi ^ D) (slack4 W) _ (dval (wf cur)) Ff Mw ltac:(rewrite Rabs_right; lra)
        (phi_pow_ge D) (proj2 (Phk D ltac:(lia))) ltac:(lra) N1 Cf) as [Fp Ep].
      split; [exact Fp|]. split; [apply Rmult_le_pos; [apply Rmult_le_pos; lra | left; now apply Rinv_0_lt_compat]|].
      split; [rewrite Rabs_right; lra|].
      replace (N cur * dval (wf cur) / Ws * Ws)%R with (N cur * dval (wf cur))%R by (field; lra).
      replace ((phi ^ D * phi - 1) * (N cur * dval (wf cur) / Ws) * Ws)%R with ((phi ^ D * phi - 1) * N cur * dval (wf cur))%R by (field; lra).
      eapply Rle_trans; [exact Ep|]. apply Rplus_le_compat_l. unfold e. apply Rplus_le_compat_r.
      apply Rmult_le_compat_l; [nra | lra].
    - apply zero_exact.
    - lra.
    - rewrite Rplus_0_l. right. unfold Rdiv. rewrite lsum_scal_r. fold Ws. field. lra.
    - rewrite Rabs_R0. lra.
    - rewrite (proj2 zero_exact). replace (0 - 0)%R with 0%R by ring. rewrite Rabs_R0. cbn [INR]. lra.
    - fold n. replace (phi ^ D * phi * phi ^ (0 + n))%R with (phi ^ (D + 1 + n))%R by (rewrite !pow_add, pow_1; cbn [Nat.add]; ring).
      apply Phk. lia.
    - fold n. cbn [Nat.add]. eapply Rle_trans; [exact Ene|]. apply Rle_trans with 1%R; [|apply pow2_ge1].
      rewrite <- Rinv_1. apply Rinv_le_contravar; [lra | apply pow2_ge1].
    - cbv zeta in Fr, Er. fold n in Er. cbn [Nat.add] in Er. rewrite !Rplus_0_l in Er.
      change (fold_left _ vis 0%float) with ws in Fr, Er. split; [exact Fr|].
      assert (L1 : lsum (fun cur => N cur * dval (wf cur) / Ws)%R vis = 1%R).
      { unfold Rdiv. rewrite lsum_scal_r. fold Ws. field. lra. }
      assert (L2 : lsum (fun cur => N cur * dval (wf cur) / Ws * Ws)%R vis = Ws).
      { rewrite lsum_scal_r, L1. ring. }
      rewrite L1, L2, Rmult_1_r in Er.
      replace (2 * (D + n + 2))%nat with ((D + n + 2) + (D + n + 2))%nat by lia. rewrite pow_add.
      apply close0_within; [apply Phk; lia | lra |]. eapply Rle_trans; [exact Er|].
      replace (phi ^ D * phi * phi ^ n)%R with (phi ^ (D + n + 1))%R by (rewrite !pow_add, pow_1; ring).
      assert (St : (INR n * phi ^ n * e <= roundoff * Ws)%R).
      { apply Rle_trans with (/ 2 ^ 521)%R.
        - replace (INR n * phi ^ n * e)%R with (phi ^ n * (INR n * e))%R by ring.
          assert (E521 : (/ 2 ^ 521 = 4 * / 2 ^ 523)%R).
          { rewrite (inv_pow2 523 521) by lia. change (523 - 521)%nat with 2%nat. field. }
          rewrite E521. pose proof (Phk n ltac:(lia)). apply Rmult_le_compat; try lra. apply Rmult_le_pos; auto using pos_INR.
        - apply Rle_trans with (roundoff * / 2 ^ 100)%R; [|apply Rmult_le_compat_l; lra].
          unfold roundoff. rewrite <- Rinv_mult, pow2_mul. apply inv_pow2_le. lia. }
      replace (D + n + 2)%nat with (S (D + n + 1)) by lia. cbn [pow]. pose proof (phi_pow_ge (D + n + 1)) as Pk.
      assert (Pk2 : (phi ^ (D + n + 1) + roundoff <= phi * phi ^ (D + n + 1))%R) by nra.
      apply Rle_trans with ((phi ^ (D + n + 1) + roundoff - 1) * Ws)%R; [lra|]. apply Rmult_le_compat_r; lra. }
  destruct Ewsum as [Fws Wws].
  assert (Hterm : forall cur c, In cur vis -> In c dims -> let idx := map2 Z.add cur sh in
     moderate (fcoord npts cps idx c) /\ (Rabs (dval (fcoord npts cps idx c)) <= M)%R).
  { intros cur c Hcur Hin idx. destruct (Hact cur Hcur) as [Ha Hbx].
    rewrite Forall_forall in Hdims. destruct (fcoord_moderate npts cps idx c dim Hc Hm Hn Hbx (Hdims c Hin)) as (Mo & cp & I1 & I2).
    split; [exact Mo|]. rewrite Forall_forall in HM. pose proof (HM cp I1) as HM1. rewrite Forall_forall in HM1. exact (HM1 _ I2). }
  assert (Hvne : exists cur, In cur vis).
  { assert (N1 : (0 < length vis)%nat) by (fold n; lia).
    destruct (nth_error vis 0) as [x|] eqn:E; [exists x; eapply nth_error_In; eauto | apply nth_error_None in E; lia]. }
  assert (Main : forall c, In c dims ->
    let v := fold_left (fun v cur => (v + fprod 1 L (map2 Z.add cur sh) * (fcoord npts cps (map2 Z.add cur sh) c * wf cur) / ws)%float) vis 0%float in
    finite v /\
    (Rabs (dval v - exact_rational (map (map dval) (map fk L)) (map fp L) (map (map dval) cps) (map dval wts) (map dval (map fu L)) c) <=
        IZR (3 * (degree_cost (map fp L) + summands (map fp L)) + 7) * / 2 ^ 52 * M +
        2 * IZR (summands (map fp L)) * (2 ^ 202 * 4 ^ Z.to_nat (depth (map fp L)) * M + 2 ^ 104) * underflow)%R).
  2:{ clear - Main. revert Main. induction dims as [|c dims IH]; intros Main; cbn [map]; constructor.
      - apply Main. now left.
      - apply IH. intros; apply Main; now right. }
  intros c Hin. cbv zeta. rewrite Ex.
  assert (M0 : (0 <= M)%R).
  { destruct Hvne as (cur & Hcur). destruct (Hterm cur c Hcur Hin) as (_ & B). eapply Rle_trans; [apply Rabs_pos | exact B]. }
  set (e := (2 ^ 202 * slack4 W * M + 2 ^ 104 * underflow)%R).
  assert (P202 : (0 < 2 ^ 202)%R) by (apply pow_lt; lra). assert (P104 : (0 < 2 ^ 104)%R) by (apply pow_lt; lra).
  assert (E0 : (0 <= e)%R).
  { unfold e. assert (0 <= 2 ^ 202 * slack4 W * M)%R by (apply Rmult_le_pos; [apply Rmult_le_pos|]; lra).
    assert (0 <= 2 ^ 104 * underflow)%R by (apply Rmult_le_pos; lra). lra. }
  set (q := (phi ^ (2 * (D + n + 2)))%R) in *.
  assert (Hg : (phi ^ D * (q * phi ^ 3) = phi ^ (3 * D + 2 * n + 7))%R).
  { unfold q. rewrite <- !pow_add. f_equal. lia. }
  destruct (sum_error (fun cur => (fprod 1 L (map2 Z.add cur sh) * (fcoord npts cps (map2 Z.add cur sh) c * wf cur) / ws)%float)
     (fun cur => N cur * dval (wf cur) / Ws)%R
     (fun cur => dval (fcoord npts cps (map2 Z.add cur sh) c)) M (phi ^ D * (q * phi ^ 3)) e vis) with (acc := 0%float) (A := 0%R) (T := 0%R) (k := 0%nat)
     as [Fr Er].
  - lra.
  - rewrite Hg. apply phi_pow_ge.
  - exact E0.
  - intros cur Hcur. destruct (Hterm cur c Hcur Hin) as (Mo & B). destruct (Hcl cur Hcur) as [Ff Cf].
    destruct (HWf cur Hcur) as [Fw Bw]. pose proof (HN cur Hcur) as [N0 N1].
    destruct (quotient_error _ _ _ _ (phi ^ D) (slack4 W) _ M q Ws Ff Mo B HM5 Fw Bw WsR Wws (Phk (2 * (D + n + 2))%nat ltac:(lia)) (Phk D ltac:(lia)) ltac:(lra) N1 Cf) as [Fp Ep].
    split; [exact Fp|]. split; [apply Rmult_le_pos; [apply Rmult_le_pos; lra | left; now apply Rinv_0_lt_compat]|].
    split; [exact B|]. exact Ep.
  - apply zero_exact.
  - lra.
  - rewrite Rplus_0_l. right. unfold Rdiv. rewrite lsum_scal_r. fold Ws. field. lra.
  - rewrite Rabs_R0. lra.
  - rewrite (proj2 zero_exact). replace (0 - 0)%R with 0%R by ring. rewrite Rabs_R0. cbn [INR]. lra.
  - fold n. rewrite Hg, <- pow_add. apply Phk. lia.
  - fold n. cbn [Nat.add].
    assert (P500 : (1 <= 2 ^ 500)%R) by apply pow2_ge1.
    assert (Sl : (2 ^ 202 * slack4 W <= / 2 ^ 473)%R).
    { apply Rle_trans with (2 ^ 202 * / 2 ^ 675)%R; [apply Rmult_le_compat_l; lra|]. right. rewrite pow2_inv_mul by lia. reflexivity. }
    assert (Sl0 : (0 <= 2 ^ 202 * slack4 W)%R) by (apply Rmult_le_pos; lra).
    assert (Ub : (2 ^ 104 * underflow <= / 2 ^ 473 * 2 ^ 500)%R).
    { apply Rle_trans with (/ 2 ^ 473 * 1)%R.
      - unfold underflow. rewrite pow2_inv_mul, Rmult_1_r by lia. apply inv_pow2_le. lia.
      - apply Rmult_le_compat_l; [left; apply inv_pow2_pos | lra]. }
    assert (Eb : (e <= 2 * (/ 2 ^ 473 * 2 ^ 500))%R).
    { assert (2 ^ 202 * slack4 W * M <= / 2 ^ 473 * 2 ^ 500)%R by (apply Rmult_le_compat; lra). unfold e. lra. }
    apply Rle_trans with (2 ^ 50 * (2 * (/ 2 ^ 473 * 2 ^ 500)))%R; [apply Rmult_le_compat; auto using pos_INR|].
    replace (2 ^ 50 * (2 * (/ 2 ^ 473 * 2 ^ 500)))%R with (2 ^ 51 * / 2 ^ 473 * 2 ^ 500)%R by (rewrite <- (tech_pow_Rmult 2 50); ring).
    rewrite pow2_inv_mul by lia. rewrite <- (Rmult_1_l (2 ^ 500)) at 2. apply Rmult_le_compat_r; [lra|].
    rewrite <- Rinv_1. apply Rinv_le_contravar; [lra | apply pow2_ge1].
  - cbv zeta in Fr, Er. fold n in Er. cbn [Nat.add] in Er. rewrite !Rplus_0_l in Er.
    assert (L1 : lsum (fun cur => N cur * dval (wf cur) / Ws)%R vis = 1%R).
    { unfold Rdiv. rewrite lsum_scal_r. fold Ws. field. lra. }
    rewrite L1, Rmult_1_r in Er.
    split; [exact Fr|]. eapply Rle_trans; [exact Er|].
    assert (EI : IZR (3 * (degree_cost (map fp L) + summands (map fp L)) + 7) = INR (3 * (D + n) + 7)).
    { rewrite INR_IZR_INZ. f_equal. lia. }
    assert (En : IZR (summands (map fp L)) = INR n) by (rewrite INR_IZR_INZ; f_equal; lia).
    rewrite EI, En, Edepth, Nat2Z.id. apply Rplus_le_compat.
    + apply Rmult_le_compat_r; [exact M0|].
      replace (phi ^ D * (q * phi ^ 3) * phi ^ n)%R with (phi ^ (3 * (D + n) + 7))%R by (rewrite Hg, <- pow_add; f_equal; lia).
      eapply Rle_trans; [exact Ph1|]. unfold roundoff. replace (2 ^ 53)%R with (2 * 2 ^ 52)%R by ring. rewrite Rinv_mult.
      pose proof (pos_INR (3 * (D + n) + 7)). assert (0 < / 2 ^ 52)%R by (apply Rinv_0_lt_compat, pow_lt; lra).
      assert (0 <= INR (3 * (D + n) + 7) * / 2 ^ 52)%R by (apply Rmult_le_pos; lra). lra.
    + pose proof (Phk n ltac:(lia)) as Pn.
      replace (2 * INR n * (2 ^ 202 * 4 ^ W * M + 2 ^ 104) * underflow)%R with (INR n * (2 * e))%R by (unfold e, slack4; ring).
      rewrite Rmult_assoc. apply Rmult_le_compat_l; [apply pos_INR|]. apply Rmult_le_compat_r; lra.
Qed.
