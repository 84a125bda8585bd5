(* Closing lemmas for the properties of double arithmetic. *)
From Coq Require Import ZArith List Bool Lia Reals Floats Lra Psatz.
From Verif Require Import Base BaseFacts RSum MultiIndex MultiIndexSpec MultiIndexFacts TensorSum
  KnotVec KnotVecSpec KnotVecFacts Basis BasisSpec BSplineTheory BasisFacts
  Spaces SpacesSpec SpacesFacts SplineEval SplineSpec EvalFacts RationalDeriv EvalDeriv EvalThms SplineNew
  DoubleSpec DoubleFacts DoubleError DoubleKnots DoubleBasis DoubleSum DoubleEval.
Import ListNotations.
Open Scope Z_scope.

Definition noz : R -> R := fun _ => 0%R.

Lemma summands_total degs : summands degs = total (map (fun q => q + 1) degs).
Proof. induction degs as [|p degs IH]; cbn; auto. unfold summands in *. rewrite IH. reflexivity. Qed.
Lemma summands_pos L dz : Forall (good_fdir dz) L -> 1 <= summands (map fp L).
Proof.
  induction 1 as [|d L Hd H IH]; cbn [map summands fold_right]; [lia|]. fold (summands (map fp L)).
  destruct (good_fdir_facts dz d Hd) as (_ & _ & _ & A & _). nia.
Qed.
Lemma cost_dcost L dz : Forall (good_fdir dz) L -> degree_cost (map fp L) = Z.of_nat (dcost L).
Proof.
  induction 1 as [|d L Hd H IH]; cbn [map degree_cost dcost fold_right]; [reflexivity|]. fold (degree_cost (map fp L)) (dcost L).
  destruct (good_fdir_facts dz d Hd) as (_ & _ & _ & A & _). lia.
Qed.
Lemma depth_ddepth L dz : Forall (good_fdir dz) L -> depth (map fp L) = Z.of_nat (1 + ddepth L).
Proof.
  induction 1 as [|d L Hd H IH]; cbn [map depth ddepth fold_right]; [reflexivity|]. fold (depth (map fp L)) (ddepth L).
  destruct (good_fdir_facts dz d Hd) as (_ & _ & _ & A & _). lia.
Qed.

Lemma exact_visited L cps c : Forall (good_fdir noz) L ->
  exact_coordinate (map (map dval) (map fk L)) (map fp L) (map (map dval) cps) (map dval (map fu L)) c =
  lsum (fun cur => (prodf (map dfactor (map ex L)) (map2 Z.add cur (map (fun d => fsp d - fp d)%Z L)) *
      dval (fcoord (point_counts (map fk L) (map fp L)) cps (map2 Z.add cur (map (fun d => fsp d - fp d)%Z L)) c))%R)
    (visited (map (fun q => q + 1) (map fp L))).
Proof.
  intros HL. pose proof (ex_good noz L HL) as HG. unfold exact_coordinate.
  assert (E1 : map (map dval) (map fk L) = map EvalFacts.dk (map ex L)) by (rewrite !map_map; reflexivity).
  assert (E2 : map dval (map fu L) = map du (map ex L)) by (rewrite !map_map; reflexivity).
  assert (E3 : point_counts (map EvalFacts.dk (map ex L)) (map dp (map ex L)) = lensL (map ex L)).
  { unfold point_counts, lensL. rewrite map2_map. reflexivity. }
  rewrite E1, E2, <- (ex_dp L), E3.
  rewrite (ex_dp L), <- (ex_lens L), <- (ex_shift L).
  pose proof (visited_sum noz (map ex L) (fun idx => dval (fcoord (lensL (map ex L)) cps idx c)) HG) as V. cbv zeta in V.
  rewrite (ex_dp L) in V. rewrite V. rewrite <- tsum_boxl by (now rewrite !map_length).
  rewrite all_indices_boxl, lensL_ranges.
  apply lsum_ext. intros idx Hi. rewrite <- (ex_dp L). rewrite (basis_product_dirs noz); auto using ex_order0.
  - f_equal. unfold fcoord. rewrite <- (proj2 zero_exact).
    rewrite <- (map_nth dval). f_equal. exact (map_nth (map dval) cps [] _).
  - apply all_indices_box. now rewrite all_indices_boxl, lensL_ranges.
Qed.

Lemma prod_sum L : Forall (good_fdir noz) L ->
  lsum (fun cur => prodf (map dfactor (map ex L)) (map2 Z.add cur (map (fun d => fsp d - fp d)%Z L)))
    (visited (map (fun q => q + 1) (map fp L))) = 1%R.
Proof.
  intros HL. pose proof (visited_sum noz (map ex L) (fun _ => 1%R) (ex_good noz L HL)) as V. cbv zeta in V.
  rewrite (ex_dp L), (ex_shift L) in V. etransitivity; [|etransitivity; [exact V|]].
  - apply lsum_ext. intros; ring.
  - clear V. pose proof (ex_good noz L HL) as HG. pose proof (ex_order0 L) as H0. revert HG H0. generalize (map ex L). clear.
    induction l as [|x l IH]; intros HG H0; cbn [map tsum]; [reflexivity|]. inversion HG; inversion H0; subst.
    rewrite IH by auto. rewrite lsum_scal_r. rewrite (dfactor_sum noz x) by auto. ring.
Qed.

Lemma fcoord_moderate npts cps idx c dim : Forall (fun cp => zlen cp = dim) cps -> Forall (Forall moderate) cps ->
  zlen cps = total npts -> in_box npts idx -> 0 <= c < dim ->
  moderate (fcoord npts cps idx c) /\ exists cp, In cp cps /\ In (fcoord npts cps idx c) cp.
Proof.
  intros Hd Hm Hn Hb Hc. pose proof (position_range _ _ Hb) as Hr. unfold fcoord.
  assert (I1 : In (nth (Z.to_nat (position npts idx)) cps []) cps) by (apply nth_In; unfold zlen in Hn; lia).
  rewrite Forall_forall in Hd, Hm. pose proof (Hd _ I1) as Z1.
  assert (I2 : In (nth (Z.to_nat c) (nth (Z.to_nat (position npts idx)) cps []) 0%float) (nth (Z.to_nat (position npts idx)) cps []))
    by (apply nth_In; unfold zlen in Z1; lia).
  split; [|eexists; split; eassumption]. pose proof (Hm _ I1) as M. rewrite Forall_forall in M. auto.
Qed.

Lemma double_evaluate knots degs cps us dim dims M :
  Forall2 double_direction knots degs -> Forall2 double_parameter knots us ->
  Forall (fun cp => zlen cp = dim) cps -> zlen cps = total (point_counts knots degs) -> zlen cps < 2 ^ 64 ->
  Forall (fun c => 0 <= c < dim) dims ->
  Forall (Forall moderate) cps -> Forall (Forall (fun x => Rabs (dval x) <= M)%R) cps -> (M <= 2 ^ 500)%R ->
  degree_cost degs + summands degs + 1 <= 2 ^ 50 -> depth degs <= 500 ->
  exists s vs, spline_new (F := Fops) knots degs cps None = Ok s /\ evaluate s us dims = Ok vs /\
    Forall2 (fun c v => finite v /\
      (Rabs (dval v - exact_coordinate (map (map dval) knots) degs (map (map dval) cps) (map dval us) c) <=
        IZR (degree_cost degs + summands degs + 1) * / 2 ^ 52 * M +
        2 * IZR (summands degs) * (4 ^ Z.to_nat (depth degs) * M + 1) * underflow)%R) dims vs.
Proof.
  intros Hk Hu Hc Hn Hb Hdims Hm HM HM5 Hcost Hdepth.
  destruct (fdirections noz knots degs us Hk Hu) as (L & HL & -> & -> & ->).
  eexists. eexists. split; [apply (fspline_new_ok _ _ cps dim); auto|].
  split; [apply (feval_ok noz L cps dim dims); auto|].
  set (npts := point_counts (map fk L) (map fp L)) in *. set (sh := map (fun d => fsp d - fp d)%Z L).
  set (vis := visited (map (fun q => q + 1) (map fp L))).
  assert (Evl : Z.of_nat (length vis) = summands (map fp L)).
  { unfold vis, visited. rewrite map_length, seq_length, <- summands_total. pose proof (summands_pos L noz HL). lia. }
  pose proof (cost_dcost L noz HL) as Ecost. pose proof (depth_ddepth L noz HL) as Edepth.
  pose proof roundoff_pos as Rp. pose proof underflow_pos as Up. pose proof phi_gt as Pg. pose proof phi_small_const as Pc.
  set (n := length vis) in *. set (D := dcost L) in *. set (W := (1 + ddepth L)%nat) in *.
  assert (Hterm : forall cur c, In cur vis -> In c dims -> let idx := map2 Z.add cur sh in
     factive L idx /\ moderate (fcoord npts cps idx c) /\ (Rabs (dval (fcoord npts cps idx c)) <= M)%R).
  { intros cur c Hcur Hin idx. destruct (fvisited noz L cur HL Hcur) as [Ha Hbx]. split; [exact Ha|].
    rewrite Forall_forall in Hdims. destruct (fcoord_moderate npts cps idx c dim Hc Hm Hn Hbx (Hdims c Hin)) as (Mo & cp & I1 & I2).
    split; [exact Mo|]. rewrite Forall_forall in HM. pose proof (HM cp I1) as HM1. rewrite Forall_forall in HM1. exact (HM1 _ I2). }
  assert (Hvne : exists cur, In cur vis).
  { pose proof (summands_pos L noz HL). assert (N1 : (0 < length vis)%nat) by (fold n; lia).
    destruct (nth_error vis 0) as [x|] eqn:E; [exists x; eapply nth_error_In; eauto | apply nth_error_None in E; lia]. }
  assert (Small : (INR (D + 1 + n) * roundoff <= / 4)%R).
  { assert (INR (D + 1 + n) <= 2 ^ 50)%R.
    { rewrite INR_IZR_INZ. replace (2 ^ 50)%R with (IZR (2 ^ 50)) by exact (eq_sym (pow_IZR 2 50)).
      apply IZR_le. lia. }
    apply Rle_trans with (2 ^ 50 * roundoff)%R; [apply Rmult_le_compat_r; lra|].
    unfold roundoff. replace (2 ^ 53)%R with (2 ^ 50 * 8)%R by ring. rewrite Rinv_mult, <- Rmult_assoc, Rinv_r; [lra | apply pow_nonzero; lra]. }
  destruct (phi_small (D + 1 + n) Small) as [Ph1 Ph2].
  assert (HW : (W <= 500)%nat) by lia. destruct (slack4_half W HW) as [S0 S1].
  assert (Forall (fun c => In c dims) dims) as HIn by (apply Forall_forall; auto).
  assert (Main : forall c, In c dims ->
    let v := fold_left (fun v cur => (v + fprod 1 L (map2 Z.add cur sh) * fcoord npts cps (map2 Z.add cur sh) c)%float) vis 0%float in
    finite v /\
    (Rabs (dval v - exact_coordinate (map (map dval) (map fk L)) (map fp L) (map (map dval) cps) (map dval (map fu L)) c) <=
        IZR (degree_cost (map fp L) + summands (map fp L) + 1) * / 2 ^ 52 * M +
        2 * IZR (summands (map fp L)) * (4 ^ Z.to_nat (depth (map fp L)) * M + 1) * underflow)%R).
  2:{ clear - Main. revert Main. generalize (fun v : float => v). intros _. induction dims as [|c dims IH]; intros Main; cbn [map]; constructor.
      - apply Main. now left.
      - apply IH. intros; apply Main; now right. }
  intros c Hin. cbv zeta. rewrite (exact_visited L cps c HL). fold npts sh vis.
  assert (M0 : (0 <= M)%R).
  { destruct Hvne as (cur & Hcur). destruct (Hterm cur c Hcur Hin) as (_ & _ & B). eapply Rle_trans; [apply Rabs_pos | exact B]. }
  set (e := (phi * slack4 W * M + underflow)%R).
  assert (E0 : (0 <= e)%R) by (unfold e; assert (0 <= phi * slack4 W * M)%R by (apply Rmult_le_pos; nra); lra).
  assert (PhD : (phi ^ D <= 4 / 3)%R).
  { eapply Rle_trans; [|exact Ph2]. apply Rle_pow; [lra | lia]. }
  destruct (sum_error (fun cur => (fprod 1 L (map2 Z.add cur sh) * fcoord npts cps (map2 Z.add cur sh) c)%float)
     (fun cur => prodf (map dfactor (map ex L)) (map2 Z.add cur sh))
     (fun cur => dval (fcoord npts cps (map2 Z.add cur sh) c)) M (phi ^ D * phi) e vis) with (acc := 0%float) (A := 0%R) (T := 0%R) (k := 0%nat)
     as [Fr Er].
  - lra.
  - pose proof (phi_pow_ge D). nra.
  - exact E0.
  - intros cur Hcur. destruct (Hterm cur c Hcur Hin) as (Ha & Mo & B).
    destruct (prodf_unit noz L _ HL Ha) as [N0 N1].
    destruct (fprod_close noz L (map2 Z.add cur sh) HL Ha 1%float 1%R 0%nat 1%nat) as [Ff Cf]; try lia; try lra.
    + apply one_exact.
    + rewrite (proj2 one_exact). destruct (slack4_half 1 ltac:(lia)). unfold close. replace (1 - 1)%R with 0%R by ring.
      rewrite Rabs_R0. cbn [pow]. lra.
    + eapply Rle_trans; [|exact Small]. apply Rmult_le_compat_r; [lra|]. apply le_INR. fold D. lia.
    + rewrite Rmult_1_l in Cf. cbn [Nat.add] in Cf. fold D in Cf. fold W in Cf.
      destruct (product_error _ _ (phi ^ D) (slack4 W) _ M Ff Mo B (phi_pow_ge D) PhD ltac:(lra) N1 Cf) as [Fp Ep].
      split; [exact Fp|]. split; [exact N0|]. split; [exact B|]. exact Ep.
  - apply zero_exact.
  - lra.
  - unfold sh, vis. rewrite (prod_sum L HL). lra.
  - rewrite Rabs_R0. lra.
  - rewrite (proj2 zero_exact). replace (0 - 0)%R with 0%R by ring. rewrite Rabs_R0. cbn [INR]. lra.
  - fold n. replace (phi ^ D * phi * phi ^ (0 + n))%R with (phi ^ (D + 1 + n))%R by (rewrite !pow_add, pow_1; cbn [Nat.add]; ring).
    exact Ph2.
  - fold n. cbn [Nat.add].
    assert (N50 : (INR n <= 2 ^ 50)%R).
    { rewrite INR_IZR_INZ. replace (2 ^ 50)%R with (IZR (2 ^ 50)) by exact (eq_sym (pow_IZR 2 50)).
      apply IZR_le. pose proof (summands_pos L noz HL). lia. }
    assert (S75 : (slack4 W <= / 2 ^ 75)%R).
    { unfold slack4, underflow. replace 4%R with (2 ^ 2)%R by ring. rewrite <- pow_mult.
      apply (Rmult_le_reg_r (2 ^ 1075)); [apply pow_lt; lra|]. rewrite Rmult_assoc, Rinv_l by (apply pow_nonzero; lra).
      replace 1075%nat with (75 + 1000)%nat by lia. rewrite (pow_add 2 75 1000), <- Rmult_assoc, Rinv_l, Rmult_1_l, Rmult_1_r by (apply pow_nonzero; lra).
      apply pow2_le. lia. }
    assert (P500 : (1 <= 2 ^ 500)%R) by apply pow2_ge1.
    assert (Ue : (underflow <= / 2 ^ 75 * 2 ^ 500)%R).
    { apply Rle_trans with (/ 2 ^ 75 * 1)%R; [rewrite Rmult_1_r; unfold underflow; apply Rinv_le_contravar; [apply pow_lt; lra | apply pow2_le; lia]|].
      apply Rmult_le_compat_l; [left; apply Rinv_0_lt_compat, pow_lt; lra | exact P500]. }
    assert (I75 : (0 < / 2 ^ 75)%R) by (apply Rinv_0_lt_compat, pow_lt; lra).
    assert (Eb : (e <= 3 * (/ 2 ^ 75 * 2 ^ 500))%R).
    { assert (slack4 W * M <= / 2 ^ 75 * 2 ^ 500)%R by (apply Rmult_le_compat; lra).
      assert (0 <= slack4 W * M)%R by (apply Rmult_le_pos; lra).
      assert (phi * (slack4 W * M) <= 2 * (/ 2 ^ 75 * 2 ^ 500))%R by (apply Rmult_le_compat; lra). unfold e. lra. }
    apply Rle_trans with (2 ^ 50 * (3 * (/ 2 ^ 75 * 2 ^ 500)))%R; [apply Rmult_le_compat; auto using pos_INR|].
    replace (2 ^ 50 * (3 * (/ 2 ^ 75 * 2 ^ 500)))%R with (3 * (2 ^ 50 * / 2 ^ 75) * 2 ^ 500)%R by ring.
    replace (2 ^ 50 * / 2 ^ 75)%R with (/ 2 ^ 25)%R by (field; lra || idtac).
    rewrite <- (Rmult_1_l (2 ^ 500)) at 2. apply Rmult_le_compat_r; lra.
  - cbv zeta in Fr, Er. fold n in Er. cbn [Nat.add] in Er. rewrite !Rplus_0_l in Er.
    pose proof (prod_sum L HL) as PS. fold sh vis in PS. rewrite PS, Rmult_1_r in Er.
    split; [exact Fr|]. eapply Rle_trans; [exact Er|].
    assert (EI : IZR (degree_cost (map fp L) + summands (map fp L) + 1) = INR (D + 1 + n)).
    { rewrite INR_IZR_INZ. f_equal. lia. }
    assert (En : IZR (summands (map fp L)) = INR n) by (rewrite INR_IZR_INZ; f_equal; lia).
    rewrite EI, En, Edepth, Nat2Z.id. apply Rplus_le_compat.
    + apply Rmult_le_compat_r; [exact M0|].
      replace (phi ^ D * phi * phi ^ n)%R with (phi ^ (D + 1 + n))%R by (rewrite !pow_add, pow_1; ring).
      eapply Rle_trans; [exact Ph1|]. unfold roundoff. replace (2 ^ 53)%R with (2 * 2 ^ 52)%R by ring. rewrite Rinv_mult.
      pose proof (pos_INR (D + 1 + n)). assert (0 < / 2 ^ 52)%R by (apply Rinv_0_lt_compat, pow_lt; lra).
      assert (0 <= INR (D + 1 + n) * / 2 ^ 52)%R by (apply Rmult_le_pos; lra). lra.
    + assert (Pn : (phi * phi ^ n <= 4 / 3)%R).
      { eapply Rle_trans; [|exact Ph2]. change (phi * phi ^ n)%R with (phi ^ S n)%R. apply Rle_pow; [lra | lia]. }
      pose proof (phi_pow_ge n) as Pn1. assert (Pn2 : (phi ^ n <= 4 / 3)%R) by nra.
      unfold e. replace (2 * INR n * (4 ^ W * M + 1) * underflow)%R with (INR n * (2 * (slack4 W * M + underflow)))%R by (unfold slack4; ring).
      rewrite Rmult_assoc. apply Rmult_le_compat_l; [apply pos_INR|].
      assert (0 <= slack4 W * M)%R by (apply Rmult_le_pos; lra).
      replace (phi ^ n * (phi * slack4 W * M + underflow))%R with ((phi * phi ^ n) * (slack4 W * M) + phi ^ n * underflow)%R by ring.
      assert ((phi * phi ^ n) * (slack4 W * M) <= 4 / 3 * (slack4 W * M))%R by (apply Rmult_le_compat_r; lra).
      assert (phi ^ n * underflow <= 4 / 3 * underflow)%R by (apply Rmult_le_compat_r; lra). lra.
Qed.

(* ---- rejection of parameters outside the domain, infinities and NaN ---- *)
Lemma leb_special x u : finite x -> ~ finite u -> PrimFloat.leb x u = true -> PrimFloat.leb u x = false.
Proof.
  intros Fx Fu. unfold finite in *. rewrite FloatAxioms.leb_spec, FloatAxioms.leb_spec.
  assert (Sx : match Prim2SF x with S754_zero _ | S754_finite _ _ _ => True | _ => False end).
  { rewrite DoubleFacts.finite_SF in Fx. exact Fx. }
  assert (Su : match Prim2SF u with S754_zero _ | S754_finite _ _ _ => False | _ => True end).
  { destruct (Prim2SF u) eqn:E; auto; apply Fu; apply DoubleFacts.finite_SF; rewrite E; exact I. }
  destruct (Prim2SF x) as [[]|[]| |[] ? ?], (Prim2SF u) as [[]|[]| |[] ? ?]; try contradiction; cbn; auto; discriminate.
Qed.

Lemma in_range_outside (kv : list float) p u : double_direction kv p -> ~ double_parameter kv u ->
  in_range (F := Fops) kv u = Ok false.
Proof.
  intros Hd Hu. destruct (double_finite kv p Hd) as (Hf & Hne & _).
  destruct (PrimFloat.is_finite u) eqn:E.
  - rewrite (fin_range kv u Hf E Hne). f_equal. apply andb_false_iff. unfold Rleb.
    destruct (Rle_dec (first_knot (map dval kv)) (dval u)) as [A|A]; [|now left].
    destruct (Rle_dec (dval u) (final_knot (map dval kv))) as [B|B]; [|now right].
    exfalso. apply Hu. split; auto.
  - assert (Nu : ~ finite u) by (unfold finite; congruence).
    unfold in_range. assert (Z0 : 0 < zlen kv) by (destruct kv; [congruence | unfold zlen; cbn [length]; lia]).
    assert (E0 : vget (A := Fops) kv 0 = Ok (dkn kv 0)) by (apply (get_knot_dk kv 0); lia).
    rewrite E0. cbn [bind]. rewrite (last_knot_dk kv Z0). cbn [bind nleb Fops].
    assert (F0 : finite (dkn kv 0)).
    { rewrite Forall_forall in Hf. apply Hf. unfold dkn. apply nth_In. unfold zlen in *. lia. }
    assert (Fl : finite (dlast kv)).
    { rewrite Forall_forall in Hf. apply Hf. unfold dlast. apply nth_In. unfold zlen in *. lia. }
    destruct (PrimFloat.leb (dkn kv 0) u) eqn:L0; [|reflexivity]. f_equal.
    destruct (PrimFloat.leb u (dlast kv)) eqn:L1; [|reflexivity]. exfalso.
    pose proof (leb_special _ _ F0 Nu L0) as C0.
    rewrite FloatAxioms.leb_spec in C0, L1, L0. apply finite_SF in F0. apply finite_SF in Fl.
    assert (Su : match Prim2SF u with S754_zero _ | S754_finite _ _ _ => False | _ => True end).
    { destruct (Prim2SF u) eqn:E2; auto; apply Nu; apply finite_SF; rewrite E2; exact I. }
    destruct (Prim2SF u) as [[]|[]| |[] ? ?], (Prim2SF (dkn kv 0)) as [[]|[]| |[] ? ?], (Prim2SF (dlast kv)) as [[]|[]| |[] ? ?];
      try contradiction; cbn in *; discriminate.
Qed.

Lemma throw_outside knots degs us : Forall2 double_direction knots degs -> length us = length knots ->
  ~ Forall2 double_parameter knots us -> throw_if_outside (fmkps knots degs) us = Throw RangeError.
Proof.
  intros H. unfold throw_if_outside, fmkps. cbn [ps_knots]. revert us.
  induction H as [|kv p knots degs Hd H IH]; intros us Hl Hu.
  - destruct us; [|discriminate]. exfalso. apply Hu. constructor.
  - destruct us as [|u us]; [discriminate|]. cbn [combine foldM fst snd].
    assert (D : double_parameter kv u \/ ~ double_parameter kv u).
    { unfold double_parameter, finite. destruct (PrimFloat.is_finite u); [|right; intros [? _]; discriminate].
      destruct (Rle_dec (first_knot (map dval kv)) (dval u)); [|right; tauto].
      destruct (Rle_dec (dval u) (final_knot (map dval kv))); [left; auto | right; tauto]. }
    destruct D as [D|D].
    + destruct (double_finite kv p Hd) as (Hf & Hne & _). destruct D as [Fu [D1 D2]].
      rewrite (fin_range kv u Hf Fu Hne). cbn [bind].
      rewrite (proj2 (Rleb_true _ _) D1), (proj2 (Rleb_true _ _) D2). cbn [andb bind].
      apply (IH us ltac:(cbn [length] in Hl; lia)). intros C. apply Hu. constructor; [|exact C]. split; auto.
    + rewrite (in_range_outside kv p u Hd D). reflexivity.
Qed.

Lemma double_domain knots degs cps us dim dims :
  Forall2 double_direction knots degs -> length us = length knots ->
  Forall (fun cp => zlen cp = dim) cps -> zlen cps = total (point_counts knots degs) -> zlen cps < 2 ^ 64 ->
  Forall (fun c => 0 <= c < dim) dims ->
  exists s, spline_new (F := Fops) knots degs cps None = Ok s /\
    (Forall2 double_parameter knots us -> exists vs, evaluate s us dims = Ok vs /\ length vs = length dims) /\
    (~ Forall2 double_parameter knots us -> evaluate s us dims = Throw RangeError).
Proof.
  intros Hk Hl Hc Hn Hb Hdims. eexists. split; [apply (fspline_new_ok _ _ cps dim); auto|]. split.
  - intros Hu. destruct (fdirections noz knots degs us Hk Hu) as (L & HL & -> & -> & ->).
    eexists. split; [apply (feval_ok noz L cps dim dims); auto|]. now rewrite map_length.
  - intros Hu. unfold evaluate. cbn [sp_ps]. rewrite throw_outside by auto. reflexivity.
Qed.

Lemma double_span kv p u : double_direction kv p -> double_parameter kv u ->
  exists k, knot_span (F := Fops) kv u = Ok (Z.of_nat k) /\ (S k < length kv)%nat /\
    (knot (map dval kv) k < knot (map dval kv) (S k))%R /\ (knot (map dval kv) k <= dval u)%R /\
    ((dval u < knot (map dval kv) (S k))%R \/
     (dval u = knot (map dval kv) (S k) /\ dval u = final_knot (map dval kv))).
Proof.
  intros Hd Hu. pose proof (inside_moderate kv p u Hd Hu) as Mu. destruct Hd as [Mk (Hp & Hc & Hn & Hs & Hlt)].
  destruct Hu as [Fu Ru]. rewrite (span_exact noz kv u Mk Mu Hn Hs Hlt Ru).
  destruct (knot_span_in_span noz (map dval kv) (dval u) Hn Hs Hlt Ru) as (k & E & A1 & A2 & A3 & A4 & A5).
  exists (Z.to_nat k). rewrite Z2Nat.id by lia. split; [exact E|]. rewrite zlen_map in A2. unfold zlen in A2. split; [lia|].
  rewrite <- (Z2Nat.id k) in A3, A4, A5 by lia. replace (Z.of_nat (Z.to_nat k) + 1) with (Z.of_nat (S (Z.to_nat k))) in * by lia.
  rewrite !tk_knot in A3, A4, A5 by (rewrite map_length; lia). rewrite (tk_knot _ (S (Z.to_nat k))) in A3 by (rewrite map_length; lia). exact (conj A3 (conj A4 A5)).
Qed.

(* ---- basis functions ---- *)
Lemma basis_constant p : (p <= 500)%nat -> (phi ^ (6 * p) - 1 <= INR p * / 2 ^ 50)%R.
Proof.
  intros H. destruct (phi_small (6 * p) (six_small p H)) as [A _]. eapply Rle_trans; [exact A|].
  unfold roundoff. rewrite mult_INR. replace (INR 6) with 6%R by (cbn; lra).
  replace (2 ^ 53)%R with (8 * 2 ^ 50)%R by ring. rewrite Rinv_mult.
  pose proof (pos_INR p). assert (0 < / 2 ^ 50)%R by (apply Rinv_0_lt_compat, pow_lt; lra).
  assert (0 <= INR p * / 2 ^ 50)%R by (apply Rmult_le_pos; lra). lra.
Qed.

Lemma double_basis kv p u i q : double_direction kv q -> double_parameter kv u ->
  (i + p + 1 < length kv)%nat -> (p <= 500)%nat -> (1 <= p)%nat \/ (knot (map dval kv) i < knot (map dval kv) (S i))%R ->
  exists b, create_dynamic (F := Fops) kv (Z.of_nat i) (Z.of_nat p) = Ok b /\
    let v := bf_eval b u in
    finite v /\ (0 <= dval v)%R /\
    (Rabs (dval v - cox_de_boor (map dval kv) p i (dval u)) <=
       INR p * / 2 ^ 50 * cox_de_boor (map dval kv) p i (dval u) + 4 ^ (p + 2) * underflow)%R /\
    (~ (knot (map dval kv) i <= dval u <= knot (map dval kv) (i + p + 1))%R -> v = 0%float).
Proof.
  intros Hd Hu Hi Hp Hq. pose proof (inside_moderate kv q u Hd Hu) as Mu. destruct (double_finite kv q Hd) as (_ & Hne & _).
  destruct Hd as [Mk (_ & Hc & Hn & Hs & Hlt)]. destruct Hu as [Fu Ru].
  destruct (knot_span_in_span noz (map dval kv) (dval u) Hn Hs Hlt Ru) as (k & E & Sp).
  exists (dbf kv (Z.of_nat i) p). split.
  { rewrite dcreate_dynamic by (unfold zlen; lia). now rewrite Nat2Z.id. }
  cbv zeta. destruct (dbf_close noz kv k p (Z.of_nat i) u Mk Mu Hn Hs Sp ltac:(lia) ltac:(unfold zlen; lia) Hp) as [Fv Cv].
  rewrite bf_eval_cox in Cv by (auto; try (rewrite map_length; lia); tauto).
  split; [exact Fv|]. destruct Cv as (A & B & C). split; [exact B|]. split.
  - eapply Rle_trans; [exact C|]. apply Rplus_le_compat_r. apply Rmult_le_compat_r; [exact A|]. now apply basis_constant.
  - intros Hout. apply dbf_zero. rewrite (support_exact noz) by auto.
    destruct (in_support (F := Rops noz) _ _ _ _) eqn:IS; [|reflexivity]. exfalso. apply Hout.
    apply (in_support_mk noz) in IS; auto. replace (Z.of_nat i + Z.of_nat p + 1) with (Z.of_nat (i + p + 1)) in IS by lia.
    rewrite !tk_knot in IS by (rewrite map_length; lia).
    pose proof (tk_le_final (map dval kv) (Z.of_nat i) Hn) as T. rewrite tk_knot in T by (rewrite map_length; lia).
    destruct IS as [?|[? ?]]; lra.
Qed.

Lemma double_partition kv p u : double_direction kv p -> double_parameter kv u -> p <= 500 ->
  exists ps vs, ps_new (F := Fops) [kv] [p] = Ok ps /\ eval_all_nonzero ps 0 u = Ok vs /\ zlen vs = p + 1 /\
    Forall (fun v => finite v /\ (0 <= dval v)%R) vs /\
    (Rabs (lsum dval vs - 1) <= IZR p * / 2 ^ 50 + IZR (p + 1) * (4 ^ Z.to_nat (p + 2) * underflow))%R.
Proof.
  intros Hd Hu Hp5. pose proof (inside_moderate kv p u Hd Hu) as Mu. destruct (double_finite kv p Hd) as (_ & Hne & Hp & Hlen).
  pose proof Hd as [Mk Hg]. pose proof Hg as (_ & Hc & Hn & Hs & Hlt). destruct Hu as [Fu Ru].
  destruct (eval_direction noz (map dval kv) p (dval u) Hg Ru) as (k & Ek & Sp & Hk1 & Hk2). rewrite zlen_map in Hk2.
  exists (fmkps [kv] [p]), (map (fun i => bf_eval (dbf kv (k - p + i) (Z.to_nat p)) u) (zseq 0 (Z.to_nat (p + 1)))).
  split; [apply fps_new_ok; constructor; [exact Hd | constructor]|].
  assert (B : forall i, In i (zseq 0 (Z.to_nat (p + 1))) ->
     finite (bf_eval (dbf kv (k - p + i) (Z.to_nat p)) u) /\
     close (phi ^ (6 * Z.to_nat p)) (basis_slack (Z.to_nat p)) (dval (bf_eval (dbf kv (k - p + i) (Z.to_nat p)) u))
        (B (tk (map dval kv)) k (Z.to_nat p) (k - p + i) (dval u))).
  { intros i Hi. apply zseq_In in Hi.
    destruct (dbf_close noz kv k (Z.to_nat p) (k - p + i) u Mk Mu Hn Hs Sp ltac:(lia) ltac:(lia) ltac:(lia)) as [F C].
    split; [exact F|]. rewrite (bf_eval_piece noz _ k) in C; auto; try lia.
    - rewrite zlen_map. lia.
    - apply (tk_nondeg _ _ _ k (dval u) Hg Sp). lia. }
  split; [|split; [|split]].
  - unfold eval_all_nonzero, dget, fmkps. cbn [ps_knots ps_degs ps_bfs map2 nth_error bind].
    rewrite (span_exact noz) by auto. change (num (Rops noz)) with R in *. rewrite Ek. cbn [bind].
    apply mapM_ok. intros i Hi. apply zseq_In in Hi. rewrite dbfs_get by lia. reflexivity.
  - unfold zlen. rewrite map_length, zseq_length. lia.
  - rewrite Forall_map. apply Forall_forall. intros i Hi. destruct (B i Hi) as (F & _ & P & _). auto.
  - rewrite lsum_map.
    assert (S1 : lsum (fun i => BSplineTheory.B (tk (map dval kv)) k (Z.to_nat p) (k - p + i) (dval u)) (zseq 0 (Z.to_nat (p + 1))) = 1%R).
    { destruct Sp as (A1 & A2 & A3 & _).
      pose proof (B_sum (tk (map dval kv)) (tk_monotone _ Hn) k A3 (Z.to_nat p) (dval u) (0 + (k - p)) (Z.to_nat (p + 1)) ltac:(lia) ltac:(lia)) as S1.
      rewrite lsum_zseq_shift in S1. rewrite <- S1. apply lsum_ext. intros i _. f_equal. lia. }
    assert (G : forall l, (forall i, In i l -> In i (zseq 0 (Z.to_nat (p + 1)))) ->
      (Rabs (lsum (fun i => dval (bf_eval (dbf kv (k - p + i) (Z.to_nat p)) u)) l -
             lsum (fun i => BSplineTheory.B (tk (map dval kv)) k (Z.to_nat p) (k - p + i) (dval u)) l) <=
       (phi ^ (6 * Z.to_nat p) - 1) * lsum (fun i => BSplineTheory.B (tk (map dval kv)) k (Z.to_nat p) (k - p + i) (dval u)) l +
       INR (length l) * basis_slack (Z.to_nat p))%R).
    { induction l as [|i l IH]; intros Hl.
      - cbn [lsum length INR]. replace (0 - 0)%R with 0%R by ring. rewrite Rabs_R0. lra.
      - cbn [lsum length]. rewrite S_INR. destruct (B i (Hl i (or_introl eq_refl))) as (_ & _ & _ & C).
        pose proof (IH (fun j Hj => Hl j (or_intror Hj))) as IH'.
        match goal with |- (Rabs (?a + ?b - (?c + ?d)) <= _)%R => replace (a + b - (c + d))%R with ((a - c) + (b - d))%R by ring end.
        eapply Rle_trans; [apply Rabs_triang|]. lra. }
    specialize (G _ (fun i H => H)). rewrite S1, zseq_length in G. eapply Rle_trans; [exact G|].
    rewrite Rmult_1_r. unfold basis_slack. replace (Z.to_nat p + 2)%nat with (Z.to_nat (p + 2)) by lia.
    replace (INR (Z.to_nat (p + 1))) with (IZR (p + 1)) by (rewrite INR_IZR_INZ; f_equal; lia).
    apply Rplus_le_compat_r. pose proof (basis_constant (Z.to_nat p) ltac:(lia)) as K.
    replace (INR (Z.to_nat p)) with (IZR p) in K by (rewrite INR_IZR_INZ; f_equal; lia). exact K.
Qed.
