(* Knot insertion in doubles keeps the spline up to rounding. *)
From Coq Require Import ZArith List Bool Lia Reals Floats Lra Psatz Permutation.
From Verif Require Import Base BaseFacts RSum MultiIndex MultiIndexSpec MultiIndexFacts TensorSum
  KnotVec KnotVecSpec KnotVecFacts Boehm Basis BasisSpec BSplineTheory BasisFacts VecUtils
  Spaces SpacesSpec SpacesFacts SplineEval SplineEdit SplineSpec EvalFacts RationalDeriv EvalDeriv EvalThms SplineNew
  PhysFacts AdjustFacts InsertKnots InsertFacts InsertThms EditSpec NearMap AdjustAny
  DoubleSpec DoubleFacts DoubleError DoubleKnots DoubleBasis DoubleSum DoubleEval DoubleThms DoubleMix DoubleInsert.
Import ListNotations.
Open Scope Z_scope.

(* error of one pass *)
Definition pass_error (M : R) : R := (M * / 2 ^ 48 + 4 * underflow)%R.
Lemma pass_error_alt M : pass_error M = (32 * roundoff * M + 4 * underflow)%R.
Proof.
  unfold pass_error, roundoff. replace (/ 2 ^ 48)%R with (32 * / 2 ^ 53)%R; [ring|].
  replace 53%nat with (48 + 5)%nat by reflexivity. rewrite pow_add, Rinv_mult. replace (2 ^ 5)%R with 32%R by ring. field; apply pow_nonzero; lra.
Qed.
Lemma pass_error_nonneg M : (0 <= M)%R -> (0 <= pass_error M)%R.
Proof.
  intros H. rewrite pass_error_alt. pose proof roundoff_pos. pose proof underflow_pos. assert (0 <= roundoff * M)%R by (apply Rmult_le_pos; lra). lra.
Qed.
(* k passes: k <= 2^31 *)
Lemma many_small k : 0 <= k <= 2 ^ 31 -> (0 <= IZR k * roundoff <= / 4000)%R.
Proof.
  intros [H1 H2]. pose proof roundoff_pos. split; [apply Rmult_le_pos; [now apply IZR_le | lra]|].
  apply Rle_trans with (IZR (2 ^ 31) * roundoff)%R; [apply Rmult_le_compat_r; [lra | now apply IZR_le]|].
  unfold roundoff. assert (T : IZR (2 ^ 31) = (2 ^ 31)%R) by (rewrite (pow_IZR 2 31); reflexivity). rewrite T. clear T.
  replace 53%nat with (31 + 22)%nat by reflexivity. rewrite pow_add, Rinv_mult. rewrite <- Rmult_assoc, Rinv_r by (apply pow_nonzero; lra).
  rewrite Rmult_1_l. apply Rinv_le_contravar; [lra|]. apply Rle_trans with (2 ^ 12)%R; [lra | apply pow2_le; lia].
Qed.
Lemma pass_grow M k : (0 <= M)%R -> 0 <= k <= 2 ^ 31 ->
  (mix_error (M + IZR k * pass_error M) <= pass_error M /\ IZR k * pass_error M <= M / 100 + / 100)%R.
Proof.
  intros HM Hk. rewrite pass_error_alt. unfold mix_error. destruct (many_small k Hk) as [K0 K1].
  pose proof roundoff_pos as Rp. pose proof roundoff_lt as Rl. pose proof underflow_pos as Up. pose proof underflow_tiny as Ut.
  assert (KM : (0 <= IZR k * roundoff * M <= / 4000 * M)%R) by (split; [apply Rmult_le_pos; lra | apply Rmult_le_compat_r; lra]).
  assert (KMr : (roundoff * (IZR k * roundoff * M) <= / 4000 * (roundoff * M))%R).
  { replace (roundoff * (IZR k * roundoff * M))%R with (IZR k * roundoff * (roundoff * M))%R by ring.
    apply Rmult_le_compat_r; [apply Rmult_le_pos; lra | lra]. }
  assert (KU : (0 <= IZR k * roundoff * underflow <= / 4000 * underflow)%R) by (split; [apply Rmult_le_pos; lra | apply Rmult_le_compat_r; lra]).
  assert (KU2 : (IZR k * underflow <= / 4000)%R).
  { apply Rle_trans with (IZR k * roundoff * roundoff)%R.
    - rewrite Rmult_assoc. apply Rmult_le_compat_l; [apply IZR_le; lia | lra].
    - rewrite <- (Rmult_1_r (/ 4000)). apply Rmult_le_compat; lra. }
  split.
  - replace (14 * roundoff * (M + IZR k * (32 * roundoff * M + 4 * underflow)))%R with
      (14 * (roundoff * M) + 448 * (roundoff * (IZR k * roundoff * M)) + 56 * (IZR k * roundoff * underflow))%R by ring.
    assert (0 <= roundoff * M)%R by (apply Rmult_le_pos; lra). lra.
  - replace (IZR k * (32 * roundoff * M + 4 * underflow))%R with (32 * (IZR k * roundoff * M) + 4 * (IZR k * underflow))%R by ring. lra.
Qed.

(* sums of basis products with real coefficients *)
Definition csum (knots : list (list R)) (degs : list Z) (c : list Z -> R) (us : list R) : R :=
  lsum (fun idx => basis_product knots degs us idx * c idx)%R (all_indices (point_counts knots degs)).

Definition shadow (ph : phys Fops) : phys (Rops noz) := mkPhys (F := Rops noz) (ph_dim ph) (ph_npts ph) (map dval (ph_cps ph)) None.
Definition exact_spline (knots : list (list float)) degs (ph : phys Fops) : spline (Rops noz) :=
  mkSpline (F := Rops noz) (mkps noz (map (map dval) knots) degs) (shadow ph).

Lemma counts_map (knots : list (list float)) degs : point_counts (map (map dval) knots) degs = point_counts knots degs.
Proof.
  unfold point_counts. revert degs. induction knots as [|k knots IH]; intros [|q degs]; cbn [map map2]; auto. now rewrite IH, zlen_map.
Qed.
Lemma good_map knots degs : Forall2 double_direction knots degs -> Forall2 good_direction (map (map dval) knots) degs.
Proof. induction 1 as [|k q ks qs [_ H] _ IH]; cbn [map]; constructor; auto. Qed.

Lemma exact_wf knots degs (ph : phys Fops) : Forall2 double_direction knots degs -> g_phys_ok ph -> ph_npts ph = point_counts knots degs ->
  well_formed (exact_spline knots degs ph).
Proof.
  intros Hg (Hp & H1 & H2 & _) En. apply wf_build.
  - now apply good_map.
  - split; [exact Hp|]. split; [exact H1|]. split; [|discriminate].
    change (zlen (map dval (ph_cps ph)) = ph_dim ph * total (ph_npts ph)). rewrite zlen_map. exact H2.
  - cbn [shadow ph_npts]. rewrite En, <- counts_map. reflexivity.
Qed.

Lemma csum_near knots degs (ph : phys Fops) c c' us e : Forall2 double_direction knots degs -> g_phys_ok ph -> ph_npts ph = point_counts knots degs ->
  Forall2 (fun kv u => (first_knot kv <= u <= final_knot kv)%R) (map (map dval) knots) us ->
  (forall idx, in_box (point_counts knots degs) idx -> (Rabs (c' idx - c idx) <= e)%R) ->
  (Rabs (csum (map (map dval) knots) degs c' us - csum (map (map dval) knots) degs c us) <= e)%R.
Proof.
  intros Hg Hp En Hu He. pose proof (exact_wf knots degs ph Hg Hp En) as Hwf. set (s := exact_spline knots degs ph) in *.
  assert (Hdom : in_domain s us) by exact Hu.
  pose proof (weight_function_bspline noz s us Hwf eq_refl Hdom) as W.
  assert (EN : npts_of s = point_counts (map (map dval) knots) degs) by (rewrite counts_map; exact En).
  unfold csum. rewrite <- EN. rewrite <- lsum_minus.
  eapply Rle_trans; [apply lsum_abs|].
  apply Rle_trans with (lsum (fun idx => e * (basis_product (map (map dval) knots) degs us idx * weight s idx))%R (all_indices (npts_of s))).
  - apply lsum_le. intros idx Hi. pose proof (products_nonneg s us idx Hwf Hdom Hi) as P.
    change (knots_of s) with (map (map dval) knots) in P. change (degs_of s) with degs in P.
    rewrite <- Rmult_minus_distr_l, Rabs_mult, (Rabs_right _ (Rle_ge _ _ P)). change (weight s idx) with 1%R. rewrite Rmult_1_r, Rmult_comm.
    apply Rmult_le_compat_r; auto. apply He. apply all_indices_box in Hi. rewrite EN, counts_map in Hi. exact Hi.
  - rewrite lsum_scal. change (lsum (fun a => basis_product (map (map dval) knots) degs us a * weight s a)%R (all_indices (npts_of s))) with (weight_function s us).
    rewrite W. lra.
Qed.

Lemma fps_insert_ok (knots : list (list float)) degs d u kv kv' : nth_error knots d = Some kv ->
  Forall2 double_direction (upd knots d kv') degs -> kv_insert (F := Fops) kv u = Ok kv' ->
  ps_insert (F := Fops) (fmkps knots degs) u d = Ok (fmkps (upd knots d kv') degs).
Proof.
  intros Hk Hg Hi. unfold ps_insert, dget. cbn [ps_knots ps_degs fmkps]. change (num Fops) with float. rewrite Hk. cbn [bind].
  rewrite Hi. cbn [bind].
  assert (E : create_bases (F := Fops) (upd knots d kv') degs = Ok (map2 dbfs (upd knots d kv') degs)); [|change (num Fops) with float in E; rewrite E; reflexivity].
  clear - Hg. unfold create_bases. induction Hg as [|k q ks qs Hd _ IH]; cbn [combine mapM map2]; auto.
  destruct (double_finite k q Hd) as (A & B & C & D). cbn [fst snd]. rewrite dcreate_all by lia. cbn [bind].
  change (num Fops) with float in *. rewrite IH. reflexivity.
Qed.

Section Insert.
Variables (knots : list (list float)) (degs : list Z) (d : nat) (kv : list float) (p : Z) (u : float) (n : nat) (ph : phys Fops) (M : R).
Hypothesis Hg : Forall2 double_direction knots degs.
Hypothesis Ek : nth_error knots d = Some kv.
Hypothesis Ed : nth_error degs d = Some p.
Hypothesis Mu : moderate u.
Hypothesis Hin : inner (map dval kv) p (dval u) n.
Hypothesis Hz : zlen kv < 2 ^ 31.
Hypothesis Hph : g_phys_ok ph.
Hypothesis Hw : ph_wts ph = None.
Hypothesis En : ph_npts ph = point_counts knots degs.
Hypothesis Hb : bounded ph M.
Hypothesis HM : (M <= 2 ^ 499)%R.

Lemma ins_kv : double_direction kv p.
Proof. eapply Forall2_nth_error; eauto. Qed.
Lemma ins_dir m : double_direction (finsm kv n u m) p.
Proof.
  destruct ins_kv as [Mk _]. split; [now apply finsm_moderate|]. rewrite map_finsm.
  exact (proj1 (inner_insm _ _ _ _ m Hin)).
Qed.
Lemma ins_dirs m : Forall2 double_direction (upd knots d (finsm kv n u m)) degs.
Proof. apply Forall2_upd; auto. intros q Eq. replace q with p by congruence. apply ins_dir. Qed.
Lemma ins_M : (0 <= M)%R.
Proof.
  destruct Hph as (Hpl & Hs). pose proof (total_pos _ Hpl). pose proof Hs as (Hs1 & _).
  destruct (bounded_at ph M 0 0 _ Hs Hb) as [_ B]; try lia. eapply Rle_trans; [apply Rabs_pos | exact B].
Qed.
Lemma counts_upd kv' : point_counts (upd knots d kv') degs = upd (point_counts knots degs) d (zlen kv' - p - 1).
Proof. unfold point_counts. now rewrite (map2_upd_l _ _ _ d _ p Ed). Qed.
Lemma counts_nth : (d < length (point_counts knots degs))%nat /\ nth d (point_counts knots degs) 0 = zlen kv - p - 1.
Proof.
  clear - Ek Ed. unfold point_counts. revert d degs Ek Ed. induction knots as [|k ks IH]; intros [|d] [|q qs] E1 E2; cbn in *; try discriminate.
  - injection E1 as ->. injection E2 as ->. split; [lia | reflexivity].
  - destruct (IH d qs E1 E2). split; [lia | auto].
Qed.

Lemma f_passes : forall m, Z.of_nat (m + occurrences (map dval kv) (dval u)) <= p + 1 ->
  exists ph', foldM (fun st i => insert_pass (F := Fops) kv p u d i st) (zseq 1 m) (Z.of_nat n - 1, ph) = Ok (Z.of_nat n - 1, ph') /\
    foldM (fun ps (_ : Z) => ps_insert (F := Fops) ps u d) (zseq 0 m) (fmkps knots degs) = Ok (fmkps (upd knots d (finsm kv n u m)) degs) /\
    ph_dim ph' = ph_dim ph /\ ph_npts ph' = point_counts (upd knots d (finsm kv n u m)) degs /\ g_phys_ok ph' /\ ph_wts ph' = None /\
    bounded ph' (M + IZR (Z.of_nat m) * pass_error M) /\
    forall us c, Forall2 (fun kv u => (first_knot kv <= u <= final_knot kv)%R) (map (map dval) knots) us -> 0 <= c < ph_dim ph ->
      (Rabs (csum (map (map dval) (upd knots d (finsm kv n u m))) degs (fun idx => dval (g_pcoord ph' idx c)) us -
             csum (map (map dval) knots) degs (fun idx => dval (g_pcoord ph idx c)) us) <= IZR (Z.of_nat m) * pass_error M)%R.
Proof.
  pose proof ins_M as M0. destruct ins_kv as [Mk _]. pose proof (f_n kv p u n Hin) as Hn1.
  pose proof (inner_ends _ _ _ _ Hin) as [Ie1 Ie2]. rewrite zlen_map in Ie2.
  induction m as [|m IH]; intros Hm.
  - exists ph. rewrite finsm_0, (upd_id _ _ _ Ek). split; [reflexivity|]. split; [reflexivity|]. split; [reflexivity|]. split; [exact En|]. split; [exact Hph|]. split; [exact Hw|].
    split; [change (IZR (Z.of_nat 0)) with 0%R; rewrite Rmult_0_l, Rplus_0_r; exact Hb|].
    intros us c _ _. rewrite Rminus_diag_eq, Rabs_R0 by reflexivity. change (IZR (Z.of_nat 0)) with 0%R. lra.
  - destruct IH as (ph1 & F1 & F2 & D1 & D2 & D3 & D4 & D5 & D6); [lia|].
    set (M1 := (M + IZR (Z.of_nat m) * pass_error M)%R) in *.
    assert (Km : 0 <= Z.of_nat m <= 2 ^ 31) by lia.
    destruct (pass_grow M (Z.of_nat m) M0 Km) as [G1 G2]. fold M1 in G1.
    assert (HM1 : (M1 <= 2 ^ 500)%R).
    { unfold M1. rewrite <- (tech_pow_Rmult 2 499). pose proof (pow2_ge1 499). revert HM H. generalize (2 ^ 499)%R. intros. lra. }
    destruct counts_nth as [Cd Cn].
    assert (LM : zlen (finsm kv n u m) = zlen kv + Z.of_nat m) by (unfold zlen; rewrite finsm_length by lia; lia).
    destruct (f_pass kv p u n Mk Mu Hin m d ph1 M1 ltac:(lia) Hz D3 D4 D5 HM1) as (ph2 & E & B1 & B2 & B3 & B4 & B5 & B6).
    { rewrite D2, counts_upd, upd_length. exact Cd. }
    { rewrite D2, counts_upd, nth_upd_same by exact Cd. rewrite LM. lia. }
    assert (En2 : ph_npts ph2 = point_counts (upd knots d (finsm kv n u (S m))) degs).
    { rewrite B2, D2, !counts_upd, upd_upd, nth_upd_same by exact Cd. f_equal. unfold zlen. rewrite !finsm_length by lia. lia. }
    exists ph2. split; [|split; [|split; [|split; [|split; [|split; [|split]]]]]].
    + replace (zseq 1 (S m)) with (zseq 1 m ++ [Z.of_nat m + 1]).
      * rewrite foldM_app, F1. cbn [bind foldM]. rewrite E. reflexivity.
      * replace (S m) with (m + 1)%nat by lia. rewrite zseq_app. cbn [zseq]. do 2 f_equal. lia.
    + replace (zseq 0 (S m)) with (zseq 0 m ++ [Z.of_nat m]).
      * rewrite foldM_app, F2. cbn [bind foldM].
        rewrite (fps_insert_ok _ _ d u (finsm kv n u m) (finsm kv n u (S m))).
        -- cbn [bind]. rewrite upd_upd. reflexivity.
        -- now apply (nth_error_upd_same _ _ _ kv).
        -- rewrite upd_upd. apply ins_dirs.
        -- rewrite finsm_S by lia. apply (f_insert _ p); [now apply finsm_moderate | exact Mu|]. rewrite map_finsm. now apply inner_insm.
      * replace (S m) with (m + 1)%nat by lia. rewrite zseq_app. cbn [zseq]. do 2 f_equal.
    + congruence.
    + exact En2.
    + exact B3.
    + exact B4.
    + unfold bounded in *. eapply Forall_impl; [|exact B5]. intros x [X1 X2]. split; [exact X1|].
      rewrite Nat2Z.inj_succ, succ_IZR. unfold M1 in X2. fold M1 in X2. unfold M1 at 1 in X2. lra.
    + intros us c Hus Hc. specialize (D6 us c Hus Hc).
      set (K1 := upd knots d (finsm kv n u m)) in *. set (K2 := upd knots d (finsm kv n u (S m))) in *.
      pose proof (exact_wf K1 degs ph1 (ins_dirs m) D3 D2) as W1.
      pose proof (exact_wf K2 degs ph2 (ins_dirs (S m)) B3 En2) as W2.
      destruct (first_insm _ _ _ _ m Hin) as [A1 A2]. destruct (first_insm _ _ _ _ (S m) Hin) as [A3 A4].
      assert (Hus' : forall k, Forall2 (fun kv u => (first_knot kv <= u <= final_knot kv)%R) (map (map dval) (upd knots d (finsm kv n u k))) us).
      { intros k. rewrite map_upd, map_finsm. destruct (first_insm _ _ _ _ k Hin) as [Z1 Z2].
        pose proof (map_nth_error (map dval) d knots Ek) as Ek'.
        clear - Hus Ek' Z1 Z2. revert d Ek'. induction Hus as [|k0 v ks vs Hv H IH]; intros [|d] Ek'; cbn in *; try discriminate; constructor; auto.
        injection Ek' as Ek'. rewrite Z1, Z2, <- Ek'. exact Hv. }
      assert (Ex : csum (map (map dval) K2) degs (fun idx => bal kv p u n m d idx * dval (g_pcoord ph1 idx c) + (1 - bal kv p u n m d idx) * dval (g_pcoord ph1 (below d idx) c))%R us =
                   csum (map (map dval) K1) degs (fun idx => dval (g_pcoord ph1 idx c)) us).
      { pose proof (refine_sums noz (exact_spline K1 degs ph1) (exact_spline K2 degs ph2) d (insm (map dval kv) n (dval u) m) p (dval u) (n + m)
          (fun idx => dval (g_pcoord ph1 idx c)) (fun idx => bal kv p u n m d idx * dval (g_pcoord ph1 idx c) + (1 - bal kv p u n m d idx) * dval (g_pcoord ph1 (below d idx) c))%R us W1 W2) as RS.
        change (knots_of (exact_spline K1 degs ph1)) with (map (map dval) K1) in RS.
        change (knots_of (exact_spline K2 degs ph2)) with (map (map dval) K2) in RS.
        change (degs_of (exact_spline K1 degs ph1)) with degs in RS. change (degs_of (exact_spline K2 degs ph2)) with degs in RS.
        change (npts_of (exact_spline K1 degs ph1)) with (ph_npts ph1) in RS. change (npts_of (exact_spline K2 degs ph2)) with (ph_npts ph2) in RS.
        unfold csum. rewrite !counts_map. rewrite <- D2, <- En2. apply RS; auto.
        - unfold K1. rewrite map_upd, <- map_finsm. apply (nth_error_upd_same _ _ _ (map dval kv)). now apply map_nth_error.
        - now apply inner_insm.
        - unfold K1, K2. rewrite !map_upd, upd_upd, map_finsm. f_equal. apply insm_S. rewrite map_length. lia.
        - apply (Hus' m). }
      pose proof (csum_near K2 degs ph2 (fun idx => bal kv p u n m d idx * dval (g_pcoord ph1 idx c) + (1 - bal kv p u n m d idx) * dval (g_pcoord ph1 (below d idx) c))%R
        (fun idx => dval (g_pcoord ph2 idx c)) us (mix_error M1) (ins_dirs (S m)) B3 En2 (Hus' (S m))) as NR.
      rewrite Ex in NR. assert (NR' := NR ltac:(intros idx Hi; apply B6; [now rewrite En2 | now rewrite D1])). clear NR.
      rewrite Nat2Z.inj_succ, succ_IZR.
      apply Rabs_between in NR'. apply Rabs_between in D6. apply Rabs_le. lra.
Qed.
End Insert.

(* ---- control points as rows ---- *)
Definition rows (ph : phys Fops) : list (list float) :=
  map (fun q => map (fun c => g_cpat ph q c : float) (zseq 0 (Z.to_nat (ph_dim ph)))) (zseq 0 (Z.to_nat (total (ph_npts ph)))).

Lemma rows_dim ph : 1 <= ph_dim ph -> Forall (fun cp => zlen cp = ph_dim ph) (rows ph).
Proof.
  intros H. unfold rows. apply Forall_forall. intros x Hx. apply in_map_iff in Hx as (q & <- & _). unfold zlen. rewrite map_length, zseq_length. lia.
Qed.
Lemma rows_zlen ph : g_phys_ok ph -> zlen (rows ph) = total (ph_npts ph).
Proof. intros (Hp & _). pose proof (total_pos _ Hp). unfold rows, zlen. rewrite map_length, zseq_length. lia. Qed.
Lemma rows_nth ph q c : 0 <= q < total (ph_npts ph) -> 0 <= c < ph_dim ph ->
  nth (Z.to_nat c) (nth (Z.to_nat q) (rows ph) []) 0%float = g_cpat ph q c.
Proof.
  intros Hq Hc. unfold rows. rewrite (nth_map_in _ _ _ 0) by (rewrite zseq_length; lia). rewrite zseq_nth by lia.
  rewrite (nth_map_in _ _ _ 0) by (rewrite zseq_length; lia). rewrite zseq_nth by lia. rewrite !Z2Nat.id, !Z.add_0_l by lia. reflexivity.
Qed.
Lemma rows_concat ph : g_phys_ok ph -> concat (rows ph) = ph_cps ph.
Proof.
  intros H. pose proof H as (Hp & H1 & H2 & _). pose proof (rows_dim ph H1) as Rd. pose proof (rows_zlen ph H) as Rz.
  pose proof (fconcat_zlen (rows ph) (ph_dim ph) Rd) as Lz. change (num Fops) with float in *.
  assert (LL : length (concat (rows ph)) = length (ph_cps ph)).
  { apply Nat2Z.inj. change (zlen (concat (rows ph)) = zlen (ph_cps ph)). rewrite Lz, Rz. symmetry. exact H2. }
  apply (nth_ext _ _ 0%float 0%float); [exact LL|]. intros k Hk. set (z := Z.of_nat k). set (dim := ph_dim ph) in *.
  assert (Hz : 0 <= z < dim * total (ph_npts ph)).
  { unfold z. split; [lia|]. rewrite <- Rz, <- Lz. unfold zlen. now apply inj_lt. }
  pose proof (Z.mod_pos_bound z dim ltac:(lia)) as Hr.
  assert (Hq : 0 <= z / dim < total (ph_npts ph)) by (split; [apply Z.div_pos; lia | apply Z.div_lt_upper_bound; nia]).
  replace k with (Z.to_nat (dim * (z / dim) + z mod dim)) by (rewrite <- Z.div_mod by lia; unfold z; apply Nat2Z.id).
  rewrite (fconcat_nth (rows ph) dim) by (auto; rewrite Rz; auto). rewrite rows_nth by auto. reflexivity.
Qed.

Lemma rows_new knots degs (ph : phys Fops) : Forall2 double_direction knots degs -> g_phys_ok ph -> ph_wts ph = None ->
  ph_npts ph = point_counts knots degs -> total (ph_npts ph) < 2 ^ 64 ->
  spline_new (F := Fops) knots degs (rows ph) None = Ok (mkSpline (F := Fops) (fmkps knots degs) ph).
Proof.
  intros Hg Hp Hw En Ht. pose proof Hp as (_ & H1 & _).
  rewrite (fspline_new_ok knots degs (rows ph) (ph_dim ph)); auto using rows_dim; rewrite ?rows_zlen by auto; try congruence.
  rewrite rows_concat by auto. do 2 f_equal. destruct ph; cbn in *. congruence.
Qed.
Lemma rows_bounded ph M : g_phys_ok ph -> bounded ph M -> Forall (Forall (fun x => finite x /\ (Rabs (dval x) <= M)%R)) (rows ph).
Proof.
  intros (Hp & Hs) Hb. unfold rows. apply Forall_forall. intros x Hx. apply in_map_iff in Hx as (q & <- & Hq). apply zseq_In in Hq.
  apply Forall_forall. intros y Hy. apply in_map_iff in Hy as (c & <- & Hc). apply zseq_In in Hc.
  pose proof (total_pos _ Hp). apply (bounded_at ph M q c _ Hs Hb); pose proof Hs as (H1 & _); lia.
Qed.
Lemma exact_csum knots degs (ph : phys Fops) (cps : list (list float)) us c : g_phys_ok ph -> ph_npts ph = point_counts knots degs -> ph_cps ph = concat cps ->
  Forall (fun cp => zlen cp = ph_dim ph) cps -> zlen cps = total (ph_npts ph) -> 0 <= c < ph_dim ph ->
  exact_coordinate (map (map dval) knots) degs (map (map dval) cps) us c =
  csum (map (map dval) knots) degs (fun idx => dval (g_pcoord ph idx c)) us.
Proof.
  intros Hp En Ec Hd Hz Hc. unfold exact_coordinate, csum. apply lsum_ext. intros idx Hi. f_equal.
  apply all_indices_box in Hi. rewrite counts_map, <- En in *. pose proof (get1d_range _ _ Hi) as Hg.
  rewrite position_get1d. unfold g_pcoord, g_cpat. change (num Fops) with float in *. rewrite Ec, (fconcat_nth cps (ph_dim ph)) by (auto; lia).
  change (@nil R) with (map dval []). rewrite map_nth. rewrite <- (proj2 zero_exact). apply map_nth.
Qed.
Lemma phys_of_rows knots degs (cps : list (list float)) dim M : Forall2 double_direction knots degs -> 1 <= dim ->
  Forall (fun cp => zlen cp = dim) cps -> zlen cps = total (point_counts knots degs) ->
  Forall (Forall (fun x => finite x /\ (Rabs (dval x) <= M)%R)) cps ->
  let ph := mkPhys (F := Fops) dim (point_counts knots degs) (concat cps) None in g_phys_ok ph /\ bounded ph M.
Proof.
  intros Hg Hd Hr Hz Hb. cbv zeta. split.
  - split; [|split; [exact Hd | split; [|discriminate]]].
    + cbn [ph_npts]. unfold pos_lens, point_counts. clear - Hg. induction Hg as [|k q ks qs H _ IH]; cbn [map2]; constructor; auto.
      destruct (double_finite k q H) as (_ & _ & ? & ?). lia.
    + cbn [ph_cps ph_dim ph_npts]. change (num Fops) with float. rewrite (fconcat_zlen cps dim Hr), Hz. reflexivity.
  - unfold bounded. cbn [ph_cps]. clear - Hb. induction Hb as [|cp cps H _ IH]; cbn [concat]; [constructor|]. apply Forall_app. auto.
Qed.

(* ---- InsertKnot ---- *)
Lemma moderate_inside kv p u : double_direction kv p -> finite u -> (first_knot (map dval kv) < dval u < final_knot (map dval kv))%R -> moderate u.
Proof. intros Hd Fu Hu. apply (inside_moderate kv p u Hd). split; [exact Fu | lra]. Qed.
Lemma double_inner kv p u r : double_direction kv p -> insertable (map dval kv) p (dval u) r -> exists n, inner (map dval kv) p (dval u) n.
Proof.
  intros [_ Hg] (Hu & Hs & _). destruct (at_pos_exists noz _ p _ Hg Hs Hu) as (n & Hn & _). exists n. exact (conj Hg (conj Hs (conj Hn Hu))).
Qed.

Definition inside (knots : list (list float)) (us : list R) : Prop :=
  Forall2 (fun kv v => (first_knot (map dval kv) <= v <= final_knot (map dval kv))%R) knots us.
Lemma inside_map knots us : inside knots us -> Forall2 (fun kv u => (first_knot kv <= u <= final_knot kv)%R) (map (map dval) knots) us.
Proof. induction 1; cbn [map]; constructor; auto. Qed.

Lemma insert_phys knots degs d kv p (u : float) r (ph : phys Fops) M : Forall2 double_direction knots degs -> nth_error knots d = Some kv -> nth_error degs d = Some p ->
  finite u -> insertable (map dval kv) p (dval u) r -> 0 <= r -> zlen kv < 2 ^ 31 ->
  g_phys_ok ph -> ph_wts ph = None -> ph_npts ph = point_counts knots degs -> bounded ph M -> (M <= 2 ^ 499)%R ->
  exists kv' ph', insert_knot (mkSpline (F := Fops) (fmkps knots degs) ph) u d r = Ok (mkSpline (F := Fops) (fmkps (upd knots d kv') degs) ph') /\
    Permutation kv' (repeat u (Z.to_nat r) ++ kv) /\ double_direction kv' p /\
    first_knot (map dval kv') = first_knot (map dval kv) /\ final_knot (map dval kv') = final_knot (map dval kv) /\
    ph_dim ph' = ph_dim ph /\ ph_npts ph' = point_counts (upd knots d kv') degs /\ g_phys_ok ph' /\ ph_wts ph' = None /\
    bounded ph' (M + IZR r * pass_error M) /\
    forall us c, inside knots us -> 0 <= c < ph_dim ph ->
      (Rabs (csum (map (map dval) (upd knots d kv')) degs (fun idx => dval (g_pcoord ph' idx c)) us -
             csum (map (map dval) knots) degs (fun idx => dval (g_pcoord ph idx c)) us) <= IZR r * pass_error M)%R.
Proof.
  intros Hg Ek Ed Fu Hins Hr Hz Hph Hw En Hb HM.
  assert (Hkv : double_direction kv p) by (eapply Forall2_nth_error; eauto).
  assert (Mu : moderate u) by (apply (moderate_inside kv p); auto; apply Hins).
  destruct (double_inner kv p u r Hkv Hins) as (n & Hin). pose proof Hins as (_ & _ & Ho).
  destruct (f_passes knots degs d kv p u n ph M Hg Ek Ed Mu Hin Hz Hph Hw En Hb HM (Z.to_nat r) ltac:(lia)) as (ph' & F1 & F2 & D1 & D2 & D3 & D4 & D5 & D6).
  rewrite Z2Nat.id in * by auto.
  exists (finsm kv n u (Z.to_nat r)), ph'. split.
  { unfold insert_knot, sp_knots, sp_deg, dget. cbn [sp_ps sp_ph ps_knots ps_degs fmkps]. change (num Fops) with float. rewrite Ek. cbn [bind].
    destruct Hkv as [Mk _]. rewrite (f_span kv p u n Mk Mu Hin). cbn [bind]. rewrite Ed. cbn [bind].
    rewrite !for_up_foldM. replace (r + 1 - 1) with r by lia. replace (r - 0) with r by lia.
    change (num Fops) with float in *. rewrite F1. cbn [bind]. change (mkPS (F := Fops) knots degs (map2 dbfs knots degs)) with (fmkps knots degs).
    rewrite F2. reflexivity. }
  split; [apply finsm_perm|]. split; [now apply (ins_dir knots degs d kv p u n)|].
  destruct (first_insm _ _ _ _ (Z.to_nat r) Hin) as [A1 A2]. rewrite !map_finsm. split; [exact A1|]. split; [exact A2|].
  repeat (split; [assumption|]). intros us c Hus Hc. apply D6; [now apply inside_map | exact Hc].
Qed.

Lemma counts_grow knots degs d kv kv' p : nth_error knots d = Some kv -> nth_error degs d = Some p -> Forall2 double_direction knots degs ->
  zlen kv <= zlen kv' -> total (point_counts (upd knots d kv') degs) <= total (point_counts knots degs) * (1 + (zlen kv' - zlen kv)).
Proof.
  intros Ek Ed Hg Hl. rewrite (counts_upd knots degs d p Ed).
  destruct (counts_nth knots degs d kv p Ek Ed) as [Cd Cn].
  assert (Hp : pos_lens (point_counts knots degs)).
  { unfold pos_lens, point_counts. clear - Hg. induction Hg as [|k q ks qs H _ IH]; cbn [map2]; constructor; auto.
    destruct (double_finite k q H) as (_ & _ & ? & ?). lia. }
  rewrite total_upd by auto. rewrite <- (total_remove_at (point_counts knots degs) d) by auto. rewrite Cn.
  pose proof (pos_lens_nth _ d Hp Cd) as P. rewrite Cn in P.
  assert (1 <= total (remove_at d (point_counts knots degs))).
  { apply total_pos. unfold pos_lens in *. clear - Hp. revert d. induction Hp as [|x l Hx Hl IH]; intros [|d]; cbn; auto. }
  set (t := total (remove_at d (point_counts knots degs))) in *. set (b := zlen kv' - zlen kv). set (a := zlen kv - p - 1) in *.
  replace (zlen kv' - p - 1) with (a + b) by (unfold a, b; lia). assert (0 <= b) by (unfold b; lia). clearbody a b t.
  assert (0 <= (a - 1) * (t * b)) by (apply Z.mul_nonneg_nonneg; [lia | apply Z.mul_nonneg_nonneg; lia]). nia.
Qed.

Lemma double_insert : forall (knots : list (list float)) degs (cps : list (list float)) d kv p (u : float) r dim M,
  Forall2 double_direction knots degs -> nth_error knots d = Some kv -> nth_error degs d = Some p ->
  finite u -> insertable (map dval kv) p (dval u) r -> 0 <= r -> zlen kv < 2 ^ 31 ->
  1 <= dim -> Forall (fun cp => zlen cp = dim) cps -> zlen cps = total (point_counts knots degs) -> zlen cps * (1 + r) < 2 ^ 64 ->
  Forall (Forall (fun x => finite x /\ (Rabs (dval x) <= M)%R)) cps -> (M <= 2 ^ 499)%R ->
  exists s s' kv' cps', spline_new (F := Fops) knots degs cps None = Ok s /\ insert_knot s u d r = Ok s' /\
    spline_new (F := Fops) (upd knots d kv') degs cps' None = Ok s' /\
    Permutation kv' (repeat u (Z.to_nat r) ++ kv) /\ double_direction kv' p /\
    zlen cps' = total (point_counts (upd knots d kv') degs) /\ Forall (fun cp => zlen cp = dim) cps' /\
    Forall (Forall (fun x => finite x /\ (Rabs (dval x) <= M + IZR r * (M * / 2 ^ 48 + 4 * underflow))%R)) cps' /\
    forall us c, Forall2 (fun kv v => (first_knot (map dval kv) <= v <= final_knot (map dval kv))%R) knots us -> 0 <= c < dim ->
      (Rabs (exact_coordinate (map (map dval) (upd knots d kv')) degs (map (map dval) cps') us c -
             exact_coordinate (map (map dval) knots) degs (map (map dval) cps) us c) <= IZR r * (M * / 2 ^ 48 + 4 * underflow))%R.
Proof.
  intros knots degs cps d kv p u r dim M Hg Ek Ed Fu Hins Hr Hz Hd Hrow Hn Hb Hv HM.
  destruct (phys_of_rows knots degs cps dim M Hg Hd Hrow Hn Hv) as [Hph Hbd]. set (ph := mkPhys (F := Fops) dim (point_counts knots degs) (concat cps) None) in *.
  destruct (insert_phys knots degs d kv p u r ph M Hg Ek Ed Fu Hins Hr Hz Hph eq_refl eq_refl Hbd HM) as (kv' & ph' & E & Pm & Dk & _ & _ & D1 & D2 & D3 & D4 & D5 & D6).
  assert (Lk : zlen kv' = zlen kv + r).
  { apply Permutation_length in Pm. rewrite app_length, repeat_length in Pm. unfold zlen. lia. }
  assert (Hg' : Forall2 double_direction (upd knots d kv') degs).
  { apply Forall2_upd; auto. intros q Eq. replace q with p by congruence. exact Dk. }
  pose proof (counts_grow knots degs d kv kv' p Ek Ed Hg ltac:(lia)) as Ct. rewrite Lk in Ct. replace (zlen kv + r - zlen kv) with r in Ct by lia.
  change (ph_dim ph) with dim in *.
  assert (H0 : 0 <= zlen cps) by (unfold zlen; lia).
  assert (Hdim' : 1 <= ph_dim ph') by (rewrite D1; exact Hd).
  exists (mkSpline (F := Fops) (fmkps knots degs) ph), (mkSpline (F := Fops) (fmkps (upd knots d kv') degs) ph'), kv', (rows ph').
  split; [apply fspline_new_ok; auto; nia|]. split; [exact E|]. split; [apply rows_new; auto; rewrite D2; nia|].
  split; [exact Pm|]. split; [exact Dk|]. split; [rewrite rows_zlen, D2 by auto; reflexivity|]. split; [rewrite <- D1; now apply rows_dim|].
  split; [now apply rows_bounded|].
  intros us c Hus Hc.
  rewrite (exact_csum knots degs ph cps us c) by (auto; reflexivity).
  rewrite (exact_csum (upd knots d kv') degs ph' (rows ph') us c);
    [now apply D6 | exact D3 | exact D2 | symmetry; now apply rows_concat | now apply rows_dim | now apply rows_zlen | now rewrite D1].
Qed.

(* ---- evaluating the result ---- *)
Lemma double_insert_evaluate : forall (knots : list (list float)) degs (cps : list (list float)) d kv p (u : float) r (us : list float) dim dims M,
  Forall2 double_direction knots degs -> nth_error knots d = Some kv -> nth_error degs d = Some p ->
  finite u -> insertable (map dval kv) p (dval u) r -> 0 <= r -> zlen kv < 2 ^ 31 ->
  1 <= dim -> Forall (fun cp => zlen cp = dim) cps -> zlen cps = total (point_counts knots degs) -> zlen cps * (1 + r) < 2 ^ 64 ->
  Forall (Forall (fun x => finite x /\ (Rabs (dval x) <= M)%R)) cps -> (M <= 2 ^ 499)%R ->
  Forall2 double_parameter knots us -> Forall (fun c => 0 <= c < dim) dims ->
  degree_cost degs + summands degs + 1 <= 2 ^ 50 -> depth degs <= 500 ->
  exists s s' vs, spline_new (F := Fops) knots degs cps None = Ok s /\ insert_knot s u d r = Ok s' /\ evaluate s' us dims = Ok vs /\
    let e := (M * / 2 ^ 48 + 4 * underflow)%R in
    let M' := (M + IZR r * e)%R in
    Forall2 (fun c v => finite v /\
      (Rabs (dval v - exact_coordinate (map (map dval) knots) degs (map (map dval) cps) (map dval us) c) <=
        IZR (degree_cost degs + summands degs + 1) * / 2 ^ 52 * M' +
        2 * IZR (summands degs) * (4 ^ Z.to_nat (depth degs) * M' + 1) * underflow + IZR r * e)%R) dims vs.
Proof.
  intros knots degs cps d kv p u r us dim dims M Hg Ek Ed Fu Hins Hr Hz Hd Hrow Hn Hb Hv HM Hus Hdims Hc1 Hc2.
  destruct (double_insert knots degs cps d kv p u r dim M Hg Ek Ed Fu Hins Hr Hz Hd Hrow Hn Hb Hv HM)
    as (s & s' & kv' & cps' & E1 & E2 & E3 & Pm & Dk & Z' & R' & B' & X).
  assert (Hkv : double_direction kv p) by (eapply Forall2_nth_error; eauto).
  assert (Hg' : Forall2 double_direction (upd knots d kv') degs).
  { apply Forall2_upd; auto. intros q Eq. replace q with p by congruence. exact Dk. }
  assert (Lk : zlen kv' = zlen kv + r).
  { apply Permutation_length in Pm. rewrite app_length, repeat_length in Pm. unfold zlen. lia. }
  pose proof (counts_grow knots degs d kv kv' p Ek Ed Hg ltac:(lia)) as Ct. rewrite Lk in Ct. replace (zlen kv + r - zlen kv) with r in Ct by lia.
  assert (H0 : 0 <= zlen cps) by (unfold zlen; lia).
  assert (M0 : (0 <= M)%R).
  { destruct (phys_of_rows knots degs cps dim M Hg Hd Hrow Hn Hv) as [Hph Hbd]. exact (ins_M _ M Hph Hbd). }
  set (e := (M * / 2 ^ 48 + 4 * underflow)%R) in *. set (M' := (M + IZR r * e)%R) in *.
  assert (Hz' : zlen cps' < 2 ^ 64) by (rewrite Z'; rewrite Hn in Hb; nia).
  assert (Hr31 : 0 <= r <= 2 ^ 31).
  { destruct Hins as (_ & _ & Ho). destruct (double_finite kv p Hkv) as (_ & _ & _ & Hl). lia. }
  assert (HM' : (M' <= 2 ^ 500)%R).
  { destruct (pass_grow M r M0 Hr31) as [_ G2]. unfold M'. fold (pass_error M) in e. unfold e. fold (pass_error M).
    rewrite <- (tech_pow_Rmult 2 499). pose proof (pow2_ge1 499) as P. revert HM P. generalize (2 ^ 499)%R. intros. lra. }
  assert (Us' : Forall2 double_parameter (upd knots d kv') us).
  { assert (Ends : first_knot (map dval kv') = first_knot (map dval kv) /\ final_knot (map dval kv') = final_knot (map dval kv)).
    { destruct (phys_of_rows knots degs cps dim M Hg Hd Hrow Hn Hv) as [Hph Hbd].
      pose proof (fspline_new_ok knots degs cps dim Hg Hrow Hn ltac:(nia)) as E1'. rewrite E1 in E1'. injection E1' as ->.
      destruct (insert_phys knots degs d kv p u r _ M Hg Ek Ed Fu Hins Hr Hz Hph eq_refl eq_refl Hbd HM) as (k2 & ph2 & Q & _ & _ & Q1 & Q2 & _).
      pose proof (eq_trans (eq_sym E2) Q) as Q'. injection Q' as ->.
      pose proof (fspline_new_ok (upd knots d kv') degs cps' dim Hg' R' Z' Hz') as E3'. rewrite E3 in E3'. injection E3' as EK _ _.
      assert (k2 = kv').
      { pose proof (nth_error_upd_same knots d k2 kv Ek) as T1. pose proof (nth_error_upd_same knots d kv' kv Ek) as T2. change (num Fops) with float in *. rewrite EK in T1. congruence. }
      subst k2. auto. }
    destruct Ends as [A1 A2]. clear - Hus Ek A1 A2. revert d Ek. induction Hus as [|k v ks vs Hv H IH]; intros [|d] Ek; cbn in *; try discriminate; constructor; auto.
    injection Ek as ->. unfold double_parameter in *. rewrite A1, A2. exact Hv. }
  assert (Bm : Forall (Forall moderate) cps').
  { eapply Forall_impl; [|exact B']. intros l Hl. eapply Forall_impl; [|exact Hl]. intros x [X1 X2]. split; [exact X1 | lra]. }
  assert (Bb : Forall (Forall (fun x => Rabs (dval x) <= M')%R) cps').
  { eapply Forall_impl; [|exact B']. intros l Hl. eapply Forall_impl; [|exact Hl]. intros x [_ X2]. exact X2. }
  destruct (double_evaluate (upd knots d kv') degs cps' us dim dims M' Hg' Us' R' Z' Hz' Hdims Bm Bb HM' Hc1 Hc2) as (s2 & vs & E4 & E5 & V).
  rewrite E3 in E4. injection E4 as <-. exists s, s', vs. split; [exact E1|]. split; [exact E2|]. split; [exact E5|]. cbv zeta. fold e. fold M'.
  assert (Din : forall c, In c dims -> 0 <= c < dim) by (now apply Forall_forall).
  assert (Dom : Forall2 (fun kv v => (first_knot (map dval kv) <= v <= final_knot (map dval kv))%R) knots (map dval us)).
  { clear - Hus. induction Hus as [|k v ks vs [_ Hv] _ IH]; cbn [map]; constructor; auto. }
  clear - V Din Dom X. induction V as [|c v dims vs [V1 V2] _ IH]; constructor.
  - split; [exact V1|]. specialize (X (map dval us) c Dom (Din c (or_introl eq_refl))).
    set (b := (IZR (degree_cost degs + summands degs + 1) * / 2 ^ 52 * M' + 2 * IZR (summands degs) * (4 ^ Z.to_nat (depth degs) * M' + 1) * underflow)%R) in *.
    clearbody b e M'. apply Rabs_between in V2. apply Rabs_between in X. clear - V2 X. apply Rabs_le. lra.
  - apply IH. intros; apply Din. now right.
Qed.

(* ---- RefineKnots ---- *)
Lemma refine_grow M k : (0 <= M)%R -> 0 <= k <= 2 ^ 31 -> (pass_error (M + IZR k * (2 * pass_error M)) <= 2 * pass_error M)%R.
Proof.
  intros HM Hk. destruct (many_small k Hk) as [K0 K1]. pose proof (pass_error_nonneg M HM) as P.
  rewrite (pass_error_alt (M + _)). replace (32 * roundoff * (M + IZR k * (2 * pass_error M)) + 4 * underflow)%R with
    (pass_error M + 64 * (IZR k * roundoff * pass_error M))%R by (rewrite (pass_error_alt M) at 1; ring).
  assert (IZR k * roundoff * pass_error M <= / 4000 * pass_error M)%R by (apply Rmult_le_compat_r; lra). lra.
Qed.

Lemma refine_phys degs d p M : (0 <= M)%R -> (M <= 2 ^ 498)%R -> nth_error degs d = Some p -> forall (new : list float) knots kv (ph : phys Fops) k,
  Forall2 double_direction knots degs -> nth_error knots d = Some kv ->
  Forall finite new -> all_insertable (map dval kv) p (map dval new) -> zlen kv + zlen new <= 2 ^ 31 -> 0 <= k -> k + zlen new <= 2 ^ 31 ->
  g_phys_ok ph -> ph_wts ph = None -> ph_npts ph = point_counts knots degs -> bounded ph (M + IZR k * (2 * pass_error M)) ->
  exists kv' ph', refine_knots (mkSpline (F := Fops) (fmkps knots degs) ph) new d = Ok (mkSpline (F := Fops) (fmkps (upd knots d kv') degs) ph') /\
    Permutation kv' (new ++ kv) /\ double_direction kv' p /\
    first_knot (map dval kv') = first_knot (map dval kv) /\ final_knot (map dval kv') = final_knot (map dval kv) /\
    ph_dim ph' = ph_dim ph /\ ph_npts ph' = point_counts (upd knots d kv') degs /\ g_phys_ok ph' /\ ph_wts ph' = None /\
    bounded ph' (M + IZR (k + zlen new) * (2 * pass_error M)) /\
    forall us c, inside knots us -> 0 <= c < ph_dim ph ->
      (Rabs (csum (map (map dval) (upd knots d kv')) degs (fun idx => dval (g_pcoord ph' idx c)) us -
             csum (map (map dval) knots) degs (fun idx => dval (g_pcoord ph idx c)) us) <= IZR (zlen new) * (2 * pass_error M))%R.
Proof.
  intros M0 HM Ed. induction new as [|u new IH]; intros knots kv ph k Hg Ek Hf (Hall & Hsep & Hocc) Hz Hk Hkn Hph Hw En Hb.
  - exists kv, ph. rewrite (upd_id _ _ _ Ek). split; [reflexivity|]. split; [reflexivity|]. split; [eapply Forall2_nth_error; eauto|].
    split; [reflexivity|]. split; [reflexivity|]. split; [reflexivity|]. split; [exact En|]. split; [exact Hph|]. split; [exact Hw|].
    change (zlen (@nil float)) with 0. rewrite Z.add_0_r. split; [exact Hb|].
    intros us c _ _. rewrite Rminus_diag_eq, Rabs_R0 by reflexivity. lra.
  - inversion Hf as [|? ? Fu Hf']; subst. cbn [map] in Hall, Hsep, Hocc.
    assert (Zc : zlen (u :: new) = zlen new + 1) by (unfold zlen; cbn [length]; lia). rewrite Zc in *. assert (0 <= zlen new) by (unfold zlen; lia).
    assert (0 <= zlen kv) by (unfold zlen; lia).
    assert (Hins : insertable (map dval kv) p (dval u) 1).
    { split; [now inversion Hall|]. split.
      - apply (separated_incl _ ((dval u :: map dval new) ++ map dval kv)); auto. intros x [<-|Hx]; [now left | right; apply in_app_iff; auto].
      - specialize (Hocc (dval u) (or_introl eq_refl)). unfold occurrences in *. cbn [app count_occ] in Hocc.
        destruct (Req_EM_T (dval u) (dval u)); [|congruence]. rewrite count_occ_app in Hocc. lia. }
    set (M1 := (M + IZR k * (2 * pass_error M))%R) in *.
    pose proof (refine_grow M k M0 ltac:(lia)) as G1. fold M1 in G1.
    assert (HM1 : (M1 <= 2 ^ 499)%R).
    { destruct (pass_grow M k M0 ltac:(lia)) as [_ G2]. unfold M1. rewrite <- (tech_pow_Rmult 2 498). pose proof (pow2_ge1 498) as P.
      revert HM P. generalize (2 ^ 498)%R. intros. lra. }
    destruct (insert_phys knots degs d kv p u 1 ph M1 Hg Ek Ed Fu Hins ltac:(lia) ltac:(lia) Hph Hw En Hb HM1)
      as (kv1 & ph1 & E & Pm & Dk & A1 & A2 & D1 & D2 & D3 & D4 & D5 & D6).
    change (repeat u (Z.to_nat 1) ++ kv) with (u :: kv) in Pm.
    assert (Hg1 : Forall2 double_direction (upd knots d kv1) degs).
    { apply Forall2_upd; auto. intros q Eq. replace q with p by congruence. exact Dk. }
    assert (Pm2 : Permutation (map dval new ++ map dval kv1) ((dval u :: map dval new) ++ map dval kv)).
    { rewrite (Permutation_map dval Pm). cbn [map app]. symmetry. apply Permutation_middle. }
    destruct (IH (upd knots d kv1) kv1 ph1 (k + 1) Hg1) as (kv2 & ph2 & E2 & Pm3 & Dk2 & A3 & A4 & X1 & X2 & X3 & X4 & X5 & X6); auto.
    + now apply (nth_error_upd_same _ _ _ kv).
    + split; [|split].
      * inversion Hall; subst. rewrite A1, A2. auto.
      * apply (separated_incl _ ((dval u :: map dval new) ++ map dval kv)); auto. intros x. apply Permutation_in; auto.
      * intros v Hv. rewrite (occ_perm _ _ v Pm2). apply Hocc. now right.
    + apply Permutation_length in Pm. unfold zlen in *. cbn [length] in *. lia.
    + lia.
    + lia.
    + unfold bounded in *. eapply Forall_impl; [|exact D5]. intros x [Y1 Y2]. split; [exact Y1|]. rewrite plus_IZR. fold M1 in Y2. unfold M1 at 1 in Y2. lra.
    + rewrite upd_upd in *. exists kv2, ph2. split; [unfold refine_knots in *; cbn [foldM]; rewrite E; exact E2|].
      split; [transitivity (new ++ kv1); auto; rewrite Pm; symmetry; apply Permutation_middle|]. split; [exact Dk2|].
      split; [congruence|]. split; [congruence|]. split; [congruence|]. split; [exact X2|]. split; [exact X3|]. split; [exact X4|].
      split; [replace (k + (zlen new + 1)) with (k + 1 + zlen new) by lia; exact X5|].
      intros us c Hus Hc. specialize (D6 us c Hus Hc).
      assert (Hus1 : inside (upd knots d kv1) us).
      { unfold inside in *. clear - Hus Ek A1 A2. revert d Ek. induction Hus as [|k0 v ks vs Hv H IH]; intros [|d] Ek; cbn in *; try discriminate; constructor; auto.
        injection Ek as ->. rewrite A1, A2. exact Hv. }
      specialize (X6 us c Hus1 ltac:(now rewrite D1)). rewrite plus_IZR.
      apply Rabs_between in D6. apply Rabs_between in X6. apply Rabs_le. lra.
Qed.

Lemma double_refine : forall (knots : list (list float)) degs (cps : list (list float)) d kv p (new : list float) dim M,
  Forall2 double_direction knots degs -> nth_error knots d = Some kv -> nth_error degs d = Some p ->
  Forall finite new -> all_insertable (map dval kv) p (map dval new) -> zlen kv + zlen new <= 2 ^ 31 ->
  1 <= dim -> Forall (fun cp => zlen cp = dim) cps -> zlen cps = total (point_counts knots degs) -> zlen cps * (1 + zlen new) < 2 ^ 64 ->
  Forall (Forall (fun x => finite x /\ (Rabs (dval x) <= M)%R)) cps -> (M <= 2 ^ 498)%R ->
  exists s s' kv' cps', spline_new (F := Fops) knots degs cps None = Ok s /\ refine_knots s new d = Ok s' /\
    spline_new (F := Fops) (upd knots d kv') degs cps' None = Ok s' /\
    Permutation kv' (new ++ kv) /\ double_direction kv' p /\
    zlen cps' = total (point_counts (upd knots d kv') degs) /\ Forall (fun cp => zlen cp = dim) cps' /\
    Forall (Forall (fun x => finite x /\ (Rabs (dval x) <= M + IZR (zlen new) * (M * / 2 ^ 47 + 8 * underflow))%R)) cps' /\
    forall us c, Forall2 (fun kv v => (first_knot (map dval kv) <= v <= final_knot (map dval kv))%R) knots us -> 0 <= c < dim ->
      (Rabs (exact_coordinate (map (map dval) (upd knots d kv')) degs (map (map dval) cps') us c -
             exact_coordinate (map (map dval) knots) degs (map (map dval) cps) us c) <= IZR (zlen new) * (M * / 2 ^ 47 + 8 * underflow))%R.
Proof.
  intros knots degs cps d kv p new dim M Hg Ek Ed Hf Hall Hz Hd Hrow Hn Hb Hv HM.
  destruct (phys_of_rows knots degs cps dim M Hg Hd Hrow Hn Hv) as [Hph Hbd]. set (ph := mkPhys (F := Fops) dim (point_counts knots degs) (concat cps) None) in *.
  pose proof (ins_M ph M Hph Hbd) as M0. assert (N0 : 0 <= zlen new) by (unfold zlen; lia). assert (K0 : 0 <= zlen kv) by (unfold zlen; lia).
  destruct (refine_phys degs d p M M0 HM Ed new knots kv ph 0 Hg Ek Hf Hall Hz ltac:(lia) ltac:(lia) Hph eq_refl eq_refl) as (kv' & ph' & E & Pm & Dk & _ & _ & D1 & D2 & D3 & D4 & D5 & D6).
  { rewrite Rmult_0_l, Rplus_0_r. exact Hbd. }
  rewrite Z.add_0_l in D5.
  replace (M * / 2 ^ 47 + 8 * underflow)%R with (2 * pass_error M)%R.
  2:{ unfold pass_error. replace (/ 2 ^ 47)%R with (2 * / 2 ^ 48)%R; [ring|]. rewrite <- (tech_pow_Rmult 2 47), Rinv_mult. field. }
  assert (Lk : zlen kv' = zlen kv + zlen new).
  { apply Permutation_length in Pm. rewrite app_length in Pm. unfold zlen. lia. }
  assert (Hg' : Forall2 double_direction (upd knots d kv') degs).
  { apply Forall2_upd; auto. intros q Eq. replace q with p by congruence. exact Dk. }
  pose proof (counts_grow knots degs d kv kv' p Ek Ed Hg ltac:(lia)) as Ct. rewrite Lk in Ct. replace (zlen kv + zlen new - zlen kv) with (zlen new) in Ct by lia.
  change (ph_dim ph) with dim in *.
  assert (H0 : 0 <= zlen cps) by (unfold zlen; lia).
  assert (Hdim' : 1 <= ph_dim ph') by (rewrite D1; exact Hd).
  exists (mkSpline (F := Fops) (fmkps knots degs) ph), (mkSpline (F := Fops) (fmkps (upd knots d kv') degs) ph'), kv', (rows ph').
  split; [apply fspline_new_ok; auto; nia|]. split; [exact E|]. split; [apply rows_new; auto; rewrite D2; nia|].
  split; [exact Pm|]. split; [exact Dk|]. split; [rewrite rows_zlen, D2 by auto; reflexivity|]. split; [rewrite <- D1; now apply rows_dim|].
  split; [now apply rows_bounded|].
  intros us c Hus Hc.
  rewrite (exact_csum knots degs ph cps us c) by (auto; reflexivity).
  rewrite (exact_csum (upd knots d kv') degs ph' (rows ph') us c);
    [now apply D6 | exact D3 | exact D2 | symmetry; now apply rows_concat | now apply rows_dim | now apply rows_zlen | now rewrite D1].
Qed.
