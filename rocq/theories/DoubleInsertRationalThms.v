(* Knot insertion into NURBS in doubles keeps the spline up to rounding. *)
From Coq Require Import ZArith List Bool Lia Reals Floats Lra Psatz Permutation.
From Verif Require Import Base BaseFacts RSum MultiIndex MultiIndexSpec MultiIndexFacts TensorSum
  KnotVec KnotVecSpec KnotVecFacts Boehm Basis BasisSpec BSplineTheory BasisFacts VecUtils
  Spaces SpacesSpec SpacesFacts SplineEval SplineEdit SplineSpec EvalFacts RationalDeriv EvalDeriv EvalThms SplineNew
  PhysFacts AdjustFacts InsertKnots InsertFacts InsertThms EditSpec NearMap AdjustAny
  DoubleSpec DoubleRationalSpec DoubleFacts DoubleError DoubleKnots DoubleBasis DoubleSum DoubleEval DoubleThms DoubleRationalEval DoubleRationalThms
  DoubleMix DoubleMixRational DoubleInsert DoubleInsertThms DoubleInsertRational.
Import ListNotations.
Open Scope Z_scope.

Definition hom (ph : phys Fops) (c : Z) (idx : list Z) : R := (dval (g_pweight ph idx) * dval (g_pcoord ph idx c))%R.
Definition wgt (ph : phys Fops) (idx : list Z) : R := dval (g_pweight ph idx).

Section Insert.
Variables (knots : list (list float)) (degs : list Z) (d : nat) (kv : list float) (p : Z) (u : float) (n : nat) (ph : phys Fops) (M m0 W X Y z : R).
Hypothesis Hg : Forall2 double_direction knots degs.
Hypothesis Ek : nth_error knots d = Some kv.
Hypothesis Ed : nth_error degs d = Some p.
Hypothesis Mu : moderate u.
Hypothesis Hin : inner (map dval kv) p (dval u) n.
Hypothesis Hz : zlen kv < 2 ^ 31.
Hypothesis Hph : g_phys_ok ph.
Hypothesis En : ph_npts ph = point_counts knots degs.
Hypothesis Hb : wbounded ph M m0 W.
Hypothesis HX : (0 <= X <= 2 ^ 500)%R.
Hypothesis HY : (0 <= Y <= 2 ^ 102)%R.
Hypothesis Hz0 : (/ 2 ^ 102 <= z)%R.
Let e := mix_error Y.
Let g := grow X Y z.

Lemma e_nonneg : (0 <= e)%R.
Proof. apply mix_error_nonneg. lra. Qed.
Lemma g_nonneg : (0 <= g)%R.
Proof.
  apply grow_nonneg; [lra | lra|]. eapply Rlt_le_trans; [|exact Hz0]. apply Rinv_0_lt_compat, pow_lt. lra.
Qed.

(* sums before and after one pass *)
Lemma sum_step m (ph1 ph2 : phys Fops) (c1 c2 : list Z -> R) us b :
  g_phys_ok ph1 -> ph_npts ph1 = point_counts (upd knots d (finsm kv n u m)) degs ->
  g_phys_ok ph2 -> ph_npts ph2 = point_counts (upd knots d (finsm kv n u (S m))) degs ->
  Forall2 (fun kv u => (first_knot kv <= u <= final_knot kv)%R) (map (map dval) knots) us ->
  (forall idx, in_box (ph_npts ph2) idx -> (Rabs (c2 idx - (bal kv p u n m d idx * c1 idx + (1 - bal kv p u n m d idx) * c1 (below d idx))) <= b)%R) ->
  (Rabs (csum (map (map dval) (upd knots d (finsm kv n u (S m)))) degs c2 us - csum (map (map dval) (upd knots d (finsm kv n u m))) degs c1 us) <= b)%R.
Proof.
  intros D3 D2 B3 En2 Hus Hc. pose proof (f_n kv p u n Hin) as Hn1.
  assert (Dirs : forall k, Forall2 double_direction (upd knots d (finsm kv n u k)) degs) by (intros k; now apply (ins_dirs knots degs d kv p u n)).
  set (K1 := upd knots d (finsm kv n u m)) in *. set (K2 := upd knots d (finsm kv n u (S m))) in *.
  pose proof (exact_wf K1 degs ph1 (Dirs m) D3 D2) as W1.
  pose proof (exact_wf K2 degs ph2 (Dirs (S m)) B3 En2) as W2.
  assert (Hus' : forall k, Forall2 (fun kv u => (first_knot kv <= u <= final_knot kv)%R) (map (map dval) (upd knots d (finsm kv n u k))) us).
  { intros k. rewrite map_upd, map_finsm. destruct (first_insm _ _ _ _ k Hin) as [Z1 Z2].
    pose proof (map_nth_error (map dval) d knots Ek) as Ek'.
    clear - Hus Ek' Z1 Z2. revert d Ek'. induction Hus as [|k0 v ks vs Hv H IH]; intros [|d] Ek'; cbn in *; try discriminate; constructor; auto.
    injection Ek' as Ek'. rewrite Z1, Z2, <- Ek'. exact Hv. }
  assert (Ex : csum (map (map dval) K2) degs (fun idx => bal kv p u n m d idx * c1 idx + (1 - bal kv p u n m d idx) * c1 (below d idx))%R us =
               csum (map (map dval) K1) degs c1 us).
  { pose proof (refine_sums noz (exact_spline K1 degs ph1) (exact_spline K2 degs ph2) d (insm (map dval kv) n (dval u) m) p (dval u) (n + m)
      c1 (fun idx => bal kv p u n m d idx * c1 idx + (1 - bal kv p u n m d idx) * c1 (below d idx))%R us W1 W2) as RS.
    change (knots_of (exact_spline K1 degs ph1)) with (map (map dval) K1) in RS.
    change (knots_of (exact_spline K2 degs ph2)) with (map (map dval) K2) in RS.
    change (degs_of (exact_spline K1 degs ph1)) with degs in RS. change (degs_of (exact_spline K2 degs ph2)) with degs in RS.
    change (npts_of (exact_spline K1 degs ph1)) with (ph_npts ph1) in RS. change (npts_of (exact_spline K2 degs ph2)) with (ph_npts ph2) in RS.
    unfold csum. rewrite !counts_map. rewrite <- D2, <- En2. apply RS; auto.
    - unfold K1. rewrite map_upd, <- map_finsm. apply (nth_error_upd_same _ _ _ (map dval kv)). now apply map_nth_error.
    - now apply inner_insm.
    - unfold K1, K2. rewrite !map_upd, upd_upd, map_finsm. f_equal. apply insm_S. rewrite map_length. lia.
    - apply (Hus' m). }
  rewrite <- Ex. apply (csum_near K2 degs ph2 _ _ us b (Dirs (S m)) B3 En2 (Hus' (S m))). intros idx Hi. apply Hc. now rewrite En2.
Qed.

Lemma r_passes : forall m, Z.of_nat (m + occurrences (map dval kv) (dval u)) <= p + 1 ->
  (M + IZR (Z.of_nat m) * g <= X)%R -> (W + IZR (Z.of_nat m) * e <= Y)%R -> (z <= m0 - IZR (Z.of_nat m) * e)%R ->
  exists ph', foldM (fun st i => insert_pass (F := Fops) kv p u d i st) (zseq 1 m) (Z.of_nat n - 1, ph) = Ok (Z.of_nat n - 1, ph') /\
    foldM (fun ps (_ : Z) => ps_insert (F := Fops) ps u d) (zseq 0 m) (fmkps knots degs) = Ok (fmkps (upd knots d (finsm kv n u m)) degs) /\
    ph_dim ph' = ph_dim ph /\ ph_npts ph' = point_counts (upd knots d (finsm kv n u m)) degs /\ g_phys_ok ph' /\
    wbounded ph' (M + IZR (Z.of_nat m) * g) (m0 - IZR (Z.of_nat m) * e) (W + IZR (Z.of_nat m) * e) /\
    forall us, Forall2 (fun kv u => (first_knot kv <= u <= final_knot kv)%R) (map (map dval) knots) us ->
      (Rabs (csum (map (map dval) (upd knots d (finsm kv n u m))) degs (wgt ph') us - csum (map (map dval) knots) degs (wgt ph) us) <= IZR (Z.of_nat m) * e)%R /\
      forall c, 0 <= c < ph_dim ph ->
        (Rabs (csum (map (map dval) (upd knots d (finsm kv n u m))) degs (hom ph' c) us - csum (map (map dval) knots) degs (hom ph c) us) <= IZR (Z.of_nat m) * hom_error X Y)%R.
Proof.
  destruct (ins_kv knots degs d kv p Hg Ek Ed) as [Mk _]. pose proof (f_n kv p u n Hin) as Hn1.
  pose proof (inner_ends _ _ _ _ Hin) as [Ie1 Ie2]. rewrite zlen_map in Ie2. pose proof e_nonneg as E0. pose proof g_nonneg as G0.
  induction m as [|m IH]; intros Hm B1 B2 B3.
  - exists ph. rewrite finsm_0, (upd_id _ _ _ Ek). split; [reflexivity|]. split; [reflexivity|]. split; [reflexivity|]. split; [exact En|]. split; [exact Hph|].
    change (IZR (Z.of_nat 0)) with 0%R. rewrite !Rmult_0_l, !Rplus_0_r, Rminus_0_r.
    split; [exact Hb|]. intros us _. split; [|intros c _]; rewrite Rminus_diag_eq, Rabs_R0 by reflexivity; lra.
  - rewrite Nat2Z.inj_succ, succ_IZR in *. set (k := IZR (Z.of_nat m)) in *.
    destruct IH as (ph1 & F1 & F2 & D1 & D2 & D3 & D5 & D6); try lra; [lia|].
    destruct (counts_nth knots degs d kv p Ek Ed) as [Cd Cn].
    assert (LM : zlen (finsm kv n u m) = zlen kv + Z.of_nat m) by (unfold zlen; rewrite finsm_length by lia; lia).
    destruct (r_pass kv p u n Mk Mu Hin X Y z (proj2 HX) (proj2 HY) Hz0 m d ph1 _ _ _ ltac:(lia) Hz D3 D5) as (ph2 & E & P1 & P2 & P3 & P4 & P5).
    { lra. } { lra. } { fold e. lra. }
    { rewrite D2, (counts_upd knots degs d p Ed), upd_length. exact Cd. }
    { rewrite D2, (counts_upd knots degs d p Ed), nth_upd_same by exact Cd. rewrite LM. lia. }
    assert (En2 : ph_npts ph2 = point_counts (upd knots d (finsm kv n u (S m))) degs).
    { rewrite P2, D2, !(counts_upd knots degs d p Ed), upd_upd, nth_upd_same by exact Cd. f_equal. unfold zlen. rewrite !finsm_length by lia. lia. }
    exists ph2. split; [|split; [|split; [|split; [|split; [|split]]]]].
    + replace (zseq 1 (S m)) with (zseq 1 m ++ [Z.of_nat m + 1]).
      * rewrite foldM_app, F1. cbn [bind foldM]. rewrite E. reflexivity.
      * replace (S m) with (m + 1)%nat by lia. rewrite zseq_app. cbn [zseq]. do 2 f_equal. lia.
    + replace (zseq 0 (S m)) with (zseq 0 m ++ [Z.of_nat m]).
      * rewrite foldM_app, F2. cbn [bind foldM].
        rewrite (fps_insert_ok _ _ d u (finsm kv n u m) (finsm kv n u (S m))).
        -- cbn [bind]. rewrite upd_upd. reflexivity.
        -- now apply (nth_error_upd_same _ _ _ kv).
        -- rewrite upd_upd. now apply (ins_dirs knots degs d kv p u n).
        -- rewrite finsm_S by lia. apply (f_insert _ p); [now apply finsm_moderate | exact Mu|]. rewrite map_finsm. now apply inner_insm.
      * replace (S m) with (m + 1)%nat by lia. rewrite zseq_app. cbn [zseq]. do 2 f_equal.
    + congruence.
    + exact En2.
    + exact P3.
    + fold e g in P4. replace (M + (k + 1) * g)%R with (M + k * g + g)%R by ring. replace (m0 - (k + 1) * e)%R with (m0 - k * e - e)%R by ring.
      replace (W + (k + 1) * e)%R with (W + k * e + e)%R by ring. exact P4.
    + intros us Hus. destruct (D6 us Hus) as [S1 S2]. split.
      * assert (NR := sum_step m ph1 ph2 (wgt ph1) (wgt ph2) us e D3 D2 P3 En2 Hus ltac:(intros idx Hi; apply (proj1 (P5 idx Hi)))).
        apply Rabs_between in NR. apply Rabs_between in S1. apply Rabs_le. lra.
      * intros c Hc. specialize (S2 c Hc).
        assert (NR := sum_step m ph1 ph2 (hom ph1 c) (hom ph2 c) us (hom_error X Y) D3 D2 P3 En2 Hus
          ltac:(intros idx Hi; apply (proj2 (P5 idx Hi)); now rewrite D1)).
        apply Rabs_between in NR. apply Rabs_between in S2. apply Rabs_le. lra.
Qed.
End Insert.

Lemma r_insert_phys knots degs d kv p (u : float) r (ph : phys Fops) M m0 W X Y z : Forall2 double_direction knots degs -> nth_error knots d = Some kv -> nth_error degs d = Some p ->
  finite u -> insertable (map dval kv) p (dval u) r -> 0 <= r -> zlen kv < 2 ^ 31 ->
  g_phys_ok ph -> ph_npts ph = point_counts knots degs -> wbounded ph M m0 W ->
  (0 <= X <= 2 ^ 500)%R -> (0 <= Y <= 2 ^ 102)%R -> (/ 2 ^ 102 <= z)%R ->
  (M + IZR r * grow X Y z <= X)%R -> (W + IZR r * mix_error Y <= Y)%R -> (z <= m0 - IZR r * mix_error Y)%R ->
  exists kv' ph', insert_knot (mkSpline (F := Fops) (fmkps knots degs) ph) u d r = Ok (mkSpline (F := Fops) (fmkps (upd knots d kv') degs) ph') /\
    Permutation kv' (repeat u (Z.to_nat r) ++ kv) /\ double_direction kv' p /\
    first_knot (map dval kv') = first_knot (map dval kv) /\ final_knot (map dval kv') = final_knot (map dval kv) /\
    ph_dim ph' = ph_dim ph /\ ph_npts ph' = point_counts (upd knots d kv') degs /\ g_phys_ok ph' /\
    wbounded ph' (M + IZR r * grow X Y z) (m0 - IZR r * mix_error Y) (W + IZR r * mix_error Y) /\
    forall us, inside knots us ->
      (Rabs (csum (map (map dval) (upd knots d kv')) degs (wgt ph') us - csum (map (map dval) knots) degs (wgt ph) us) <= IZR r * mix_error Y)%R /\
      forall c, 0 <= c < ph_dim ph ->
        (Rabs (csum (map (map dval) (upd knots d kv')) degs (hom ph' c) us - csum (map (map dval) knots) degs (hom ph c) us) <= IZR r * hom_error X Y)%R.
Proof.
  intros Hg Ek Ed Fu Hins Hr Hz Hph En Hb HX HY Hz0 C1 C2 C3.
  assert (Hkv : double_direction kv p) by (eapply Forall2_nth_error; eauto).
  assert (Mu : moderate u) by (apply (moderate_inside kv p); auto; apply Hins).
  destruct (double_inner kv p u r Hkv Hins) as (n & Hin). pose proof Hins as (_ & _ & Ho).
  pose proof (r_passes knots degs d kv p u n ph M m0 W X Y z Hg Ek Ed Mu Hin Hz Hph En Hb HX HY Hz0 (Z.to_nat r) ltac:(lia)) as RP.
  rewrite Z2Nat.id in RP by auto. destruct (RP C1 C2 C3) as (ph' & F1 & F2 & D1 & D2 & D3 & D5 & D6). clear RP.
  exists (finsm kv n u (Z.to_nat r)), ph'. split.
  { unfold insert_knot, sp_knots, sp_deg, dget. cbn [sp_ps sp_ph ps_knots ps_degs fmkps]. change (num Fops) with float. rewrite Ek. cbn [bind].
    destruct Hkv as [Mk _]. rewrite (f_span kv p u n Mk Mu Hin). cbn [bind]. rewrite Ed. cbn [bind].
    rewrite !for_up_foldM. replace (r + 1 - 1) with r by lia. replace (r - 0) with r by lia.
    change (num Fops) with float in *. rewrite F1. cbn [bind]. change (mkPS (F := Fops) knots degs (map2 dbfs knots degs)) with (fmkps knots degs).
    rewrite F2. reflexivity. }
  split; [apply finsm_perm|]. split; [now apply (ins_dir knots degs d kv p u n)|].
  destruct (first_insm _ _ _ _ (Z.to_nat r) Hin) as [A1 A2]. rewrite !map_finsm. split; [exact A1|]. split; [exact A2|].
  repeat (split; [assumption|]). intros us Hus. apply D6. now apply inside_map.
Qed.

(* RefineKnots *)
Lemma inside_upd knots d kv kv1 us : nth_error knots d = Some kv -> first_knot (map dval kv1) = first_knot (map dval kv) ->
  final_knot (map dval kv1) = final_knot (map dval kv) -> inside knots us -> inside (upd knots d kv1) us.
Proof.
  intros Ek A1 A2 Hus. unfold inside in *. revert d Ek. induction Hus as [|k0 v ks vs Hv H IH]; intros [|d] Ek; cbn in *; try discriminate; constructor; auto.
  injection Ek as ->. rewrite A1, A2. exact Hv.
Qed.

Lemma r_refine_phys degs d p X Y z : (0 <= X <= 2 ^ 500)%R -> (0 <= Y <= 2 ^ 102)%R -> (/ 2 ^ 102 <= z)%R -> nth_error degs d = Some p ->
  forall (new : list float) knots kv (ph : phys Fops) M m0 W,
  Forall2 double_direction knots degs -> nth_error knots d = Some kv ->
  Forall finite new -> all_insertable (map dval kv) p (map dval new) -> zlen kv + zlen new <= 2 ^ 31 ->
  g_phys_ok ph -> ph_npts ph = point_counts knots degs -> wbounded ph M m0 W ->
  (M + IZR (zlen new) * grow X Y z <= X)%R -> (W + IZR (zlen new) * mix_error Y <= Y)%R -> (z <= m0 - IZR (zlen new) * mix_error Y)%R ->
  exists kv' ph', refine_knots (mkSpline (F := Fops) (fmkps knots degs) ph) new d = Ok (mkSpline (F := Fops) (fmkps (upd knots d kv') degs) ph') /\
    Permutation kv' (new ++ kv) /\ double_direction kv' p /\
    first_knot (map dval kv') = first_knot (map dval kv) /\ final_knot (map dval kv') = final_knot (map dval kv) /\
    ph_dim ph' = ph_dim ph /\ ph_npts ph' = point_counts (upd knots d kv') degs /\ g_phys_ok ph' /\
    wbounded ph' (M + IZR (zlen new) * grow X Y z) (m0 - IZR (zlen new) * mix_error Y) (W + IZR (zlen new) * mix_error Y) /\
    forall us, inside knots us ->
      (Rabs (csum (map (map dval) (upd knots d kv')) degs (wgt ph') us - csum (map (map dval) knots) degs (wgt ph) us) <= IZR (zlen new) * mix_error Y)%R /\
      forall c, 0 <= c < ph_dim ph ->
        (Rabs (csum (map (map dval) (upd knots d kv')) degs (hom ph' c) us - csum (map (map dval) knots) degs (hom ph c) us) <= IZR (zlen new) * hom_error X Y)%R.
Proof.
  intros HX HY Hz0 Ed.
  assert (E0 : (0 <= mix_error Y)%R) by (apply mix_error_nonneg; lra).
  assert (G0 : (0 <= grow X Y z)%R) by (apply grow_nonneg; [lra | lra|]; eapply Rlt_le_trans; [|exact Hz0]; apply Rinv_0_lt_compat, pow_lt; lra).
  induction new as [|u new IH]; intros knots kv ph M m0 W Hg Ek Hf (Hall & Hsep & Hocc) Hz Hph En Hb C1 C2 C3.
  - exists kv, ph. rewrite (upd_id _ _ _ Ek). split; [reflexivity|]. split; [reflexivity|]. split; [eapply Forall2_nth_error; eauto|].
    split; [reflexivity|]. split; [reflexivity|]. split; [reflexivity|]. split; [exact En|]. split; [exact Hph|].
    change (zlen (@nil float)) with 0. rewrite !Rmult_0_l, !Rplus_0_r, Rminus_0_r. split; [exact Hb|].
    intros us _. split; [|intros c _]; rewrite Rminus_diag_eq, Rabs_R0 by reflexivity; lra.
  - inversion Hf as [|? ? Fu Hf']; subst. cbn [map] in Hall, Hsep, Hocc.
    assert (Zc : zlen (u :: new) = zlen new + 1) by (unfold zlen; cbn [length]; lia). rewrite Zc in *. assert (0 <= zlen new) by (unfold zlen; lia).
    assert (0 <= zlen kv) by (unfold zlen; lia). assert (I0 : (0 <= IZR (zlen new))%R) by (now apply IZR_le).
    rewrite plus_IZR in *. set (k := IZR (zlen new)) in *.
    assert (K1 : (0 <= k * grow X Y z /\ 0 <= k * mix_error Y)%R) by (split; apply Rmult_le_pos; lra).
    assert (Hins : insertable (map dval kv) p (dval u) 1).
    { split; [now inversion Hall|]. split.
      - apply (separated_incl _ ((dval u :: map dval new) ++ map dval kv)); auto. intros x [<-|Hx]; [now left | right; apply in_app_iff; auto].
      - specialize (Hocc (dval u) (or_introl eq_refl)). unfold occurrences in *. cbn [app count_occ] in Hocc.
        destruct (Req_EM_T (dval u) (dval u)); [|congruence]. rewrite count_occ_app in Hocc. lia. }
    destruct (r_insert_phys knots degs d kv p u 1 ph M m0 W X Y z Hg Ek Ed Fu Hins ltac:(lia) ltac:(lia) Hph En Hb HX HY Hz0)
      as (kv1 & ph1 & E & Pm & Dk & A1 & A2 & D1 & D2 & D3 & D5 & D6); try lra.
    change (repeat u (Z.to_nat 1) ++ kv) with (u :: kv) in Pm. rewrite !Rmult_1_l in *.
    assert (Hg1 : Forall2 double_direction (upd knots d kv1) degs).
    { apply Forall2_upd; auto. intros q Eq. replace q with p by congruence. exact Dk. }
    assert (Pm2 : Permutation (map dval new ++ map dval kv1) ((dval u :: map dval new) ++ map dval kv)).
    { rewrite (Permutation_map dval Pm). cbn [map app]. symmetry. apply Permutation_middle. }
    destruct (IH (upd knots d kv1) kv1 ph1 (M + grow X Y z)%R (m0 - mix_error Y)%R (W + mix_error Y)%R Hg1 (nth_error_upd_same _ _ _ kv Ek) Hf') as (kv2 & ph2 & E2 & Pm3 & Dk2 & A3 & A4 & X1 & X2 & X3 & X5 & X6).
    + split; [|split].
      * inversion Hall; subst. rewrite A1, A2. auto.
      * apply (separated_incl _ ((dval u :: map dval new) ++ map dval kv)); auto. intros x. apply Permutation_in; auto.
      * intros v Hv. rewrite (occ_perm _ _ v Pm2). apply Hocc. now right.
    + apply Permutation_length in Pm. unfold zlen in *. cbn [length] in *. lia.
    + exact D3.
    + exact D2.
    + exact D5.
    + fold k. lra.
    + fold k. lra.
    + fold k. lra.
    + rewrite upd_upd in *. fold k in X5, X6. exists kv2, ph2. split; [unfold refine_knots in *; cbn [foldM]; rewrite E; exact E2|].
      split; [transitivity (new ++ kv1); auto; rewrite Pm; symmetry; apply Permutation_middle|]. split; [exact Dk2|].
      split; [congruence|]. split; [congruence|]. split; [congruence|]. split; [exact X2|]. split; [exact X3|].
      split.
      { replace (M + (k + 1) * grow X Y z)%R with (M + grow X Y z + k * grow X Y z)%R by ring.
        replace (m0 - (k + 1) * mix_error Y)%R with (m0 - mix_error Y - k * mix_error Y)%R by ring.
        replace (W + (k + 1) * mix_error Y)%R with (W + mix_error Y + k * mix_error Y)%R by ring. exact X5. }
      intros us Hus. destruct (D6 us Hus) as [S1 S2]. destruct (X6 us (inside_upd _ _ _ _ _ Ek A1 A2 Hus)) as [T1 T2]. split.
      * apply Rabs_between in S1. apply Rabs_between in T1. apply Rabs_le. lra.
      * intros c Hc. specialize (S2 c Hc). specialize (T2 c ltac:(now rewrite D1)).
        apply Rabs_between in S2. apply Rabs_between in T2. apply Rabs_le. lra.
Qed.
