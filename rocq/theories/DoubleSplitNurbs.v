(* Subdivision of NURBS of doubles: the statements about the constructed splines. *)
From Coq Require Import ZArith List Bool Lia Reals Floats Lra Permutation.
From Verif Require Import Base BaseFacts RSum MultiIndex MultiIndexSpec MultiIndexFacts TensorSum
  KnotVec KnotVecSpec KnotVecFacts Boehm Basis BasisSpec BSplineTheory BasisFacts VecUtils
  Spaces SpacesSpec SpacesFacts SplineEval SplineEdit SplineSpec EvalFacts RationalDeriv EvalDeriv EvalThms SplineNew
  PhysFacts AdjustFacts InsertKnots InsertFacts InsertThms EditSpec AdjustAny SubdivideFacts SubdividePieces SubdivideThms
  DoubleSpec DoubleRationalSpec DoubleFacts DoubleError DoubleKnots DoubleBasis DoubleSum DoubleEval DoubleThms DoubleRationalEval DoubleRationalThms
  DoubleMix DoubleMixRational DoubleInsert DoubleInsertThms DoubleInsertRational DoubleInsertRationalThms DoubleNurbsInsert
  DoubleSplitSpec DoubleSplit DoubleSplitSums DoubleSplitThms DoubleSplitClose.
Import ListNotations.
Open Scope Z_scope.

(* one piece, compared with the spline where `side` holds *)
Definition good_piece (knots : list (list float)) degs d p (cps : list (list float)) (wts : list float) dim M m W (k : Z) (side : list R -> Prop) kv' cps' wts' (s' : spline Fops) : Prop :=
  spline_new (F := Fops) (upd knots d kv') degs cps' (Some wts') = Ok s' /\ double_direction kv' p /\
  zlen cps' = total (point_counts (upd knots d kv') degs) /\ zlen wts' = zlen cps' /\ Forall (fun cp => zlen cp = dim) cps' /\
  Forall (fun w => finite w /\ (m - IZR k * (W * / 2 ^ 48) <= dval w <= W + IZR k * (W * / 2 ^ 48))%R) wts' /\
  Forall (Forall (fun x => finite x /\ (Rabs (dval x) <= M + IZR k * nurbs_error M m W)%R)) cps' /\
  forall us c, inside knots us -> side us -> 0 <= c < dim ->
    (Rabs (exact_rational (map (map dval) (upd knots d kv')) degs (map (map dval) cps') (map dval wts') us c -
           exact_rational (map (map dval) knots) degs (map (map dval) cps) (map dval wts) us c) <= IZR k * nurbs_error M m W)%R.

Lemma close_piece knots degs d kv kv' p (cps : list (list float)) (wts : list float) dim M m W k (side : list R -> Prop) (ph' : phys Fops) :
  let ph := mkPhys (F := Fops) dim (point_counts knots degs) (concat cps) (Some wts) in
  let X := (2 * M + / 2 ^ 850)%R in let Y := (2 * W)%R in let z := (m / 2)%R in
  Forall2 double_direction knots degs -> nth_error knots d = Some kv -> nth_error degs d = Some p -> double_direction kv' p ->
  1 <= dim -> Forall (fun cp => zlen cp = dim) cps -> zlen cps = total (point_counts knots degs) -> zlen wts = zlen cps ->
  (0 <= M <= 2 ^ 498)%R -> (/ 2 ^ 99 <= m)%R -> (m <= W)%R -> (W <= 2 ^ 99)%R -> 0 <= k -> (IZR k * W <= 2 ^ 40 * m)%R ->
  total (point_counts (upd knots d kv') degs) < 2 ^ 64 ->
  g_phys_ok ph -> wbounded ph M m W ->
  ph_dim ph' = dim -> ph_npts ph' = point_counts (upd knots d kv') degs -> g_phys_ok ph' ->
  wbounded ph' (M + IZR k * grow X Y z) (m - IZR k * mix_error Y) (W + IZR k * mix_error Y) ->
  (forall us, inside knots us -> side us -> inside (upd knots d kv') us) ->
  (forall us, inside knots us -> side us ->
      (Rabs (csum (map (map dval) (upd knots d kv')) degs (wgt ph') us - csum (map (map dval) knots) degs (wgt ph) us) <= IZR k * mix_error Y)%R /\
      forall c, 0 <= c < dim ->
        (Rabs (csum (map (map dval) (upd knots d kv')) degs (hom ph' c) us - csum (map (map dval) knots) degs (hom ph c) us) <= IZR k * hom_error X Y)%R) ->
  exists wts', ph_wts ph' = Some wts' /\
    good_piece knots degs d p cps wts dim M m W k side kv' (rows ph') wts' (mkSpline (F := Fops) (fmkps (upd knots d kv') degs) ph').
Proof.
  intros ph X Y z Hg Ek Ed Dk Hd Hrow Hn Hw HM Hm HmW HW Hk HkW Ht Hph Hb D1 D2 D3 D5 Hin D6.
  assert (K0 : (0 <= IZR k)%R) by (now apply IZR_le).
  assert (Hg' : Forall2 double_direction (upd knots d kv') degs).
  { apply Forall2_upd; auto. intros q Eq. replace q with p by congruence. exact Dk. }
  pose proof (cap_m m Hm) as m0. pose proof (cap_grow M m W HM Hm HmW) as CG. pose proof (cap_mix m W Hm HmW) as CM.
  pose proof (cap_few m W (IZR k) Hm HkW) as CF. fold X Y z in CG. fold Y in CM.
  assert (KG : (IZR k * grow X Y z <= IZR k * nurbs_error M m W)%R) by (apply Rmult_le_compat_l; lra).
  assert (KM : (IZR k * mix_error Y <= IZR k * (W * / 2 ^ 48))%R) by (apply Rmult_le_compat_l; lra).
  assert (E0 : (0 <= mix_error Y)%R) by (apply mix_error_nonneg; unfold Y; lra).
  pose proof D5 as D5'. apply (wbounded_le _ _ _ _ (M + IZR k * nurbs_error M m W) (m - IZR k * (W * / 2 ^ 48)) (W + IZR k * (W * / 2 ^ 48))) in D5'; try lra.
  destruct D5' as (B1 & w' & Ew' & B2). exists w'. split; [exact Ew'|]. unfold good_piece.
  assert (Zw' : zlen w' = zlen (rows ph')).
  { rewrite rows_zlen by auto. destruct D3 as (_ & _ & _ & Q). specialize (Q w' Ew'). change (num Fops) with float in Q. exact Q. }
  assert (Hdim' : 1 <= ph_dim ph') by lia.
  split; [apply rows_new_w; auto; now rewrite D2|]. split; [exact Dk|]. split; [rewrite rows_zlen, D2 by auto; reflexivity|]. split; [exact Zw'|].
  split; [rewrite <- D1; now apply rows_dim|]. split; [exact B2|]. split; [now apply rows_bounded|].
  intros us c Hus Hsd Hc. destruct (D6 us Hus Hsd) as [S1 S2]. specialize (S2 c Hc).
  rewrite (rational_csum knots degs ph cps wts us c) by (auto; reflexivity).
  rewrite (rational_csum (upd knots d kv') degs ph' (rows ph') w' us c);
    [ | exact D3 | exact D2 | symmetry; now apply rows_concat | exact Ew' | now apply rows_dim | now apply rows_zlen | now rewrite D1].
  pose proof (Hin us Hus Hsd) as Hus'.
  assert (R1 : (m <= csum (map (map dval) knots) degs (wgt ph) us <= W)%R).
  { apply (csum_range knots degs ph); auto. intros idx Hi. unfold wgt, g_pweight. destruct Hph as (Hpl & Hs).
    apply (wbounded_at ph M m W _ _ Hs Hb). now apply get1d_range. }
  assert (R2 : (z <= csum (map (map dval) (upd knots d kv')) degs (wgt ph') us)%R).
  { apply Rle_trans with (m - IZR k * mix_error Y)%R; [unfold z; lra|]. eapply (csum_range (upd knots d kv') degs ph'); auto. intros idx Hi. unfold wgt, g_pweight.
    destruct D3 as (Hpl & Hs). apply (wbounded_at ph' _ _ _ _ _ Hs D5). apply get1d_range. now rewrite D2. }
  assert (R3 : (Rabs (csum (map (map dval) knots) degs (hom ph c) us) <= M * csum (map (map dval) knots) degs (wgt ph) us)%R).
  { apply (csum_abs knots degs ph us (wgt ph) (fun idx => dval (g_pcoord ph idx c))); auto. intros idx Hi. destruct Hph as (Hpl & Hs).
    assert (Q : 0 <= get1d (ph_npts ph) idx < total (ph_npts ph)) by (now apply get1d_range).
    split; [unfold wgt, g_pweight; pose proof (wbounded_at ph M m W _ _ Hs Hb Q); lra|].
    apply (bounded_at ph M _ c _ Hs (proj1 Hb) Q Hc). }
  eapply Rle_trans; [apply (quotient_near _ _ _ _ M z (IZR k * hom_error X Y) (IZR k * mix_error Y)); auto; unfold z; lra|].
  eapply Rle_trans; [|exact KG]. unfold grow, Rdiv. rewrite <- (Rmult_assoc (IZR k) (X * mix_error Y + hom_error X Y)). apply Rmult_le_compat_r; [left; apply Rinv_0_lt_compat; unfold z; lra|].
  assert (M * (IZR k * mix_error Y) <= X * (IZR k * mix_error Y))%R.
  { apply Rmult_le_compat_r; [apply Rmult_le_pos; lra|]. unfold X. pose proof (inv_pow2_pos 850). lra. }
  lra.
Qed.

Definition below_cut (d : nat) (v : R) (r : Z) (us : list R) : Prop := (nth d us 0 < v \/ nth d us 0 = v /\ (1 <= r)%Z)%R.
Definition above_cut (d : nat) (v : R) (us : list R) : Prop := (v <= nth d us 0)%R.

Lemma nurbs_split0 : forall (knots : list (list float)) degs (cps : list (list float)) (wts : list float) d kv p (u : float) dim M m W,
  Forall2 double_direction knots degs -> nth_error knots d = Some kv -> nth_error degs d = Some p ->
  finite u -> insertable (map dval kv) p (dval u) 0 -> zlen kv < 2 ^ 31 ->
  1 <= dim -> Forall (fun cp => zlen cp = dim) cps -> zlen cps = total (point_counts knots degs) -> zlen wts = zlen cps -> zlen cps * (2 + p) < 2 ^ 64 ->
  Forall (Forall (fun x => finite x /\ (Rabs (dval x) <= M)%R)) cps -> (M <= 2 ^ 498)%R ->
  Forall (fun w => finite w /\ (m <= dval w <= W)%R) wts -> (/ 2 ^ 99 <= m)%R -> (W <= 2 ^ 99)%R -> (IZR (p + 1) * W <= 2 ^ 40 * m)%R ->
  let r := p + 1 - Z.of_nat (occurrences (map dval kv) (dval u)) in
  exists s s1 s2 s' kv1 kv2 cps1 cps2 wts1 wts2, spline_new (F := Fops) knots degs cps (Some wts) = Ok s /\
    subdivide s u d = Ok (s1, s2, s') /\ insert_knot s u d r = Ok s' /\
    first_knot (map dval kv1) = first_knot (map dval kv) /\ final_knot (map dval kv1) = dval u /\
    first_knot (map dval kv2) = dval u /\ final_knot (map dval kv2) = final_knot (map dval kv) /\
    Permutation (kv1 ++ skipn (Z.to_nat (p + 1)) kv2) (repeat u (Z.to_nat r) ++ kv) /\
    zlen cps1 < 2 ^ 64 /\ zlen cps2 < 2 ^ 64 /\
    (1 <= r -> layers_meet [] (point_counts (upd knots d kv1) degs) (point_counts (upd knots d kv2) degs) d cps1 cps2 /\
               layers_meet 0%float (point_counts (upd knots d kv1) degs) (point_counts (upd knots d kv2) degs) d wts1 wts2) /\
    good_piece knots degs d p cps wts dim M m W r (below_cut d (dval u) r) kv1 cps1 wts1 s1 /\
    good_piece knots degs d p cps wts dim M m W r (above_cut d (dval u)) kv2 cps2 wts2 s2.
Proof.
  intros knots degs cps wts d kv p u dim M m W Hg Ek Ed Fu Hins Hz Hd Hrow Hn Hw Hb Hv HM Hwt Hm HW HpW r.
  destruct (phys_of_rows_w knots degs cps wts dim M m W Hg Hd Hrow Hn Hw Hv Hwt) as [Hph Hbd].
  set (ph := mkPhys (F := Fops) dim (point_counts knots degs) (concat cps) (Some wts)) in *.
  assert (Hkv : double_direction kv p) by (eapply Forall2_nth_error; eauto).
  assert (Mu : moderate u) by (apply (moderate_inside kv p); auto; apply Hins).
  destruct (double_inner kv p u 0 Hkv Hins) as (n & Hin). pose proof Hins as (_ & _ & Ho).
  assert (Hr0 : 0 <= r) by (unfold r; lia). assert (Hr1 : r <= p + 1) by (unfold r; lia).
  pose proof (ins_M ph M Hph (proj1 Hbd)) as M0. assert (K0 : (0 <= IZR r)%R) by (now apply IZR_le).
  assert (mW : (m <= W)%R).
  { destruct Hph as (Hpl & Hs). pose proof (total_pos _ Hpl). pose proof (wbounded_at ph M m W 0 _ Hs Hbd ltac:(lia)). lra. }
  pose proof (cap_m m Hm) as m0.
  assert (HkW : (IZR r * W <= 2 ^ 40 * m)%R).
  { eapply Rle_trans; [|exact HpW]. apply Rmult_le_compat_r; [lra | now apply IZR_le]. }
  pose proof (cap_grow M m W (conj M0 HM) Hm mW) as CG. pose proof (cap_mix m W Hm mW) as CM.
  pose proof (cap_few m W (IZR r) Hm HkW) as CF. pose proof (cap_all M m W (IZR r) (conj M0 HM) Hm mW K0 HkW) as CA.
  pose proof (cap_X M (conj M0 HM)) as CX. pose proof (cap_Y m W Hm mW HW) as CY. pose proof (cap_z m Hm) as Cz.
  set (X := (2 * M + / 2 ^ 850)%R) in *. set (Y := (2 * W)%R) in *. set (z := (m / 2)%R) in *.
  assert (E0 : (0 <= mix_error Y)%R) by (apply mix_error_nonneg; unfold Y; lra).
  assert (G0 : (0 <= grow X Y z)%R) by (apply grow_nonneg; [lra | lra | unfold z; lra]).
  assert (KG : (IZR r * grow X Y z <= IZR r * nurbs_error M m W)%R) by (apply Rmult_le_compat_l; lra).
  assert (KM : (IZR r * mix_error Y <= IZR r * (W * / 2 ^ 48))%R) by (apply Rmult_le_compat_l; lra).
  set (rn := Z.to_nat r). assert (Er : Z.of_nat rn = r) by (unfold rn; lia).
  assert (Hr : Z.of_nat (rn + occurrences (map dval kv) (dval u)) = p + 1) by (unfold rn, r in *; lia).
  pose proof (f_n kv p u n Hin) as Hn1.
  assert (Passes : forall k, (k <= rn)%nat -> (M + IZR (Z.of_nat k) * grow X Y z <= X)%R /\ (W + IZR (Z.of_nat k) * mix_error Y <= Y)%R /\ (z <= m - IZR (Z.of_nat k) * mix_error Y)%R).
  { intros k Hk. assert (Kk : (IZR (Z.of_nat k) <= IZR r)%R) by (apply IZR_le; lia).
    assert (IZR (Z.of_nat k) * grow X Y z <= IZR r * grow X Y z)%R by (apply Rmult_le_compat_r; lra).
    assert (IZR (Z.of_nat k) * mix_error Y <= IZR r * mix_error Y)%R by (apply Rmult_le_compat_r; lra).
    split; [unfold X at 2; lra|]. split; [unfold Y at 2; lra | unfold z; lra]. }
  destruct (Passes rn (le_n _)) as (C1 & C2 & C3).
  destruct (r_passes knots degs d kv p u n ph M m W X Y z Hg Ek Ed Mu Hin Hz Hph eq_refl Hbd CX CY Cz rn ltac:(lia) C1 C2 C3) as (ph' & F1 & F2 & D1 & D2 & D3 & D5 & D6).
  rewrite Er in D5, D6. change (ph_dim ph) with dim in *.
  pose proof (run_insert knots degs d kv p u n ph rn Hg Ek Ed Mu Hin Hr ph' F1 F2) as Run.
  assert (Hrep : Z.of_nat (occurrences (map dval kv) (dval u)) <= p -> repeats ph' d (Z.of_nat (n + rn) - p - 2)).
  { intros Hp. assert (Ern : rn = S (rn - 1)) by (unfold rn, r in *; lia).
    destruct (Passes (rn - 1)%nat ltac:(lia)) as (B1 & B2 & B3).
    destruct (r_passes knots degs d kv p u n ph M m W X Y z Hg Ek Ed Mu Hin Hz Hph eq_refl Hbd CX CY Cz (rn - 1) ltac:(lia) B1 B2 B3) as (ph0 & G1 & _ & G3 & G4 & G5 & _).
    exact (run_repeats knots degs d kv p u n ph rn Hg Ek Ed Mu Hin Hz Hr (rn - 1) ph0 ph' Ern G1 G4 G5 G3 D1 F1). }
  assert (LkN : zlen (finsm kv n u rn) = zlen kv + r) by (unfold zlen; rewrite finsm_length by lia; lia).
  pose proof (counts_grow knots degs d kv (finsm kv n u rn) p Ek Ed Hg ltac:(lia)) as Ct. rewrite LkN in Ct. replace (zlen kv + r - zlen kv) with r in Ct by lia.
  assert (H0 : 0 <= zlen cps) by (unfold zlen; lia).
  assert (Ht : total (ph_npts ph') < 2 ^ 64) by (rewrite D2; nia).
  set (kv1 := pleft kv u n rn). set (kv2 := pright kv p u n rn). set (ph1 := nleft d kv p u n ph' rn). set (ph2 := nright d kv p u n ph' rn).
  destruct (nleft_facts knots degs d kv p u n ph' rn Hg Ek Ed Mu Hin Hr D3 D2 Ht) as (L1 & L2 & L3 & L4). fold ph1 kv1 in L1, L2, L3, L4.
  destruct (nright_facts knots degs d kv p u n ph' rn Hg Ek Ed Mu Hin Hr D3 D2 Ht) as (R1 & R2 & R3 & R4). fold ph2 kv2 in R1, R2, R3, R4.
  pose proof (pleft_dir knots degs d kv p u n rn Hg Ek Ed Mu Hin Hr) as Dk1. fold kv1 in Dk1.
  pose proof (pright_dir knots degs d kv p u n rn Hg Ek Ed Mu Hin Hr) as Dk2. fold kv2 in Dk2.
  destruct (pleft_ends kv p u n rn Hin Hr) as [P1 P2]. destruct (pright_ends kv p u n rn Hin Hr) as [P3 P4].
  destruct (left_room kv p u n rn Hin Hr) as [Q1 Q2]. destruct (right_room kv p u n rn Hin Hr) as [Q3 Q4].
  pose proof (piece_wbounded _ degs d _ p u ph' (N_kv knots d kv u n rn Ek) Ed D3 D2 kv1 0 Dk1 Q1 Q2 _ _ _ D5) as B1. fold ph1 in B1.
  pose proof (piece_wbounded _ degs d _ p u ph' (N_kv knots d kv u n rn Ek) Ed D3 D2 kv2 _ Dk2 Q3 Q4 _ _ _ D5) as B2. fold ph2 in B2.
  assert (Ldim : ph_dim ph1 = dim) by (rewrite L4; exact D1). assert (Rdim : ph_dim ph2 = dim) by (rewrite R4; exact D1).
  destruct (close_piece knots degs d kv kv1 p cps wts dim M m W r (below_cut d (dval u) r) ph1 Hg Ek Ed Dk1 Hd Hrow Hn Hw (conj M0 HM) Hm mW HW Hr0 HkW) as (w1 & Ew1 & G1); auto.
  { now rewrite <- L2. }
  { intros us Hus Hs. apply (side_left knots d kv p u n rn Ek Hin Hr us Hus). destruct Hs as [Hs|[Hs _]]; lra. }
  { intros us Hus Hs. destruct (D6 us (inside_map _ _ Hus)) as [S1 S2].
    assert (T1 : (nth d us 0 <= dval u)%R) by (destruct Hs as [Hs|[Hs _]]; lra).
    assert (T2 : Z.of_nat (occurrences (map dval kv) (dval u)) <= p \/ (nth d us 0 < dval u)%R) by (destruct Hs as [Hs|[_ Hs]]; [now right | left; unfold r in Hs; lia]).
    unfold kv1, ph1. rewrite (left_weight knots degs d kv p u n ph' rn Hg Ek Ed Mu Hin Hr D3 D2 Hrep us Hus T1 T2). split; [exact S1|].
    intros c Hc. rewrite (left_hom knots degs d kv p u n ph' rn Hg Ek Ed Mu Hin Hr D3 D2 Hrep us c Hus T1 T2) by (rewrite D1; exact Hc). now apply S2. }
  destruct (close_piece knots degs d kv kv2 p cps wts dim M m W r (above_cut d (dval u)) ph2 Hg Ek Ed Dk2 Hd Hrow Hn Hw (conj M0 HM) Hm mW HW Hr0 HkW) as (w2 & Ew2 & G2); auto.
  { now rewrite <- R2. }
  { intros us Hus Hs. apply (side_right knots d kv p u n rn Ek Hin Hr us Hus). exact Hs. }
  { intros us Hus Hs. destruct (D6 us (inside_map _ _ Hus)) as [S1 S2].
    unfold kv2, ph2. rewrite (right_weight knots degs d kv p u n ph' rn Hg Ek Ed Mu Hin Hr D3 D2 us Hus Hs). split; [exact S1|].
    intros c Hc. rewrite (right_hom knots degs d kv p u n ph' rn Hg Ek Ed Mu Hin Hr D3 D2 us c Hus Hs) by (rewrite D1; exact Hc). now apply S2. }
  exists (mkSpline (F := Fops) (fmkps knots degs) ph), (mkSpline (F := Fops) (fmkps (upd knots d kv1) degs) ph1), (mkSpline (F := Fops) (fmkps (upd knots d kv2) degs) ph2),
    (mkSpline (F := Fops) (fmkps (upd knots d (finsm kv n u rn)) degs) ph'), kv1, kv2, (rows ph1), (rows ph2), w1, w2.
  split; [apply fspline_new_w; auto; nia|].
  split; [exact (subdivide_run knots degs d kv p u n ph ph' rn Hg Ek Ed Mu Hin Hz Hr Run D3 D2 Ht)|].
  split; [rewrite <- Er; exact Run|].
  split; [exact P1|]. split; [exact P2|]. split; [exact P3|]. split; [exact P4|].
  split; [exact (p_join kv p u n rn Hin Hr)|].
  split; [rewrite rows_zlen by auto; exact L3|]. split; [rewrite rows_zlen by auto; exact R3|].
  split; [|split; [exact G1 | exact G2]].
  intros H1. assert (Hp : Z.of_nat (occurrences (map dval kv) (dval u)) <= p) by (unfold r in H1; lia). split.
  - exact (rows_meet knots degs d kv p u n ph' rn Hg Ek Ed Mu Hin Hr D3 D2 Ht Hrep Hp).
  - exact (weights_meet knots degs d kv p u n ph' rn Hg Ek Ed Mu Hin Hr D3 D2 Ht Hrep w1 w2 Ew1 Ew2 Hp).
Qed.

Lemma nurbs_split : forall (knots : list (list float)) degs (cps : list (list float)) (wts : list float) d kv p (u : float) dim M m W,
  Forall2 double_direction knots degs -> nth_error knots d = Some kv -> nth_error degs d = Some p ->
  finite u -> insertable (map dval kv) p (dval u) 0 -> zlen kv < 2 ^ 31 ->
  1 <= dim -> Forall (fun cp => zlen cp = dim) cps -> zlen cps = total (point_counts knots degs) -> zlen wts = zlen cps -> zlen cps * (2 + p) < 2 ^ 64 ->
  Forall (Forall (fun x => finite x /\ (Rabs (dval x) <= M)%R)) cps -> (M <= 2 ^ 498)%R ->
  Forall (fun w => finite w /\ (m <= dval w <= W)%R) wts -> (/ 2 ^ 99 <= m)%R -> (W <= 2 ^ 99)%R -> (IZR (p + 1) * W <= 2 ^ 40 * m)%R ->
  let r := p + 1 - Z.of_nat (occurrences (map dval kv) (dval u)) in
  let e := (IZR r * (W / m * (M * / 2 ^ 44 + / 2 ^ 890)))%R in
  exists s s1 s2 s' kv1 kv2 cps1 cps2 wts1 wts2, spline_new (F := Fops) knots degs cps (Some wts) = Ok s /\
    subdivide s u d = Ok (s1, s2, s') /\ insert_knot s u d r = Ok s' /\
    first_knot (map dval kv1) = first_knot (map dval kv) /\ final_knot (map dval kv1) = dval u /\
    first_knot (map dval kv2) = dval u /\ final_knot (map dval kv2) = final_knot (map dval kv) /\
    Permutation (kv1 ++ skipn (Z.to_nat (p + 1)) kv2) (repeat u (Z.to_nat r) ++ kv) /\
    zlen cps1 < 2 ^ 64 /\ zlen cps2 < 2 ^ 64 /\
    (1 <= r -> layers_meet [] (point_counts (upd knots d kv1) degs) (point_counts (upd knots d kv2) degs) d cps1 cps2 /\
               layers_meet 0%float (point_counts (upd knots d kv1) degs) (point_counts (upd knots d kv2) degs) d wts1 wts2) /\
    (spline_new (F := Fops) (upd knots d kv1) degs cps1 (Some wts1) = Ok s1 /\ double_direction kv1 p /\
      zlen cps1 = total (point_counts (upd knots d kv1) degs) /\ zlen wts1 = zlen cps1 /\ Forall (fun cp => zlen cp = dim) cps1 /\
      Forall (fun w => finite w /\ (m - IZR r * (W * / 2 ^ 48) <= dval w <= W + IZR r * (W * / 2 ^ 48))%R) wts1 /\
      Forall (Forall (fun x => finite x /\ (Rabs (dval x) <= M + e)%R)) cps1 /\
      forall us c, Forall2 (fun kv v => (first_knot (map dval kv) <= v <= final_knot (map dval kv))%R) knots us -> (nth d us 0 < dval u \/ nth d us 0 = dval u /\ (1 <= r)%Z)%R -> 0 <= c < dim ->
        (Rabs (exact_rational (map (map dval) (upd knots d kv1)) degs (map (map dval) cps1) (map dval wts1) us c -
               exact_rational (map (map dval) knots) degs (map (map dval) cps) (map dval wts) us c) <= e)%R) /\
    (spline_new (F := Fops) (upd knots d kv2) degs cps2 (Some wts2) = Ok s2 /\ double_direction kv2 p /\
      zlen cps2 = total (point_counts (upd knots d kv2) degs) /\ zlen wts2 = zlen cps2 /\ Forall (fun cp => zlen cp = dim) cps2 /\
      Forall (fun w => finite w /\ (m - IZR r * (W * / 2 ^ 48) <= dval w <= W + IZR r * (W * / 2 ^ 48))%R) wts2 /\
      Forall (Forall (fun x => finite x /\ (Rabs (dval x) <= M + e)%R)) cps2 /\
      forall us c, Forall2 (fun kv v => (first_knot (map dval kv) <= v <= final_knot (map dval kv))%R) knots us -> (dval u <= nth d us 0)%R -> 0 <= c < dim ->
        (Rabs (exact_rational (map (map dval) (upd knots d kv2)) degs (map (map dval) cps2) (map dval wts2) us c -
               exact_rational (map (map dval) knots) degs (map (map dval) cps) (map dval wts) us c) <= e)%R).
Proof. exact nurbs_split0. Qed.

(* ---- evaluating the pieces ---- *)
Lemma nurbs_split_evaluate : forall (knots : list (list float)) degs (cps : list (list float)) (wts : list float) d kv p (u : float) (us : list float) dim dims M m W,
  Forall2 double_direction knots degs -> nth_error knots d = Some kv -> nth_error degs d = Some p ->
  finite u -> insertable (map dval kv) p (dval u) 0 -> zlen kv < 2 ^ 31 ->
  1 <= dim -> Forall (fun cp => zlen cp = dim) cps -> zlen cps = total (point_counts knots degs) -> zlen wts = zlen cps -> zlen cps * (2 + p) < 2 ^ 64 ->
  Forall (Forall (fun x => finite x /\ (Rabs (dval x) <= M)%R)) cps -> (M <= 2 ^ 498)%R ->
  Forall (fun w => finite w /\ (m <= dval w <= W)%R) wts -> (/ 2 ^ 99 <= m)%R -> (W <= 2 ^ 99)%R -> (IZR (p + 1) * W <= 2 ^ 40 * m)%R ->
  Forall2 double_parameter knots us -> Forall (fun c => 0 <= c < dim) dims ->
  3 * (degree_cost degs + summands degs) + 7 <= 2 ^ 50 -> depth degs <= 200 ->
  let r := p + 1 - Z.of_nat (occurrences (map dval kv) (dval u)) in
  let e := (IZR r * (W / m * (M * / 2 ^ 44 + / 2 ^ 890)))%R in
  let near := Forall2 (fun c v => finite v /\
      (Rabs (dval v - exact_rational (map (map dval) knots) degs (map (map dval) cps) (map dval wts) (map dval us) c) <=
        IZR (3 * (degree_cost degs + summands degs) + 7) * / 2 ^ 52 * (M + e) +
        2 * IZR (summands degs) * (2 ^ 202 * 4 ^ Z.to_nat (depth degs) * (M + e) + 2 ^ 104) * underflow + e)%R) dims in
  exists s s1 s2 s', spline_new (F := Fops) knots degs cps (Some wts) = Ok s /\ subdivide s u d = Ok (s1, s2, s') /\
    ((nth d (map dval us) 0 < dval u \/ nth d (map dval us) 0 = dval u /\ (1 <= r)%Z)%R -> exists vs, evaluate s1 us dims = Ok vs /\ near vs) /\
    ((dval u <= nth d (map dval us) 0)%R -> exists vs, evaluate s2 us dims = Ok vs /\ near vs).
Proof.
  intros knots degs cps wts d kv p u us dim dims M m W Hg Ek Ed Fu Hins Hz Hd Hrow Hn Hw Hb Hv HM Hwt Hm HW HpW Hus Hdims Hc1 Hc2 r e near.
  destruct (nurbs_split0 knots degs cps wts d kv p u dim M m W Hg Ek Ed Fu Hins Hz Hd Hrow Hn Hw Hb Hv HM Hwt Hm HW HpW)
    as (s & s1 & s2 & s' & kv1 & kv2 & cps1 & cps2 & wts1 & wts2 & E1 & E2 & _ & P1 & P2 & P3 & P4 & _ & Zb1 & Zb2 & _ & G1 & G2).
  fold r in G1, G2.
  destruct (phys_of_rows_w knots degs cps wts dim M m W Hg Hd Hrow Hn Hw Hv Hwt) as [Hph Hbd].
  set (ph := mkPhys (F := Fops) dim (point_counts knots degs) (concat cps) (Some wts)) in *.
  pose proof Hins as (_ & _ & Ho). assert (Hr0 : 0 <= r) by (unfold r; lia). assert (Hr1 : r <= p + 1) by (unfold r; lia).
  pose proof (ins_M ph M Hph (proj1 Hbd)) as M0. assert (K0 : (0 <= IZR r)%R) by (now apply IZR_le).
  assert (mW : (m <= W)%R).
  { destruct Hph as (Hpl & Hs). pose proof (total_pos _ Hpl). pose proof (wbounded_at ph M m W 0 _ Hs Hbd ltac:(lia)). lra. }
  pose proof (cap_m m Hm) as m0.
  assert (HkW : (IZR r * W <= 2 ^ 40 * m)%R).
  { eapply Rle_trans; [|exact HpW]. apply Rmult_le_compat_r; [lra | now apply IZR_le]. }
  pose proof (cap_few m W (IZR r) Hm HkW) as CF. pose proof (cap_all M m W (IZR r) (conj M0 HM) Hm mW K0 HkW) as CA. pose proof (cap_X M (conj M0 HM)) as CX.
  change (W / m * (M * / 2 ^ 44 + / 2 ^ 890))%R with (nurbs_error M m W) in e.
  assert (HM' : (M + e <= 2 ^ 500)%R) by (unfold e; lra).
  pose proof (parameter_inside _ _ Hus) as Dom. pose proof (inside_at knots d kv _ Ek Dom) as Dd.
  assert (Din : forall c, In c dims -> 0 <= c < dim) by (now apply Forall_forall).
  assert (Piece : forall (side : list R -> Prop) kvi cpsi wtsi si, zlen cpsi < 2 ^ 64 -> good_piece knots degs d p cps wts dim M m W r side kvi cpsi wtsi si ->
     side (map dval us) -> (first_knot (map dval kvi) <= nth d (map dval us) 0 <= final_knot (map dval kvi))%R ->
     exists vs, evaluate si us dims = Ok vs /\ near vs).
  { intros side kvi cpsi wtsi si Zb (Es & Dk & Zi & Zw & Ri & Bw0 & Bi & Xi) Hs Hd'. fold e in Bi, Xi.
    assert (Hg' : Forall2 double_direction (upd knots d kvi) degs) by (apply Forall2_upd; auto; intros q Eq; replace q with p by congruence; exact Dk).
    assert (Us' : Forall2 double_parameter (upd knots d kvi) us).
    { apply parameter_of; [now apply (parameter_finite knots) | now apply (inside_piece knots d kv)]. }
    assert (Bm : Forall (Forall moderate) cpsi).
    { eapply Forall_impl; [|exact Bi]. intros l Hl. eapply Forall_impl; [|exact Hl]. intros x [X1 X2]. split; [exact X1 | lra]. }
    assert (Bb : Forall (Forall (fun x => Rabs (dval x) <= M + e)%R) cpsi).
    { eapply Forall_impl; [|exact Bi]. intros l Hl. eapply Forall_impl; [|exact Hl]. intros x [_ X2]. exact X2. }
    assert (Bw : Forall double_weight wtsi).
    { eapply Forall_impl; [|exact Bw0]. intros x [X1 X2]. split; [exact X1|]. replace (2 ^ 100)%R with (2 * 2 ^ 99)%R by ring. rewrite Rinv_mult. lra. }
    destruct (double_rational (upd knots d kvi) degs cpsi wtsi us dim dims (M + e) Hg' Us' Ri Zi Zb Zw Bw Hdims Bm Bb HM' Hc1 Hc2) as (s4 & vs & E5 & E6 & Q).
    pose proof (eq_trans (eq_sym Es) E5) as E7. injection E7 as <-. exists vs. split; [exact E6|]. unfold near. clear - Q Din Dom Xi Hs.
    induction Q as [|c v dims vs [V1 V2] _ IH]; constructor.
    - split; [exact V1|]. specialize (Xi (map dval us) c Dom Hs (Din c (or_introl eq_refl))).
      match type of V2 with (_ <= ?x)%R => set (b := x) in * end.
      clearbody b e. apply Rabs_between in V2. apply Rabs_between in Xi. clear - V2 Xi. apply Rabs_le. lra.
    - apply IH. intros; apply Din. now right. }
  exists s, s1, s2, s'. split; [exact E1|]. split; [exact E2|]. split.
  - intros Hs. apply (Piece _ kv1 cps1 wts1 s1 Zb1 G1 Hs). rewrite P1, P2. destruct Hs as [Hs|[Hs _]]; lra.
  - intros Hs. apply (Piece _ kv2 cps2 wts2 s2 Zb2 G2 Hs). rewrite P3, P4. lra.
Qed.
