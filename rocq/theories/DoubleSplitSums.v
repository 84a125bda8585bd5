(* The exact functions of the two pieces of a spline of doubles are the exact function of the spline; the last inserted knot repeats a layer of control points. *)
From Coq Require Import ZArith List Bool Lia Reals Floats Lra Permutation.
From Verif Require Import Base BaseFacts RSum MultiIndex MultiIndexSpec MultiIndexFacts TensorSum
  KnotVec KnotVecSpec KnotVecFacts Boehm Basis BasisSpec BSplineTheory BasisFacts VecUtils
  Spaces SpacesSpec SpacesFacts SplineEval SplineEdit SplineSpec EvalFacts RationalDeriv EvalDeriv EvalThms SplineNew
  PhysFacts AdjustFacts InsertKnots InsertFacts InsertThms EditSpec AdjustAny SubdivideFacts SubdividePieces SubdivideThms
  DoubleSpec DoubleRationalSpec DoubleFacts DoubleError DoubleKnots DoubleBasis DoubleSum DoubleEval DoubleThms DoubleRationalEval DoubleRationalThms
  DoubleMix DoubleMixRational DoubleInsert DoubleInsertThms DoubleInsertRational DoubleInsertRationalThms DoubleNurbsInsert DoubleSplit.
Import ListNotations.
Open Scope Z_scope.

Lemma inside_part knots d kv kv' us : nth_error knots d = Some kv ->
  (first_knot (map dval kv) <= first_knot (map dval kv'))%R -> (final_knot (map dval kv') <= final_knot (map dval kv))%R ->
  inside (upd knots d kv') us ->
  inside knots us /\ exists v, nth_error us d = Some v /\ (first_knot (map dval kv') <= v <= final_knot (map dval kv'))%R.
Proof.
  unfold inside. intros Ek H1 H2 H. revert d us Ek H.
  induction knots as [|k ks IH]; intros [|d] us Ek H; cbn in *; try discriminate.
  - injection Ek as ->. inversion H as [|? v ? vs Hv Hvs]; subst. split; [constructor; [lra | auto] | exists v; split; [reflexivity | lra]].
  - inversion H as [|? v ? vs Hv Hvs]; subst. destruct (IH d vs Ek Hvs) as [A B]. split; auto.
Qed.

Section Sums.
Variables (knots : list (list float)) (degs : list Z) (d : nat) (kv : list float) (p : Z) (u : float) (n : nat) (ph : phys Fops).
Hypothesis Hg : Forall2 double_direction knots degs.
Hypothesis Ek : nth_error knots d = Some kv.
Hypothesis Ed : nth_error degs d = Some p.
Hypothesis Hin : inner (map dval kv) p (dval u) n.
Hypothesis Hfull : Z.of_nat (occurrences (map dval kv) (dval u)) = p + 1.
Hypothesis Hph : g_phys_ok ph.
Hypothesis En : ph_npts ph = point_counts knots degs.

Lemma part_sums kv' first (c c' : list Z -> R) us :
  double_direction kv' p -> 0 <= first -> first + (zlen kv' - p - 1) <= zlen kv - p - 1 ->
  inside knots us -> inside (upd knots d kv') us ->
  (forall idx, in_box (ph_npts (piece_net ph first (zlen kv' - p - 1) d)) idx -> c' idx = c (moved d first idx)) ->
  (forall k k' r v, nth_error us d = Some v -> in_span (map dval kv) k v -> in_span (map dval kv') k' v -> (d <= length r)%nat ->
     (forall i, 0 <= i < zlen kv - p - 1 -> in_box (ph_npts ph) (insat d i r)) ->
     lsum (fun i => c (insat d i r) * B (tk (map dval kv)) k (Z.to_nat p) i v)%R (zseq 0 (Z.to_nat (zlen kv - p - 1))) =
     lsum (fun i => c (insat d (i + first) r) * B (tk (map dval kv')) k' (Z.to_nat p) i v)%R (zseq 0 (Z.to_nat (zlen kv' - p - 1)))) ->
  csum (map (map dval) (upd knots d kv')) degs c' us = csum (map (map dval) knots) degs c us.
Proof.
  intros Dk' Hf Hr Hus Hus' Hc Hline. set (ph1 := piece_net ph first (zlen kv' - p - 1) d) in *.
  pose proof (piece_dirs knots degs d p Hg Ed kv' Dk') as Hg'.
  pose proof (piece_phys d kv p u ph Hph kv' first Dk') as Hph1.
  fold ph1 in Hph1.
  pose proof (piece_counts knots degs d p ph Ed En kv' first) as En1. fold ph1 in En1.
  pose proof (exact_wf knots degs ph Hg Hph En) as W. pose proof (exact_wf (upd knots d kv') degs ph1 Hg' Hph1 En1) as W1.
  pose proof (dir_sums noz (exact_spline knots degs ph) (exact_spline (upd knots d kv') degs ph1) d (map dval kv) (map dval kv') p c c' us W W1) as DS.
  change (knots_of (exact_spline knots degs ph)) with (map (map dval) knots) in DS.
  change (knots_of (exact_spline (upd knots d kv') degs ph1)) with (map (map dval) (upd knots d kv')) in DS.
  change (degs_of (exact_spline knots degs ph)) with degs in DS. change (degs_of (exact_spline (upd knots d kv') degs ph1)) with degs in DS.
  change (npts_of (exact_spline knots degs ph)) with (ph_npts ph) in DS. change (npts_of (exact_spline (upd knots d kv') degs ph1)) with (ph_npts ph1) in DS.
  unfold csum. rewrite !counts_map, <- En, <- En1. apply DS; auto.
  - now apply map_nth_error.
  - now rewrite map_upd.
  - unfold in_domain. cbn [knots_of]. apply (inside_map _ _ Hus).
  - apply (inside_map _ _ Hus').
  - clear DS. rewrite !zlen_map. intros k k' r v Ev Sk Sk' Hd Hb0 Hb1.
    rewrite (Hline k k' r v) by auto. apply lsum_ext. intros i Hi. apply zseq_In in Hi. f_equal.
    rewrite (Hc (insat d i r)) by (apply Hb1; lia). now rewrite moved_insat by auto.
Qed.

Lemma left_sum (c c' : list Z -> R) us : inside (upd knots d (fleft kv n)) us ->
  (nth d us 0 < dval u)%R \/ (forall idx, in_box (ph_npts ph) idx -> c (upd idx d (Z.of_nat n - p - 2)) = c (upd idx d (Z.of_nat n - p - 1))) ->
  (forall idx, in_box (ph_npts (piece_net ph 0 (zlen (fleft kv n) - p - 1) d)) idx -> c' idx = c (moved d 0 idx)) ->
  csum (map (map dval) (upd knots d (fleft kv n))) degs c' us = csum (map (map dval) knots) degs c us.
Proof.
  intros Hus Hside Hc.
  pose proof (split_sizes kv p u n Hin Hfull) as (H1 & H2 & H3). pose proof (fleft_zlen kv p u n Hin Hfull) as LL.
  pose proof (fleft_ends kv p u n Hin Hfull) as [E1 E2]. pose proof Hin as (_ & _ & _ & Hu).
  destruct (inside_part knots d kv (fleft kv n) us Ek) as [Hus' (v & Ev & Hv)]; [lra | lra | auto |].
  apply (part_sums (fleft kv n) 0 c c' us); auto; try lia.
  { now apply (fleft_dir knots degs d kv p u n Hg Ek Ed Hin Hfull). }
  intros k k' r v0 Ev0 Sk Sk' Hr Hb. assert (v0 = v) by congruence. subst v0.
  rewrite map_fleft in *. pose proof (sum_left (map dval kv) p (dval u) n Hin Hfull (fun i => c (insat d i r)) k k' v) as SL.
  rewrite zlen_map in SL. rewrite SL; auto.
  - rewrite <- map_fleft, zlen_map. apply lsum_ext. intros i _. now rewrite Z.add_0_r.
  - rewrite E1, E2 in Hv. exact Hv.
  - destruct Hside as [Hside|Hside]; [left; now rewrite (nth_error_nth _ _ _ Ev) in Hside|]. right.
    assert (B0 : in_box (ph_npts ph) (insat d 0 r)) by (apply Hb; lia).
    specialize (Hside _ B0). now rewrite !insat_upd in Hside by auto.
Qed.

Lemma right_sum (c c' : list Z -> R) us : inside (upd knots d (fright kv p n)) us ->
  (forall idx, in_box (ph_npts (piece_net ph (Z.of_nat n - 1 - p) (zlen (fright kv p n) - p - 1) d)) idx -> c' idx = c (moved d (Z.of_nat n - 1 - p) idx)) ->
  csum (map (map dval) (upd knots d (fright kv p n))) degs c' us = csum (map (map dval) knots) degs c us.
Proof.
  intros Hus Hc.
  pose proof (split_sizes kv p u n Hin Hfull) as (H1 & H2 & H3). pose proof (fright_zlen kv p u n Hin Hfull) as LL.
  pose proof (fright_ends kv p u n Hin Hfull) as [E1 E2]. pose proof Hin as (_ & _ & _ & Hu).
  destruct (inside_part knots d kv (fright kv p n) us Ek) as [Hus' (v & Ev & Hv)]; [lra | lra | auto |].
  apply (part_sums (fright kv p n) (Z.of_nat n - 1 - p) c c' us); auto; try lia.
  { now apply (fright_dir knots degs d kv p u n Hg Ek Ed Hin Hfull). }
  intros k k' r v0 Ev0 Sk Sk' Hr Hb. assert (v0 = v) by congruence. subst v0.
  rewrite map_fright in *. pose proof (sum_right (map dval kv) p (dval u) n Hin Hfull (fun i => c (insat d i r)) k k' v) as SL.
  rewrite zlen_map in SL. rewrite SL; auto.
  - rewrite <- map_fright, zlen_map. reflexivity.
  - rewrite E1, E2 in Hv. exact Hv.
Qed.
End Sums.

(* ---- the pass that brings the multiplicity to p + 1 only copies ---- *)
Lemma full_pass kv p (u : float) n m d (ph : phys Fops) : Forall moderate kv -> moderate u -> inner (map dval kv) p (dval u) n ->
  Z.of_nat (m + occurrences (map dval kv) (dval u)) = p -> zlen kv < 2 ^ 31 ->
  g_phys_ok ph -> (d < length (ph_npts ph))%nat -> nth d (ph_npts ph) 0 = zlen kv + Z.of_nat m - p - 1 ->
  exists ph', insert_pass (F := Fops) kv p u d (Z.of_nat m + 1) (Z.of_nat n - 1, ph) = Ok (Z.of_nat n - 1, ph') /\
    forall idx, in_box (ph_npts ph') idx -> let i := Z.of_nat (n + S m) - p - 2 in
      (forall c, 0 <= c < ph_dim ph -> g_pcoord ph' (upd idx d (i + 1)) c = g_pcoord ph' (upd idx d i) c) /\
      g_pweight ph' (upd idx d (i + 1)) = g_pweight ph' (upd idx d i).
Proof.
  intros Mk Mu Hin Hm Hz Hph Hd Hnd.
  pose proof (inner_ends _ p _ n Hin) as [E1 E2]. rewrite zlen_map in E2. pose proof (inner_mult _ p _ n Hin) as Hmu.
  pose proof Hin as ((Hp & _ & Hnn & _) & _ & Hat & Hu). pose proof Hat as (_ & Hlo & Hhi). pose proof (f_n kv p u n Hin) as Hn1. rewrite map_length in Hhi.
  set (rk := map dval kv) in *. assert (Lrk : length rk = length kv) by (unfold rk; now rewrite map_length).
  set (o := occurrences rk (dval u)) in *.
  unfold insert_pass. rewrite (f_is_last kv p u n Mk Mu Hin). cbn [bind fst snd].
  rewrite (f_multiplicity kv u Mk Mu). fold rk o.
  assert (U1 : u64 (Z.of_nat n - 1 - Z.of_nat o) = Z.of_nat n - 1 - Z.of_nat o) by (unfold u64; apply Z.mod_small; unfold zlen in *; lia).
  assert (U2 : u64 (Z.of_nat n - 1 - p + (Z.of_nat m + 1)) = Z.of_nat n - p + Z.of_nat m) by (unfold u64; rewrite Z.mod_small; unfold zlen in *; lia).
  rewrite U1, U2.
  set (last := Z.of_nat n - 1 - Z.of_nat o). set (first := Z.of_nat n - p + Z.of_nat m).
  assert (Efl : first = last + 1) by (unfold first, last; lia).
  assert (Hsc : insert_scaling (F := Fops) (S (length kv)) kv u p (Z.of_nat m + 1) first last = Ok []).
  { cbn [insert_scaling]. destruct (Z.leb_spec first last); [lia | reflexivity]. }
  change (num Fops) with float in *. rewrite Hsc. cbn [bind].
  assert (I1 : i32 first = first) by (unfold i32; rewrite Z.mod_small; unfold first, zlen in *; lia).
  assert (I2 : i32 last = last) by (unfold i32; rewrite Z.mod_small; unfold last, zlen in *; lia).
  rewrite I1, I2.
  assert (Hl0 : 0 <= last < nth d (ph_npts ph) 0) by (unfold last; rewrite Hnd; unfold zlen in *; lia).
  destruct (g_adjust_ok (F := Fops) ph [] first last d (nth d (ph_npts ph) 0)) as (ph' & E & D1 & D2 & D3 & D4 & D5); auto.
  { lia. } { unfold zlen. cbn [length]. lia. }
  change (num Fops) with float in *. rewrite E. cbn [bind]. exists ph'. split; [reflexivity|].
  intros idx Hb. cbv zeta. rewrite D2 in Hb.
  replace (Z.of_nat (n + S m) - p - 2) with last by (unfold last; lia).
  pose proof (in_box_length _ _ Hb) as Ll. rewrite upd_length in Ll.
  assert (Hbox : forall j, 0 <= j < nth d (ph_npts ph) 0 + 1 -> in_box (upd (ph_npts ph) d (nth d (ph_npts ph) 0 + 1)) (upd idx d j)).
  { intros j Hj. apply (in_box_upd _ idx d j (nth d (ph_npts ph) 0 + 1)); [now rewrite upd_upd | now rewrite nth_upd_same]. }
  assert (Nd : forall j, nth d (upd idx d j) 0 = j) by (intros j; apply nth_upd_same; lia).
  assert (Bl : below d (upd idx d (last + 1)) = upd idx d last).
  { unfold below. rewrite Nd, upd_upd. f_equal. lia. }
  destruct (D5 _ (Hbox (last + 1) ltac:(lia))) as [A1 A2]. destruct (D5 _ (Hbox last ltac:(lia))) as [B1 B2].
  split.
  - intros c Hc. rewrite A1, B1 by auto. unfold g_newC. rewrite !Nd, Bl.
    destruct (Z.gtb_spec (last + 1) last); [|lia]. destruct (Z.gtb_spec last last); [lia|]. destruct (Z.geb_spec last first); [lia | reflexivity].
  - destruct (g_is_weighted ph) eqn:Ew.
    + rewrite A2, B2 by auto. unfold g_newW. rewrite !Nd, Bl.
      destruct (Z.gtb_spec (last + 1) last); [|lia]. destruct (Z.gtb_spec last last); [lia|]. destruct (Z.geb_spec last first); [lia | reflexivity].
    + unfold g_pweight, g_wat. unfold g_is_weighted in D4. destruct (ph_wts ph'); [discriminate | reflexivity].
Qed.
