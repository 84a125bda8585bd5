(* Two cuts, in either order, give the same pieces (C87). *)
From Coq Require Import ZArith List Bool Lia Reals Lra Permutation.
From Verif Require Import Base BaseFacts RSum MultiIndex MultiIndexSpec MultiIndexFacts TensorSum
  KnotVec KnotVecSpec KnotVecFacts KnotVecThms BSplineTheory BasisSpec Basis BasisFacts BasisThms VecUtils Spaces SpacesSpec
  SpacesFacts SpacesThms SplineEval SplineEdit SplineSpec EvalThms PhysFacts AdjustFacts InsertKnots InsertFacts EditSpec InsertThms SubdivideThms
  UniqueSpec UniqueFacts KnotRuns OrderSpec OrderThms CutsThms.
Import ListNotations.
Open Scope Z_scope.

Lemma occ_In l x : (0 < occurrences l x)%nat -> In x l.
Proof. intros H. now apply (count_occ_In Req_EM_T). Qed.
Lemma In_occ l x : In x l -> (0 < occurrences l x)%nat.
Proof. intros H. now apply (count_occ_In Req_EM_T). Qed.

Lemma upper_in kv p u kv2 x : upper kv p u kv2 -> In x kv2 -> In x (u :: kv).
Proof.
  intros (_ & _ & _ & _ & O1 & O2 & O3) H. apply In_occ in H. destruct (Rtotal_order x u) as [C|[C|C]].
  - rewrite O3 in H by auto. lia.
  - now left.
  - rewrite O1 in H by auto. right. now apply occ_In.
Qed.
Lemma lower_in kv p u kv1 x : lower kv p u kv1 -> In x kv1 -> In x (u :: kv).
Proof.
  intros (_ & _ & _ & _ & O1 & O2 & O3) H. apply In_occ in H. destruct (Rtotal_order x u) as [C|[C|C]].
  - rewrite O1 in H by auto. right. now apply occ_In.
  - now left.
  - rewrite O3 in H by auto. lia.
Qed.

Lemma upper_insertable kv p u v kv2 : upper kv p u kv2 -> (u < v < final_knot kv)%R -> separated (u :: v :: kv) -> at_most_full kv p ->
  insertable kv2 p v 0.
Proof.
  intros H Hv Hs Ho. pose proof H as (_ & E1 & E2 & _ & O1 & _). split; [lra|]. split.
  - apply (separated_incl _ (u :: v :: kv)); auto. intros x [<-|Hx]; [right; now left|].
    destruct (upper_in _ _ _ _ _ H Hx) as [<-|Hi]; [now left | right; now right].
  - rewrite O1 by lra. specialize (Ho v). lia.
Qed.
Lemma lower_insertable kv p u v kv1 : lower kv p v kv1 -> (first_knot kv < u < v)%R -> separated (u :: v :: kv) -> at_most_full kv p ->
  insertable kv1 p u 0.
Proof.
  intros H Hv Hs Ho. pose proof H as (_ & E1 & E2 & _ & O1 & _). split; [lra|]. split.
  - apply (separated_incl _ (u :: v :: kv)); auto. intros x [<-|Hx]; [now left|].
    destruct (lower_in _ _ _ _ _ H Hx) as [<-|Hi]; [right; now left | right; now right].
  - rewrite O1 by lra. specialize (Ho u). lia.
Qed.

Lemma upper_full kv p u kv2 : 0 <= p -> upper kv p u kv2 -> at_most_full kv p -> at_most_full kv2 p.
Proof.
  intros Hp (_ & _ & _ & _ & O1 & O2 & O3) H x. destruct (Rtotal_order x u) as [C|[->|C]]; [rewrite O3 by auto; lia | lia | rewrite O1 by auto; apply H].
Qed.
Lemma lower_full kv p u kv1 : 0 <= p -> lower kv p u kv1 -> at_most_full kv p -> at_most_full kv1 p.
Proof.
  intros Hp (_ & _ & _ & _ & O1 & O2 & O3) H x. destruct (Rtotal_order x u) as [C|[->|C]]; [rewrite O1 by auto; apply H | lia | rewrite O3 by auto; lia].
Qed.

Lemma middle_same kv p u v kb km ke km' : (u < v)%R -> upper kv p u kb -> lower kb p v km -> lower kv p v ke -> upper ke p u km' -> km = km'.
Proof.
  intros Huv (_ & _ & _ & _ & A1 & A2 & A3) (N1 & _ & _ & _ & B1 & B2 & B3) (_ & _ & _ & _ & C1 & C2 & C3) (N2 & _ & _ & _ & D1 & D2 & D3).
  apply same_counts; auto. intros x. destruct (Rtotal_order x u) as [C|[->|C]].
  - rewrite B1, D3, A3 by lra. reflexivity.
  - rewrite B1 by lra. lia.
  - rewrite D1 by lra. destruct (Rtotal_order x v) as [C'|[->|C']].
    + rewrite B1, A1, C1 by lra. reflexivity.
    + lia.
    + rewrite B3, C3 by lra. reflexivity.
Qed.
Lemma last_same kv p u v kb kc kc' : (u < v)%R -> upper kv p u kb -> upper kb p v kc -> upper kv p v kc' -> kc = kc'.
Proof.
  intros Huv (_ & _ & _ & _ & A1 & _) (N1 & _ & _ & _ & B1 & B2 & B3) (N2 & _ & _ & _ & D1 & D2 & D3).
  apply same_counts; auto. intros x. destruct (Rtotal_order x v) as [C|[->|C]].
  - rewrite B3, D3 by lra. reflexivity.
  - lia.
  - rewrite B1, D1, A1 by lra. reflexivity.
Qed.
Lemma first_same kv p u v ke ka ka' : (u < v)%R -> lower kv p v ke -> lower ke p u ka -> lower kv p u ka' -> ka = ka'.
Proof.
  intros Huv (_ & _ & _ & _ & A1 & _) (N1 & _ & _ & _ & B1 & B2 & B3) (N2 & _ & _ & _ & D1 & D2 & D3).
  apply same_counts; auto. intros x. destruct (Rtotal_order x u) as [C|[->|C]].
  - rewrite B1, D1, A1 by lra. reflexivity.
  - lia.
  - rewrite B3, D3 by lra. reflexivity.
Qed.
Lemma lower_same kv p u ka ka' : lower kv p u ka -> lower kv p u ka' -> ka = ka'.
Proof.
  intros (N1 & _ & _ & _ & B1 & B2 & B3) (N2 & _ & _ & _ & D1 & D2 & D3).
  apply same_counts; auto. intros x. destruct (Rtotal_order x u) as [C|[->|C]]; [rewrite B1, D1 by lra | lia | rewrite B3, D3 by lra]; reflexivity.
Qed.
Lemma upper_same kv p u ka ka' : upper kv p u ka -> upper kv p u ka' -> ka = ka'.
Proof.
  intros (N1 & _ & _ & _ & B1 & B2 & B3) (N2 & _ & _ & _ & D1 & D2 & D3).
  apply same_counts; auto. intros x. destruct (Rtotal_order x u) as [C|[->|C]]; [rewrite B3, D3 by lra | lia | rewrite B1, D1 by lra]; reflexivity.
Qed.

Lemma total_upd_mono lens d x y : pos_lens lens -> (d < length lens)%nat -> x <= y -> total (upd lens d x) <= total (upd lens d y).
Proof.
  intros Hp Hd Hxy. rewrite !total_upd by auto.
  assert (pos_lens (remove_at d lens)).
  { unfold pos_lens in *. clear - Hp. revert d; induction Hp; intros [|d]; cbn; auto; constructor; auto. }
  pose proof (total_pos _ H). nia.
Qed.

Section Thms.
Variable dz : R -> R.
Local Notation F := (Rops dz).
Implicit Types s : spline F.

Lemma piece_npts s s1 d kv p kv1 : well_formed s -> direction s d kv p -> part dz s s1 -> knots_of s1 = upd (knots_of s) d kv1 ->
  npts_of s1 = upd (npts_of s) d (zlen kv1 - p - 1).
Proof.
  intros W [Ek Ed] P K. rewrite (wf_npts _ (pt_wf _ _ _ P)), K, (pt_degs _ _ _ P), (map2_upd_l _ _ _ d _ p Ed).
  now rewrite <- (wf_npts s W).
Qed.

Lemma piece_direction s s1 d kv p kv1 : direction s d kv p -> part dz s s1 -> knots_of s1 = upd (knots_of s) d kv1 -> direction s1 d kv1 p.
Proof.
  intros [Ek Ed] P K. split; [rewrite K; now apply (nth_error_upd_same _ _ _ kv) | now rewrite (pt_degs _ _ _ P)].
Qed.
Lemma piece_other s s1 d d' kv p kv1 : d <> d' -> direction s d' kv p -> part dz s s1 -> knots_of s1 = upd (knots_of s) d kv1 -> direction s1 d' kv p.
Proof.
  intros Hne [Ek Ed] P K. split; [rewrite K, nth_error_upd_other; auto | now rewrite (pt_degs _ _ _ P)].
Qed.

Lemma upd_full s s1 d kv p kv1 : direction s d kv p -> part dz s s1 -> knots_of s1 = upd (knots_of s) d kv1 -> at_most_full kv1 p ->
  Forall2 at_most_full (knots_of s) (degs_of s) -> Forall2 at_most_full (knots_of s1) (degs_of s1).
Proof.
  intros [Ek Ed] P K H Hf. rewrite K, (pt_degs _ _ _ P). apply f2_intro; [rewrite upd_length; apply (f2_length _ _ _ Hf)|].
  intros j a b Ea Eb. destruct (Nat.eq_dec j d) as [->|Hn].
  - rewrite (nth_error_upd_same _ _ _ kv) in Ea by auto. injection Ea as <-. congruence.
  - rewrite nth_error_upd_other in Ea by auto. destruct (f2_nth _ _ _ Hf j a Ea) as (b' & Eb' & G). congruence.
Qed.

Lemma full_supports s : well_formed s -> Forall2 at_most_full (knots_of s) (degs_of s) -> Forall2 full_support (knots_of s) (degs_of s).
Proof.
  intros [Hd _ _ _ _ _] H. revert Hd. induction H as [|kv p l1 l2 H1 H2 IH]; intros Hd; constructor.
  - inversion Hd as [|? ? ? ? (Hp & _ & Hn & _)]; subst. now apply support_occ.
  - apply IH. now inversion Hd.
Qed.

Lemma full_direction s d kv p : direction s d kv p -> Forall2 at_most_full (knots_of s) (degs_of s) -> at_most_full kv p.
Proof. intros [Ek Ed] H. destruct (f2_nth _ _ _ H d kv Ek) as (p' & E' & G). congruence. Qed.

Lemma separated_one u v kv : separated (u :: v :: kv) -> separated (u :: kv) /\ separated (v :: kv).
Proof.
  intros H. split; (apply (separated_incl _ (u :: v :: kv)); auto; intros x [<-|Hx]; cbn [In]; auto).
Qed.

(* two cuts in one direction *)
Theorem cuts_same_direction : forall s d kv p u v, well_formed s -> regular s -> Forall2 at_most_full (knots_of s) (degs_of s) ->
  direction s d kv p -> (first_knot kv < u < v)%R -> (v < final_knot kv)%R -> separated (u :: v :: kv) ->
  zlen kv + p + 1 < 2 ^ 31 -> total (upd (npts_of s) d (nth d (npts_of s) 0 + 2 * (p + 1))) < 2 ^ 64 ->
  exists low middle high above below s1 s2 s3 s4,
    subdivide s u d = Ok (low, above, s1) /\ subdivide above v d = Ok (middle, high, s2) /\
    subdivide s v d = Ok (below, high, s3) /\ subdivide below u d = Ok (low, middle, s4).
Proof.
  intros s d kv p u v W Rg Hf Hdir Hu Hv Hs Hz Ht. destruct (separated_one u v kv Hs) as [Hsu Hsv].
  pose proof (full_direction s d kv p Hdir Hf) as Ho. pose proof Hdir as [Ek Ed].
  destruct (wf_direction dz s d kv p W Ek Ed) as ((Hp & _) & Hd & Hnd). pose proof (wf_phys dz s W) as (Hpl & _). fold (npts_of s) in Hpl.
  assert (Ht1 : total (upd (npts_of s) d (nth d (npts_of s) 0 + p + 1)) < 2 ^ 64).
  { eapply Z.le_lt_trans; [|exact Ht]. apply total_upd_mono; auto. lia. }
  destruct (subdivide_parts dz s d kv p u W Rg Hdir) as (a & b & s1 & ka & kb & E1 & Pa & Pb & Ka & La & Kb & Ub); auto; try lia.
  { split; [lra|]. split; auto. specialize (Ho u). lia. }
  destruct (subdivide_parts dz s d kv p v W Rg Hdir) as (e & h & s3 & ke & kh & E3 & Pe & Ph & Ke & Le & Kh & Uh); auto; try lia.
  { split; [lra|]. split; auto. specialize (Ho v). lia. }
  assert (Hnext : forall t kt, part dz s t -> knots_of t = upd (knots_of s) d kt -> zlen kt <= zlen kv + p + 1 ->
    total (upd (npts_of t) d (nth d (npts_of t) 0 + p + 1)) < 2 ^ 64).
  { intros t kt Pt Kt Hl. rewrite (piece_npts s t d kv p kt W Hdir Pt Kt). rewrite nth_upd_same by auto. rewrite upd_upd.
    eapply Z.le_lt_trans; [|exact Ht]. apply total_upd_mono; auto. lia. }
  destruct (subdivide_parts dz b d kb p v (pt_wf _ _ _ Pb) (pt_reg _ _ _ Pb) (piece_direction s b d kv p kb Hdir Pb Kb))
    as (m & c & s2 & km & kc & E2 & Pm & Pc & Km & Lm & Kc & Uc).
  { apply (upper_insertable kv p u v kb); auto; lra. } { destruct Ub as (_ & _ & _ & Hl & _). lia. }
  { apply (Hnext b kb); auto. apply Ub. }
  destruct (subdivide_parts dz e d ke p u (pt_wf _ _ _ Pe) (pt_reg _ _ _ Pe) (piece_direction s e d kv p ke Hdir Pe Ke))
    as (a' & m' & s4 & ka' & km' & E4 & Pa' & Pm' & Ka' & La' & Km' & Um').
  { apply (lower_insertable kv p u v ke); auto; lra. } { destruct Le as (_ & _ & _ & Hl & _). lia. }
  { apply (Hnext e ke); auto. apply Le. }
  rewrite Kb, upd_upd in Km, Kc. rewrite Ke, upd_upd in Ka', Km'.
  pose proof (part_trans _ _ _ _ Pb Pm) as Qm. pose proof (part_trans _ _ _ _ Pb Pc) as Qc.
  pose proof (part_trans _ _ _ _ Pe Pa') as Qa. pose proof (part_trans _ _ _ _ Pe Pm') as Qm'.
  pose proof (upper_full _ _ _ _ Hp Ub Ho) as Fb.
  assert (Ea : a = a').
  { apply (part_unique dz s a a' Pa Qa).
    - rewrite Ka, Ka'. f_equal. symmetry. apply (first_same kv p u v ke); auto; lra.
    - apply full_supports; [apply Pa|]. apply (upd_full s a d kv p ka); auto. now apply (lower_full kv p u). }
  assert (Em : m = m').
  { apply (part_unique dz s m m' Qm Qm').
    - rewrite Km, Km'. f_equal. apply (middle_same kv p u v kb km ke km'); auto; lra.
    - apply full_supports; [apply Qm|]. apply (upd_full s m d kv p km); auto. now apply (lower_full kb p v). }
  assert (Ec : h = c).
  { apply (part_unique dz s h c Ph Qc).
    - rewrite Kh, Kc. f_equal. symmetry. apply (last_same kv p u v kb); auto; lra.
    - apply full_supports; [apply Ph|]. apply (upd_full s h d kv p kh); auto. now apply (upper_full kv p v). }
  subst a' m' h. exists a, m, c, b, e, s1, s2, s3, s4. auto.
Qed.

(* cuts in two directions *)
Theorem cuts_two_directions : forall s d d' kv kv' p p' u v, well_formed s -> regular s -> Forall2 at_most_full (knots_of s) (degs_of s) ->
  d <> d' -> direction s d kv p -> direction s d' kv' p' -> insertable kv p u 0 -> insertable kv' p' v 0 ->
  zlen kv < 2 ^ 31 -> zlen kv' < 2 ^ 31 ->
  total (upd (upd (npts_of s) d (nth d (npts_of s) 0 + p + 1)) d' (nth d' (npts_of s) 0 + p' + 1)) < 2 ^ 64 ->
  exists low high below above q1 q2 q3 q4 s1 s2 s3 s4 s5 s6,
    subdivide s u d = Ok (low, high, s1) /\ subdivide low v d' = Ok (q1, q2, s2) /\ subdivide high v d' = Ok (q3, q4, s3) /\
    subdivide s v d' = Ok (below, above, s4) /\ subdivide below u d = Ok (q1, q3, s5) /\ subdivide above u d = Ok (q2, q4, s6).
Proof.
  intros s d d' kv kv' p p' u v W Rg Hf Hne Hdir Hdir' Hu Hv Hz Hz' Ht.
  pose proof (full_direction s d kv p Hdir Hf) as Ho. pose proof (full_direction s d' kv' p' Hdir' Hf) as Ho'.
  pose proof Hdir as [Ek Ed]. pose proof Hdir' as [Ek' Ed'].
  destruct (wf_direction dz s d kv p W Ek Ed) as ((Hp & _) & Hd & Hnd). destruct (wf_direction dz s d' kv' p' W Ek' Ed') as ((Hp' & _) & Hd' & Hnd').
  pose proof (wf_phys dz s W) as (Hpl & _). fold (npts_of s) in Hpl.
  pose proof (pos_lens_nth _ d Hpl Hd) as Hn1. pose proof (pos_lens_nth _ d' Hpl Hd') as Hn2.
  set (n := nth d (npts_of s) 0) in *. set (n' := nth d' (npts_of s) 0) in *.
  assert (Ht1 : total (upd (npts_of s) d (n + p + 1)) < 2 ^ 64).
  { eapply Z.le_lt_trans; [|exact Ht]. rewrite <- (upd_nth_self (upd (npts_of s) d (n + p + 1)) d' 0) at 1.
    rewrite nth_upd_other by auto. apply total_upd_mono; [apply pos_lens_upd; auto; lia | rewrite upd_length; auto | fold n'; lia]. }
  assert (Ht2 : total (upd (npts_of s) d' (n' + p' + 1)) < 2 ^ 64).
  { eapply Z.le_lt_trans; [|exact Ht]. rewrite upd_comm by auto. rewrite <- (upd_nth_self (upd (npts_of s) d' (n' + p' + 1)) d 0) at 1.
    rewrite nth_upd_other by auto. apply total_upd_mono; [apply pos_lens_upd; auto; lia | rewrite upd_length; auto | fold n; lia]. }
  destruct (subdivide_parts dz s d kv p u W Rg Hdir Hu Hz Ht1) as (a & b & s1 & ka & kb & E1 & Pa & Pb & Ka & La & Kb & Ub).
  destruct (subdivide_parts dz s d' kv' p' v W Rg Hdir' Hv Hz' Ht2) as (e & h & s4 & ke & kh & E4 & Pe & Ph & Ke & Le & Kh & Uh).
  assert (Hn_a : forall t kt, part dz s t -> knots_of t = upd (knots_of s) d kt -> zlen kt <= zlen kv + p + 1 ->
    total (upd (npts_of t) d' (nth d' (npts_of t) 0 + p' + 1)) < 2 ^ 64).
  { intros t kt Pt Kt Hl. rewrite (piece_npts s t d kv p kt W Hdir Pt Kt). rewrite nth_upd_other by auto. fold n'.
    eapply Z.le_lt_trans; [|exact Ht]. rewrite !(upd_comm _ d d') by auto.
    apply total_upd_mono; [apply pos_lens_upd; auto; lia | rewrite upd_length; auto | unfold n in *; lia]. }
  assert (Hn_e : forall t kt, part dz s t -> knots_of t = upd (knots_of s) d' kt -> zlen kt <= zlen kv' + p' + 1 ->
    total (upd (npts_of t) d (nth d (npts_of t) 0 + p + 1)) < 2 ^ 64).
  { intros t kt Pt Kt Hl. rewrite (piece_npts s t d' kv' p' kt W Hdir' Pt Kt). rewrite nth_upd_other by auto. fold n.
    eapply Z.le_lt_trans; [|exact Ht]. rewrite (upd_comm _ d' d) by auto.
    apply total_upd_mono; [apply pos_lens_upd; auto; lia | rewrite upd_length; auto | unfold n' in *; lia]. }
  destruct (subdivide_parts dz a d' kv' p' v (pt_wf _ _ _ Pa) (pt_reg _ _ _ Pa) (piece_other s a d d' kv' p' ka Hne Hdir' Pa Ka) Hv Hz' (Hn_a a ka Pa Ka ltac:(apply La)))
    as (q1 & q2 & s2 & k1 & k2 & E2 & P1 & P2 & K1 & L1 & K2 & U2).
  destruct (subdivide_parts dz b d' kv' p' v (pt_wf _ _ _ Pb) (pt_reg _ _ _ Pb) (piece_other s b d d' kv' p' kb Hne Hdir' Pb Kb) Hv Hz' (Hn_a b kb Pb Kb ltac:(apply Ub)))
    as (q3 & q4 & s3 & k3 & k4 & E3 & P3 & P4 & K3 & L3 & K4 & U4).
  destruct (subdivide_parts dz e d kv p u (pt_wf _ _ _ Pe) (pt_reg _ _ _ Pe) (piece_other s e d' d kv p ke (not_eq_sym Hne) Hdir Pe Ke) Hu Hz (Hn_e e ke Pe Ke ltac:(apply Le)))
    as (r1 & r3 & s5 & j1 & j3 & E5 & R1 & R3 & J1 & M1 & J3 & V3).
  destruct (subdivide_parts dz h d kv p u (pt_wf _ _ _ Ph) (pt_reg _ _ _ Ph) (piece_other s h d' d kv p kh (not_eq_sym Hne) Hdir Ph Kh) Hu Hz (Hn_e h kh Ph Kh ltac:(apply Uh)))
    as (r2 & r4 & s6 & j2 & j4 & E6 & R2 & R4 & J2 & M2 & J4 & V4).
  rewrite Ka in K1, K2. rewrite Kb in K3, K4. rewrite Ke in J1, J3. rewrite Kh in J2, J4.
  assert (Fa : Forall2 at_most_full (knots_of a) (degs_of a)) by (apply (upd_full s a d kv p ka); auto; now apply (lower_full kv p u)).
  assert (Fb : Forall2 at_most_full (knots_of b) (degs_of b)) by (apply (upd_full s b d kv p kb); auto; now apply (upper_full kv p u)).
  assert (X : forall t q k, part dz s t -> part dz t q -> direction t d' kv' p' -> knots_of q = upd (knots_of t) d' k ->
    at_most_full k p' -> Forall2 at_most_full (knots_of t) (degs_of t) -> Forall2 full_support (knots_of q) (degs_of q)).
  { intros t q k _ Pq Hq Kq Hk Ft. apply full_supports; [apply Pq|]. now apply (upd_full t q d' kv' p' k). }
  assert (D1 : direction a d' kv' p') by (now apply (piece_other s a d d' kv' p' ka)).
  assert (D2 : direction b d' kv' p') by (now apply (piece_other s b d d' kv' p' kb)).
  assert (e1 : q1 = r1).
  { apply (part_unique dz s q1 r1 (part_trans _ _ _ _ Pa P1) (part_trans _ _ _ _ Pe R1)).
    - rewrite K1, J1, upd_comm by auto. rewrite (lower_same _ _ _ _ _ L1 Le), (lower_same _ _ _ _ _ La M1). reflexivity.
    - apply (X a q1 k1); auto; [rewrite Ka; exact K1 | now apply (lower_full kv' p' v)]. }
  assert (e2 : q2 = r2).
  { apply (part_unique dz s q2 r2 (part_trans _ _ _ _ Pa P2) (part_trans _ _ _ _ Ph R2)).
    - rewrite K2, J2, upd_comm by auto. rewrite (upper_same _ _ _ _ _ U2 Uh), (lower_same _ _ _ _ _ La M2). reflexivity.
    - apply (X a q2 k2); auto; [rewrite Ka; exact K2 | now apply (upper_full kv' p' v)]. }
  assert (e3 : q3 = r3).
  { apply (part_unique dz s q3 r3 (part_trans _ _ _ _ Pb P3) (part_trans _ _ _ _ Pe R3)).
    - rewrite K3, J3, upd_comm by auto. rewrite (lower_same _ _ _ _ _ L3 Le), (upper_same _ _ _ _ _ Ub V3). reflexivity.
    - apply (X b q3 k3); auto; [rewrite Kb; exact K3 | now apply (lower_full kv' p' v)]. }
  assert (e4 : q4 = r4).
  { apply (part_unique dz s q4 r4 (part_trans _ _ _ _ Pb P4) (part_trans _ _ _ _ Ph R4)).
    - rewrite K4, J4, upd_comm by auto. rewrite (upper_same _ _ _ _ _ U4 Uh), (upper_same _ _ _ _ _ Ub V4). reflexivity.
    - apply (X b q4 k4); auto; [rewrite Kb; exact K4 | now apply (upper_full kv' p' v)]. }
  subst r1 r2 r3 r4. exists a, b, e, h, q1, q2, q3, q4, s1, s2, s3, s4, s5, s6. repeat (split; [assumption|]). assumption.
Qed.
End Thms.
