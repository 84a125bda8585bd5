(* Several copies of a knot at once: the same as one after the other; removal takes them all away (C23, C25). *)
From Coq Require Import ZArith List Bool Lia Reals Lra Permutation.
From Verif Require Import Base BaseFacts RSum MultiIndex MultiIndexSpec MultiIndexFacts TensorSum
  KnotVec KnotVecSpec KnotVecFacts KnotVecThms BSplineTheory Boehm BasisSpec Basis BasisFacts BasisThms VecUtils Spaces SpacesSpec
  SpacesFacts SpacesThms SplineEval SplineEdit SplineSpec EvalFacts EvalDeriv SplineNew EvalThms PhysFacts AdjustFacts InsertKnots InsertFacts
  EditSpec InsertThms RemoveFacts RemoveCompact RemoveCheck RemovePoints RemoveKnots RemoveMain RemoveThms RemoveSpec RemoveDecide.
Import ListNotations.
Open Scope Z_scope.

Section Thms.
Variable dz : R -> R.
Local Notation F := (Rops dz).
Implicit Types s : spline F.

Lemma occurrences_insm kv n u m : occurrences (insm kv n u m) u = (m + occurrences kv u)%nat.
Proof.
  unfold insm, occurrences. rewrite !count_occ_app. rewrite <- (firstn_skipn n kv) at 3. rewrite count_occ_app.
  enough (E : count_occ Req_EM_T (repeat u m) u = m) by lia.
  induction m as [|m IH]; cbn [repeat count_occ]; auto. destruct (Req_EM_T u u); [now rewrite IH | contradiction].
Qed.

Lemma insert_knot_passes s d kv p u n m s1 : nth_error (knots_of s) d = Some kv -> nth_error (degs_of s) d = Some p -> inner kv p u n ->
  foldM (fun st i => insert_pass (F := F) kv p u d i st) (zseq 1 m) (Z.of_nat n - 1, sp_ph s) = Ok (Z.of_nat n - 1, sp_ph s1) ->
  foldM (fun ps (_ : Z) => ps_insert (F := F) ps u d) (zseq 0 m) (sp_ps s) = Ok (sp_ps s1) ->
  insert_knot s u d (Z.of_nat m) = Ok s1.
Proof.
  intros Ek Ed Hin F1 F2.
  unfold insert_knot, sp_knots, sp_deg, dget. fold (knots_of s) (degs_of s). rnorm. rewrite Ek. cbn [bind].
  rewrite (inner_span dz kv p u n Hin). cbn [bind]. rewrite Ed. cbn [bind].
  rewrite !for_up_foldM. replace (Z.to_nat (Z.of_nat m + 1 - 1)) with m by lia. replace (Z.to_nat (Z.of_nat m - 0)) with m by lia.
  rewrite F1. cbn [bind]. rewrite F2. cbn [bind snd]. destruct s1; reflexivity.
Qed.

Lemma insert_one_more s d kv p u n m : well_formed s -> regular s ->
  nth_error (knots_of s) d = Some kv -> nth_error (degs_of s) d = Some p -> inner kv p u n ->
  Z.of_nat (m + occurrences kv u) <= p -> zlen kv + Z.of_nat m < 2 ^ 31 ->
  exists s1 s2, insert_knot s u d (Z.of_nat m) = Ok s1 /\ insert_knot s u d (Z.of_nat (S m)) = Ok s2 /\
    insert_knot s1 u d 1 = Ok s2 /\ well_formed s1 /\ regular s1 /\ nth_error (knots_of s1) d = Some (insm kv n u m) /\
    nth_error (degs_of s1) d = Some p.
Proof.
  intros Hwf Hreg Ek Ed Hin Hm Hz. pose proof (regular_positive dz s Hwf Hreg) as Hpos.
  destruct (insert_passes dz s d kv p u n Hwf Ek Ed Hin ltac:(lia) m ltac:(lia)) as (s1 & F1 & F2 & W & K & G & Dm & Wt & Pv).
  destruct (insert_passes dz s d kv p u n Hwf Ek Ed Hin ltac:(lia) (S m) ltac:(lia)) as (s2 & F1' & F2' & W' & K' & G' & Dm' & Wt' & Pv').
  destruct (Pv Hpos) as [Hpos1 _]. destruct (Pv' Hpos) as [Hpos2 _]. clear Pv Pv'.
  exists s1, s2. split; [now apply (insert_knot_passes s d kv p u n)|]. split; [now apply (insert_knot_passes s d kv p u n)|].
  assert (Ek1 : nth_error (knots_of s1) d = Some (insm kv n u m)) by (rewrite K; now apply (nth_error_upd_same _ _ _ kv)).
  assert (Ed1 : nth_error (degs_of s1) d = Some p) by (now rewrite G).
  pose proof (inner_insm kv p u n m Hin) as Hin1.
  assert (Hn1 : (1 <= n < length kv)%nat) by (destruct Hin as (_ & _ & (H & _) & _); exact H).
  assert (HlenM : zlen (insm kv n u m) = zlen kv + Z.of_nat m) by (unfold zlen; rewrite insm_length by lia; lia).
  destruct (wf_direction dz s1 d _ p W Ek1 Ed1) as (Hg1 & Hd1 & Hnd1).
  assert (E1 : insert_pass (F := F) kv p u d (Z.of_nat m + 1) (Z.of_nat n - 1, sp_ph s1) = Ok (Z.of_nat n - 1, sp_ph s2)).
  { replace (zseq 1 (S m)) with (zseq 1 m ++ [Z.of_nat m + 1]) in F1'.
    - rewrite foldM_app, F1 in F1'. cbn [bind foldM] in F1'.
      destruct (insert_pass (F := F) kv p u d (Z.of_nat m + 1) (Z.of_nat n - 1, sp_ph s1)); cbn [bind] in F1'; try discriminate. exact F1'.
    - replace (S m) with (m + 1)%nat by lia. rewrite zseq_app. cbn [zseq]. do 2 f_equal. lia. }
  assert (E2 : ps_insert (F := F) (sp_ps s1) u d = Ok (sp_ps s2)).
  { replace (zseq 0 (S m)) with (zseq 0 m ++ [Z.of_nat m]) in F2'.
    - rewrite foldM_app, F2 in F2'. cbn [bind foldM] in F2'.
      destruct (ps_insert (F := F) (sp_ps s1) u d); cbn [bind] in F2'; try discriminate. exact F2'.
    - replace (S m) with (m + 1)%nat by lia. rewrite zseq_app. cbn [zseq]. do 2 f_equal. }
  unfold npts_of in Hd1, Hnd1.
  destruct (insert_pass_ok dz kv p u n m d (sp_ph s1) Hin Hm ltac:(lia) (wf_phys dz s1 W) Hd1 ltac:(lia))
    as (pa & Ea & A1 & A2 & A3 & A4 & A5).
  rewrite E1 in Ea. injection Ea as Ea. subst pa.
  destruct (insert_pass_ok dz (insm kv n u m) p u (n + m) 0 d (sp_ph s1) Hin1 ltac:(rewrite occurrences_insm; lia) ltac:(lia) (wf_phys dz s1 W) Hd1 ltac:(lia))
    as (pb & Eb & B1 & B2 & B3 & B4 & B5).
  rewrite insm_0, Nat.add_0_r in B5.
  assert (E : pb = sp_ph s2).
  { assert (HN : ph_npts pb = ph_npts (sp_ph s2)) by congruence.
    assert (HW : forall idx, in_box (ph_npts pb) idx -> pweight dz pb idx = pweight dz (sp_ph s2) idx).
    { intros idx Hb. rewrite (proj1 (B5 idx Hb)). rewrite HN in Hb. rewrite (proj1 (A5 idx Hb)). reflexivity. }
    apply (phys_ext dz); auto; try congruence.
    intros idx c Hb Hc. assert (Hb2 : in_box (ph_npts (sp_ph s2)) idx) by congruence.
    pose proof (Hpos2 idx Hb2) as Hp2. specialize (HW idx Hb).
    pose proof (proj2 (B5 idx Hb) c ltac:(congruence) ltac:(lra)) as Q1. pose proof (proj2 (A5 idx Hb2) c ltac:(congruence) ltac:(lra)) as Q2.
    rewrite <- Q2 in Q1. unfold hval in Q1. rewrite HW in Q1. eapply Rmult_eq_reg_l; [exact Q1|lra]. }
  split.
  - change 1 with (Z.of_nat 1). apply (insert_knot_passes s1 d (insm kv n u m) p u (n + m)); auto.
    + cbn [zseq foldM]. change (Z.of_nat 0 + 1) with 1 in Eb. rewrite Eb, E. reflexivity.
    + cbn [zseq foldM]. rewrite E2. reflexivity.
  - split; auto. split; [|split; auto].
    apply (regular_back dz s); auto.
Qed.

(* C23: r + 1 copies are r copies and then one *)
Lemma insert_repeats : forall s d kv p u r, well_formed s -> regular s -> direction s d kv p ->
  insertable kv p u (1 + r) -> 0 <= r -> zlen kv + r < 2 ^ 31 ->
  exists s1, insert_knot s u d r = Ok s1 /\ insert_knot s u d (1 + r) = insert_knot s1 u d 1.
Proof.
  intros s d kv p u r Hwf Hreg Hdir Hins Hr Hz.
  destruct (insertable_inner dz s d kv p u (1 + r) Hwf Hdir Hins) as (n & Hin). destruct Hdir as [Ek Ed]. destruct Hins as (_ & _ & Ho).
  destruct (insert_one_more s d kv p u n (Z.to_nat r) Hwf Hreg Ek Ed Hin ltac:(lia) ltac:(lia)) as (s1 & s2 & I1 & I2 & I3 & _).
  replace (Z.of_nat (S (Z.to_nat r))) with (1 + r) in I2 by lia. rewrite Z2Nat.id in I1 by lia.
  exists s1. split; auto. congruence.
Qed.

(* C25 *)
Lemma insert_remove_many : forall s d kv p u tol r, well_formed s -> regular s -> direction s d kv p ->
  insertable kv p u r -> 0 <= r -> Z.of_nat (occurrences kv u) + r <= p -> (0 <= tol)%R -> zlen kv + r < 2 ^ 31 ->
  exists s', insert_knot s u d r = Ok s' /\ remove_knot s' u d tol r = Ok (r, s).
Proof.
  intros s d kv p u tol r Hwf Hreg Hdir Hins Hr Ho Ht Hz.
  destruct (insertable_inner dz s d kv p u r Hwf Hdir Hins) as (n & Hin). pose proof Hdir as [Ek Ed].
  rewrite <- (Z2Nat.id r) by lia. rewrite <- (Z2Nat.id r) in Ho, Hz by lia. generalize dependent (Z.to_nat r). clear Hins Hr r.
  induction n0 as [|m IH]; intros Ho Hz.
  - exists s. split; [|reflexivity]. apply (insert_knot_passes s d kv p u n 0 s); auto.
  - destruct IH as (s1 & I1 & R1); [lia | lia |].
    destruct (insert_one_more s d kv p u n m Hwf Hreg Ek Ed Hin ltac:(lia) ltac:(lia)) as (s1' & s2 & J1 & J2 & J3 & W & Rg & Ek1 & Ed1).
    assert (s1' = s1) by congruence. subst s1'.
    exists s2. split; auto.
    assert (Hn1 : (1 <= n < length kv)%nat) by (destruct Hin as (_ & _ & (H & _) & _); exact H).
    assert (HlenM : zlen (insm kv n u m) = zlen kv + Z.of_nat m) by (unfold zlen; rewrite insm_length by lia; lia).
    pose proof (inner_insm kv p u n m Hin) as (Hg1 & Hs1 & Ha1 & Hu1).
    destruct (insert_remove dz s1 d (insm kv n u m) p u tol W Rg (conj Ek1 Ed1)) as (s2' & L1 & L2); auto.
    { split; [exact Hu1|]. split; [exact Hs1|]. rewrite occurrences_insm. lia. }
    { rewrite occurrences_insm. lia. }
    { lia. }
    assert (s2' = s2) by congruence. subst s2'.
    replace (Z.of_nat (S m)) with (1 + Z.of_nat m) by lia.
    rewrite (proj1 (removal_repeats s2 u d tol (Z.of_nat m) ltac:(lia)) s1 L2). rewrite R1. reflexivity.
Qed.
End Thms.
