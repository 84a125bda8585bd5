(* Closing lemmas for knot removal (C25 to C27) and the examples. *)
From Coq Require Import ZArith List Bool Lia Reals Lra Permutation.
From Verif Require Import Base BaseFacts RSum MultiIndex MultiIndexSpec MultiIndexFacts TensorSum
  KnotVec KnotVecSpec KnotVecFacts KnotVecThms BSplineTheory Boehm BasisSpec Basis BasisFacts BasisThms VecUtils Spaces SpacesSpec
  SpacesFacts SpacesThms SplineEval SplineEdit SplineSpec EvalFacts EvalDeriv SplineNew EvalThms PhysFacts AdjustFacts InsertKnots InsertFacts
  EditSpec InsertThms RemoveFacts RemoveCompact RemoveCheck RemovePoints RemoveKnots RemoveMain.
Import ListNotations.
Open Scope Z_scope.

Section Thms.
Variable dz : R -> R.
Local Notation F := (Rops dz).
Implicit Types s : spline F.

(* nets with equal entries are equal *)
Lemma phys_ext (a b : phys F) : phys_ok dz a -> phys_ok dz b -> ph_dim a = ph_dim b -> ph_npts a = ph_npts b ->
  is_weighted dz a = is_weighted dz b ->
  (forall idx c, in_box (ph_npts a) idx -> 0 <= c < ph_dim a -> pcoord dz a idx c = pcoord dz b idx c) ->
  (is_weighted dz a = true -> forall idx, in_box (ph_npts a) idx -> pweight dz a idx = pweight dz b idx) -> a = b.
Proof.
  intros (P1 & D1 & C1 & W1) (P2 & D2 & C2 & W2) Ed En Ew Hc Hw.
  assert (EC : ph_cps a = ph_cps b).
  { apply (nth_ext _ _ 0%R 0%R).
    - apply Nat2Z.inj. rewrite Ed, En in C1. etransitivity; [exact C1 | symmetry; exact C2].
    - intros k Hk. assert (Hk' : 0 <= Z.of_nat k < ph_dim a * total (ph_npts a)) by (rewrite <- C1; unfold zlen; rnorm; lia).
      set (q := Z.of_nat k / ph_dim a). set (c := Z.of_nat k mod ph_dim a).
      assert (Hcc : 0 <= c < ph_dim a) by (apply Z.mod_pos_bound; lia).
      assert (Hqc : Z.of_nat k = ph_dim a * q + c) by (apply Z.div_mod; lia).
      assert (Hq : 0 <= q < total (ph_npts a)) by (split; [apply Z.div_pos; lia | apply Z.div_lt_upper_bound; lia]).
      destruct (get1d_surj (ph_npts a) q P1 Hq) as (idx & Hb & Eq).
      specialize (Hc idx c Hb Hcc). unfold pcoord, cpat in Hc. rewrite <- En, <- Ed, Eq, <- Hqc, Nat2Z.id in Hc. exact Hc. }
  assert (EW : ph_wts a = ph_wts b).
  { unfold is_weighted in *. destruct (ph_wts a) as [wa|] eqn:Ea, (ph_wts b) as [wb|] eqn:Eb; try discriminate; auto.
    f_equal. specialize (W1 wa eq_refl). specialize (W2 wb eq_refl). apply (nth_ext _ _ 0%R 0%R).
    - apply Nat2Z.inj. rewrite En in W1. etransitivity; [exact W1 | symmetry; exact W2].
    - intros k Hk. destruct (get1d_surj (ph_npts a) (Z.of_nat k) P1 ltac:(rewrite <- W1; unfold zlen; rnorm; lia)) as (idx & Hb & Eq).
      specialize (Hw eq_refl idx Hb). unfold pweight, wat in Hw. rewrite Ea, Eb, <- En, Eq, Nat2Z.id in Hw. exact Hw. }
  destruct a, b; cbn in *. congruence.
Qed.

(* a single insertion and the net it produces *)
Lemma insert_once s d kv p u n : well_formed s -> nth_error (knots_of s) d = Some kv -> nth_error (degs_of s) d = Some p ->
  inner kv p u n -> Z.of_nat (occurrences kv u) <= p -> zlen kv < 2 ^ 31 -> regular s ->
  exists s', insert_knot s u d 1 = Ok s' /\ well_formed s' /\ knots_of s' = upd (knots_of s) d (ins1 kv n u) /\
    degs_of s' = degs_of s /\ ph_dim (sp_ph s') = ph_dim (sp_ph s) /\ is_weighted dz (sp_ph s') = is_weighted dz (sp_ph s) /\
    npts_of s' = upd (npts_of s) d (nth d (npts_of s) 0 + 1) /\ all_positive dz (sp_ph s') /\
    forall idx, in_box (npts_of s') idx ->
      let a := alpha (tk kv) (Z.of_nat n - 1) u (Z.to_nat p) (nth d idx 0%Z) in
      pweight dz (sp_ph s') idx = (a * pweight dz (sp_ph s) idx + (1 - a) * pweight dz (sp_ph s) (below d idx))%R /\
      forall c, 0 <= c < ph_dim (sp_ph s) ->
        hval dz (sp_ph s') idx c = (a * hval dz (sp_ph s) idx c + (1 - a) * hval dz (sp_ph s) (below d idx) c)%R.
Proof.
  intros Hwf Ek Ed Hin Ho Hz Hreg. pose proof (regular_positive dz s Hwf Hreg) as Hpos.
  destruct (insert_ok dz s d kv p u n 1 Hwf Ek Ed Hin ltac:(lia) Hz) as (s' & E & W & K & G & D & Wt & P).
  destruct (P Hpos) as [Hpos' _].
  assert (Hn1 : (1 <= n < length kv)%nat) by (destruct Hin as (_ & _ & (H & _) & _); exact H).
  assert (EI : insm kv n u 1 = ins1 kv n u) by (rewrite insm_S, insm_0, Nat.add_0_r by lia; reflexivity).
  rewrite EI in K.
  destruct (wf_direction dz s d kv p Hwf Ek Ed) as (Hg & Hd & Hnd).
  destruct (insert_pass_ok dz kv p u n 0 d (sp_ph s) Hin ltac:(lia) Hz (wf_phys dz s Hwf) Hd ltac:(unfold npts_of in Hnd; lia))
    as (ph' & Ep & D1 & D2 & D3 & D4 & D5).
  assert (Es : sp_ph s' = ph').
  { unfold insert_knot, sp_knots, sp_deg, dget in E. fold (knots_of s) (degs_of s) in E. rnorm. rewrite Ek in E. cbn [bind] in E.
    rewrite (inner_span dz kv p u n Hin) in E. cbn [bind] in E. rewrite Ed in E. cbn [bind] in E.
    rewrite !for_up_foldM in E. change (Z.to_nat (Z.of_nat 1 + 1 - 1)) with 1%nat in E. cbn [zseq foldM] in E.
    change (Z.of_nat 0 + 1) with 1 in Ep. rewrite Ep in E. cbn [bind] in E.
    match type of E with bind ?m _ = _ => destruct m as [ps| |]; cbn [bind] in E; try discriminate end. injection E as <-. reflexivity. }
  exists s'. change (Z.of_nat 1) with 1 in E. split; [auto|]. split; [auto|]. split; [auto|]. split; [auto|]. split; [auto|]. split; [auto|].
  split; [unfold npts_of; rewrite Es, D2; reflexivity|]. split; [auto|].
  intros idx Hb. unfold npts_of in Hb. rewrite Es in *. rewrite insm_0, Nat.add_0_r in D5. destruct (D5 idx Hb) as [Q1 Q2].
  cbv zeta. split; [exact Q1|]. intros c Hc. apply Q2; auto. apply Rgt_not_eq. apply Hpos'. exact Hb.
Qed.

Lemma wat_one (ph : phys F) : is_weighted dz ph = false -> forall idx, pweight dz ph idx = 1%R.
Proof. intros H idx. unfold pweight, wat, is_weighted in *. destruct (ph_wts ph); [discriminate | reflexivity]. Qed.

(* C25 *)
Lemma insert_remove : forall s d kv p u tol, well_formed s -> regular s -> direction s d kv p ->
  insertable kv p u 1 -> Z.of_nat (occurrences kv u) < p -> (0 <= tol)%R -> zlen kv + 1 < 2 ^ 31 ->
  exists s', insert_knot s u d 1 = Ok s' /\ remove_knot s' u d tol 1 = Ok (1, s).
Proof.
  intros s d kv p u tol Hwf Hreg Hdir Hins Ho Ht Hz.
  destruct (insertable_inner dz s d kv p u 1 Hwf Hdir Hins) as (n & Hin). destruct Hdir as [Ek Ed].
  destruct (insert_once s d kv p u n Hwf Ek Ed Hin ltac:(lia) ltac:(lia) Hreg)
    as (s' & E & W & K & G & D & Wt & Np & Hpos' & Hnet).
  exists s'. split; [exact E|].
  pose proof (regular_positive dz s Hwf Hreg) as Hpos.
  assert (Ek' : nth_error (knots_of s') d = Some (ins1 kv n u)) by (rewrite K; now apply (nth_error_upd_same _ _ _ kv)).
  assert (Ed' : nth_error (degs_of s') d = Some p) by now rewrite G.
  destruct (remove_once_eq dz s' d kv p u n tol W Ek' Ed' Hin Ho Hz) as (G1 & G2 & G3 & G4 & G5 & A1 & A2 & A3 & EQ).
  set (first := Z.of_nat n - p) in *. set (last := Z.of_nat n - 1 - Z.of_nat (occurrences kv u)) in *.
  set (sc := rscale kv p u first last) in *.
  destruct (wf_direction dz s' d _ p W Ek' Ed') as (_ & Hd' & _). destruct (wf_direction dz s d _ p Hwf Ek Ed) as (_ & Hd & Hnd).
  pose proof (half_range first last G2) as (F2 & F3 & F4).
  set (ph := sp_ph s) in *. set (ph' := sp_ph s') in *. unfold npts_of in *. fold ph ph' in Np, Hd, Hd', Hnd, G3, G4, Hnet.
  assert (Hdm : ph_dim ph' = ph_dim ph) by exact D.
  assert (Hiw : is_weighted dz ph' = is_weighted dz ph) by exact Wt.
  (* the original net as temporary values *)
  set (tw := fun idx => pweight dz ph (if nth d idx 0 <? fi first last then idx else below d idx)).
  set (tp := fun idx c => pcoord dz ph (if nth d idx 0 <? fi first last then idx else below d idx) c).
  set (al := coef (first - 1) sc).
  assert (Hlen : forall idx, in_box (ph_npts ph') idx -> (d < length idx)%nat).
  { intros idx Hb. rewrite (in_box_length _ _ Hb). exact Hd'. }
  assert (Hold : forall idx, inslot (ph_npts ph') d (first - 1) last idx ->
            in_box (ph_npts ph) (if nth d idx 0 <? fi first last then idx else below d idx)).
  { intros idx [Hb Hx]. rewrite Np in Hb. destruct (Z.ltb_spec (nth d idx 0) (fi first last)).
    - apply (in_box_self _ _ d _ Hb). unfold last in *; lia.
    - apply (below_box _ d (nth d (ph_npts ph) 0)); auto. lia. }
  assert (Htw : forall idx, inslot (ph_npts ph') d (first - 1) last idx -> (0 < tw idx)%R).
  { intros idx Hx. apply Hpos. now apply Hold. }
  assert (HN : forall idx, in_box (ph_npts ph') idx -> let a := alpha (tk kv) (Z.of_nat n - 1) u (Z.to_nat p) (nth d idx 0%Z) in
      pweight dz ph' idx = (a * pweight dz ph idx + (1 - a) * pweight dz ph (below d idx))%R /\
      forall c, 0 <= c < ph_dim ph -> (pweight dz ph' idx * pcoord dz ph' idx c)%R =
        (a * (pweight dz ph idx * pcoord dz ph idx c) + (1 - a) * (pweight dz ph (below d idx) * pcoord dz ph (below d idx) c))%R).
  { intros idx Hb. exact (Hnet idx Hb). }
  (* values of tw and tp at the two sides *)
  assert (Tlo : forall idx, nth d idx 0 < fi first last -> tw idx = pweight dz ph idx /\ forall c, tp idx c = pcoord dz ph idx c).
  { intros idx Hx. unfold tw, tp. destruct (Z.ltb_spec (nth d idx 0) (fi first last)); [auto | lia]. }
  assert (Thi : forall idx, fi first last <= nth d idx 0 -> tw idx = pweight dz ph (below d idx) /\ forall c, tp idx c = pcoord dz ph (below d idx) c).
  { intros idx Hx. unfold tw, tp. destruct (Z.ltb_spec (nth d idx 0) (fi first last)); [lia | auto]. }
  assert (Hq : forall idx c, hq dz ph' idx c = (pweight dz ph' idx * pcoord dz ph' idx c)%R).
  { intros idx c. unfold hq. destruct (is_weighted dz ph') eqn:Ew; [ring|]. rewrite wat_one by auto. ring. }
  assert (Hew : forall idx, ew dz ph' tw idx = tw idx).
  { intros idx. unfold ew. destruct (is_weighted dz ph') eqn:Ew; auto. unfold tw. rewrite wat_one; [reflexivity|]. congruence. }
  assert (Hfin : forall idx y, inslot (ph_npts ph') d (first - 1) last idx -> fin dz ph' tw idx y = (y / tw idx)%R).
  { intros idx y Hx. unfold fin. specialize (Htw idx Hx). destruct (is_weighted dz ph') eqn:Ew; [rewrite ndiv_R; [reflexivity | lra]|].
    unfold tw. rewrite wat_one by congruence. field. }
  destruct (remove_points_ok dz ph' d first last sc tw tp (wf_phys dz s' W) Hd' G1 G2 G3 ltac:(rnorm; lia)) with (tol := tol)
    as (r & Er & Hr & Hn).
  - intros _ idx [Hb Hx] Hxx. destruct (HN idx Hb) as [N1 _]. rewrite N1. destruct Hxx as [Hxx|Hxx].
    + rewrite (proj1 (Tlo idx ltac:(lia))). rewrite A2 by lia. ring.
    + rewrite (proj1 (Thi idx ltac:(lia))). rewrite A3 by lia. ring.
  - intros _ idx [Hb Hx] Hxx. destruct (HN idx Hb) as [N1 _]. destruct (A1 (nth d idx 0) ltac:(lia)) as [B1 B2].
    rewrite B1. rewrite ndiv_R by lra. rewrite N1. rewrite (proj1 (Tlo idx ltac:(lia))).
    rewrite (proj1 (Tlo (below d idx) ltac:(unfold below; rewrite nth_upd_same by auto; lia))). 
    match goal with |- @eq _ ?x ?y => change (@eq R x y) end. field. lra.
  - intros _ idx [Hb Hx] Hxx. destruct (HN idx Hb) as [N1 _]. destruct (A1 (nth d idx 0) ltac:(lia)) as [B1 B2].
    rewrite B1. rewrite ndiv_R by lra. rewrite N1. rewrite (proj1 (Thi idx ltac:(lia))).
    rewrite (proj1 (Thi (above d idx) ltac:(unfold above; rewrite nth_upd_same by auto; lia))). rewrite below_above by auto.
    match goal with |- @eq _ ?x ?y => change (@eq R x y) end. field. lra.
  - intros idx c Hx Hc Hxx. pose proof (Htw idx Hx) as HT. rewrite Hfin, Hq by auto. destruct Hx as [Hb Hx].
    rewrite Hdm in Hc. destruct (HN idx Hb) as [_ N2]. rewrite N2 by auto. destruct Hxx as [Hxx|Hxx].
    + destruct (Tlo idx ltac:(lia)) as [T1 T2]. rewrite T1, T2 in *. rewrite A2 by lia. field. lra.
    + destruct (Thi idx ltac:(lia)) as [T1 T2]. rewrite T1, T2 in *. rewrite A3 by lia. field. lra.
  - intros idx c Hx Hc Hxx. pose proof (Htw idx Hx) as HT. rewrite Hfin, Hq, Hew by auto. destruct Hx as [Hb Hx].
    rewrite Hdm in Hc. destruct (HN idx Hb) as [_ N2]. rewrite N2 by auto. destruct (A1 (nth d idx 0) ltac:(lia)) as [B1 B2].
    rewrite B1. rewrite ndiv_R by lra. destruct (Tlo idx ltac:(lia)) as [T1 T2].
    destruct (Tlo (below d idx) ltac:(unfold below; rewrite nth_upd_same by auto; lia)) as [T3 T4]. rewrite T1, T2, T3, T4 in *.
    field. lra.
  - intros idx c Hx Hc Hxx. pose proof (Htw idx Hx) as HT. rewrite Hfin, Hq, Hew by auto. destruct Hx as [Hb Hx].
    rewrite Hdm in Hc. destruct (HN idx Hb) as [_ N2]. rewrite N2 by auto. destruct (A1 (nth d idx 0) ltac:(lia)) as [B1 B2].
    rewrite B1. rewrite ndiv_R by lra. destruct (Thi idx ltac:(lia)) as [T1 T2].
    destruct (Thi (above d idx) ltac:(unfold above; rewrite nth_upd_same by auto; lia)) as [T3 T4].
    rewrite below_above in T3, T4 by auto. rewrite T1, T2, T3, T4 in *.
    field. lra.
  - unfold remove_knot. change (Z.to_nat 1) with 1%nat. cbn [remove_knot_loop]. rewrite EQ, Er. cbn [bind].
    destruct r as [ph4|].
    2:{ exfalso. apply Hn; auto. intros cur Hcur.
        assert (L : (d < length cur)%nat) by (rewrite (in_box_length _ _ Hcur), upd_length; auto).
        unfold passes. cbv zeta.
        assert (Q : forall a, nth d (upd cur d a) 0 = a) by (intros; apply nth_upd_same; auto).
        assert (Qb : forall a, below d (upd cur d a) = upd cur d (a - 1)) by (intros; unfold below; rewrite Q, upd_upd; auto).
        assert (Hwt : forall idx, ewt dz ph' tw idx = tw idx) by exact Hew.
        assert (Hwq : forall idx, ewq dz ph' idx = pweight dz ph' idx).
        { intros idx. unfold ewq. destruct (is_weighted dz ph') eqn:Ew; auto. now rewrite wat_one. }
        rewrite !Hwt, Hwq. 
        destruct (Tlo (upd cur d (fi first last - 1)) ltac:(rewrite Q; lia)) as [T1 T2].
        destruct F4 as [F4|F4].
        - right. destruct (Thi (upd cur d (fi first last + 1)) ltac:(rewrite Q; lia)) as [T3 T4].
          rewrite Qb in T3, T4. replace (fi first last + 1 - 1) with (fi first last) in T3, T4 by lia.
          assert (Hmid : in_box (ph_npts ph') (upd cur d (fi first last))) by (eapply in_box_upd; eauto; lia).
          destruct (HN _ Hmid) as [N1 N2]. rewrite Q, Qb in N1, N2.
          destruct (A1 (fi first last) ltac:(lia)) as [B1 B2]. rewrite B1. rewrite T1, T3. split; [exact N1|].
          intros c Hc. rewrite T2, T4. rewrite Hdm in Hc. specialize (N2 c Hc). lra.
        - left. destruct (Thi (upd cur d (fj first last + 1)) ltac:(rewrite Q; lia)) as [T3 T4].
          rewrite Qb in T3, T4. replace (fj first last + 1 - 1) with (fi first last - 1) in T3, T4 by lia.
          rewrite T1, T3. split; [reflexivity|]. intros c Hc. rewrite T2, T4. reflexivity. }
    cbn [bind fst snd]. do 2 f_equal.
    destruct (Hr ph4 eq_refl) as (H1 & H2 & H3 & H4 & H5 & H6).
    assert (ENp : ph_npts ph4 = ph_npts ph).
    { rewrite H3. unfold short. rewrite Np, upd_upd, nth_upd_same by auto.
      replace (nth d (ph_npts ph) 0 + 1 - 1) with (nth d (ph_npts ph) 0) by lia. apply upd_nth_self. }
    assert (Eph : ph4 = ph).
    { assert (Hsh : short (ph_npts ph') d = ph_npts ph) by congruence.
      assert (HS : forall idx, in_box (ph_npts ph) idx ->
        keepW dz ph' d first last tw (source d (fi first last) idx) = pweight dz ph idx /\
        forall c, 0 <= c < ph_dim ph -> keepP dz ph' d first last tp (source d (fi first last) idx) c = pcoord dz ph idx c).
      { intros idx Hb. assert (Lx : (d < length idx)%nat) by (rewrite (in_box_length _ _ Hb); auto).
        pose proof (in_box_nth _ _ d Hb Hd) as Hx.
        unfold keepW, keepP, source. destruct (Z.ltb_spec (nth d idx 0) (fi first last)) as [Hlt|Hge].
        - destruct (Tlo idx Hlt) as [T1 T2].
          destruct (Z.leb_spec (nth d idx 0) (first - 1)) as [Q1|Q1]; cbn [orb].
          + assert (Hb' : in_box (ph_npts ph') idx).
            { rewrite Np. rewrite <- (upd_nth_self idx d 0). apply in_box_upd_both; auto. lia. }
            destruct (HN idx Hb') as [N1 N2]. rewrite A2 in N1, N2 by lia.
            assert (N1' : pweight dz ph' idx = pweight dz ph idx) by lra. split; [exact N1'|].
            intros c Hc. specialize (N2 c Hc). rewrite N1' in N2. specialize (Hpos idx Hb).
            apply Rmult_eq_reg_l with (pweight dz ph idx); lra.
          + destruct (Z.leb_spec (last + 1) (nth d idx 0)); [lia|]. split; auto.
        - assert (Qa : nth d (above d idx) 0 = nth d idx 0 + 1) by (unfold above; now apply nth_upd_same). rewrite Qa.
          destruct (Z.leb_spec (nth d idx 0 + 1) (first - 1)); [lia|]. cbn [orb].
          assert (Hb' : in_box (ph_npts ph') (above d idx)).
          { rewrite Np. unfold above. apply in_box_upd_both; auto. lia. }
          destruct (Z.leb_spec (last + 1) (nth d idx 0 + 1)) as [Q1|Q1].
          + destruct (HN _ Hb') as [N1 N2]. rewrite Qa, below_above in N1, N2 by auto. rewrite A3 in N1, N2 by lia.
            assert (N1' : pweight dz ph' (above d idx) = pweight dz ph idx) by lra. split; [exact N1'|].
            intros c Hc. specialize (N2 c Hc). rewrite N1' in N2. specialize (Hpos idx Hb).
            apply Rmult_eq_reg_l with (pweight dz ph idx); lra.
          + destruct (Thi (above d idx) ltac:(lia)) as [T1 T2]. rewrite below_above in T1, T2 by auto. auto. }
      apply phys_ext; auto; try congruence.
      - apply (wf_phys dz s Hwf).
      - intros idx c Hb Hc. rewrite ENp in Hb. rewrite H5 by congruence. apply HS; auto. congruence.
      - intros Hw idx Hb. rewrite ENp in Hb. rewrite H6 by congruence. apply HS; auto. }
    rewrite Eph. destruct s as [ps phx] eqn:Es. cbn in ph. rewrite <- Es in *. unfold ph.
    rewrite K, G, upd_upd, (upd_id _ _ _ Ek). rewrite <- (wf_mkps dz s Hwf). rewrite Es. reflexivity.
Qed.

(* C26 *)
Lemma remove_counts : forall s d kv p u tol m, well_formed s -> direction s d kv p ->
  (first_knot kv < u < final_knot kv)%R -> 0 <= m <= Z.of_nat (occurrences kv u) -> Z.of_nat (occurrences kv u) <= p ->
  In u kv -> zlen kv < 2 ^ 31 ->
  exists c s' kv', remove_knot s u d tol m = Ok (c, s') /\ 0 <= c <= m /\ (c = 0 -> s' = s) /\
    well_formed s' /\ knots_of s' = upd (knots_of s) d kv' /\ Permutation kv (repeat u (Z.to_nat c) ++ kv') /\
    degs_of s' = degs_of s /\ npts_of s' = upd (npts_of s) d (nth d (npts_of s) 0 - c) /\
    ph_dim (sp_ph s') = ph_dim (sp_ph s) /\ (is_bspline s' <-> is_bspline s).
Proof.
  intros s d kv p u tol m Hwf [Ek Ed] Hu Hm Ho Hin Hz.
  destruct (wf_direction dz s d kv p Hwf Ek Ed) as (Hg & Hd & Hnd).
  assert (Hsep : separated (u :: kv)).
  { pose proof Hg as (_ & _ & _ & Hs & _). apply (separated_incl _ kv); auto. intros x [<-|Hx]; auto. }
  destruct (at_pos_exists dz kv p u Hg Hsep Hu) as (n & Hn & _).
  destruct (remove_loop_ok dz u d p tol (Z.to_nat m) s kv n Hwf Ek Ed (conj Hg (conj Hsep (conj Hn Hu))) Ho ltac:(lia) Hz)
    as (c & s' & kv' & E & Hc & W & K & Ekv & Hin' & G & Dm & Np & H0 & Wt).
  exists (Z.of_nat c), s', kv'. split; [exact E|]. split; [lia|]. split; [intros; apply H0; lia|]. split; [auto|]. split; [auto|].
  split; [rewrite Ekv, Nat2Z.id; apply insm_perm|]. split; [auto|]. split; [auto|]. split; [auto|].
  rewrite <- !weighted_bspline. now rewrite Wt.
Qed.

(* C27: a polyline 0, h, 0 loses its corner *)
Lemma poly_good : good_direction [0; 0; 1; 2; 2]%R 1.
Proof.
  split; [lia|]. split; [|split; [|split; [|cbn; lra]]].
  - split; [cbn; lia|]. intros [|[|j]] Hj; cbn; [auto | auto | lia].
  - nondec.
  - sepsolve.
Qed.
Lemma poly_occ : occurrences [0; 0; 2; 2]%R 1 = 0%nat.
Proof.
  unfold occurrences. cbn [count_occ].
  repeat match goal with |- context [Req_EM_T ?a ?b] => destruct (Req_EM_T a b); try lra end. reflexivity.
Qed.
Lemma poly_inner : inner [0; 0; 2; 2]%R 1 1 2.
Proof.
  split; [|split; [|split]].
  - split; [lia|]. split; [|split; [|split; [|cbn; lra]]].
    + split; [cbn; lia|]. intros [|[|j]] Hj; cbn; [auto | auto | lia].
    + nondec.
    + sepsolve.
  - sepsolve.
  - split; [cbn; lia|]. split.
    + intros [|[|i]] Hi; [cbn; lra | cbn; lra | lia].
    + intros [|[|[|[|i]]]] Hi; try lia; cbn; try lra. cbn in Hi. lia.
  - cbn; lra.
Qed.

Lemma removal_unbounded : forall h tol : R, (0 <= tol)%R ->
  exists s s', spline_new (F := F) [[0; 0; 1; 2; 2]%R] [1] [[0%R]; [h]; [0%R]] None = Ok s /\ well_formed s /\
    remove_knot s 1%R 0 tol 1 = Ok (1, s') /\
    evaluate s [1%R] [0] = Ok [h] /\ evaluate s' [1%R] [0] = Ok [0%R].
Proof.
  intros h tol Ht.
  destruct (spline_new_ok dz [[0; 0; 1; 2; 2]%R] [1] [[0%R]; [h]; [0%R]] None 1) as [E W].
  { constructor; [apply poly_good | constructor]. } { lia. } { repeat constructor. } { reflexivity. } { reflexivity. } { discriminate. }
  match type of W with well_formed ?x => set (s := x) in * end.
  assert (Ek : nth_error (knots_of s) 0 = Some (ins1 [0; 0; 2; 2]%R 2 1%R)) by reflexivity.
  assert (Ed : nth_error (degs_of s) 0 = Some 1) by reflexivity.
  destruct (remove_once_ok dz s 0 [0; 0; 2; 2]%R 1 1 2 tol W Ek Ed poly_inner ltac:(rewrite poly_occ; lia) ltac:(reflexivity))
    as (r & Er & Hr).
  destruct (remove_once_eq dz s 0 [0; 0; 2; 2]%R 1 1 2 tol W Ek Ed poly_inner ltac:(rewrite poly_occ; lia) ltac:(reflexivity))
    as (G1 & G2 & G3 & G4 & G5 & A1 & A2 & A3 & EQ).
  rewrite poly_occ in *. change (Z.of_nat 2 - 1 - Z.of_nat 0) with 1 in *. change (Z.of_nat 2 - 1) with 1 in *.
  set (sc := rscale [0; 0; 2; 2]%R 1 1 1 1) in *.
  destruct (remove_points_ok dz (sp_ph s) 0 1 1 sc (pweight dz (sp_ph s)) (pcoord dz (sp_ph s)) (wf_phys dz s W) ltac:(cbn; lia) G1 G2 G3 ltac:(rnorm; lia))
    with (tol := tol) as (r' & Er' & Hr' & Hn).
  { discriminate. } { discriminate. } { discriminate. }
  { reflexivity. }
  { intros idx c _ _ Hx. change (fi 1 1) with 1 in Hx. lia. }
  { intros idx c _ _ Hx. change (fj 1 1) with 1 in Hx. lia. }
  rewrite EQ, Er' in Er. cbn [bind] in Er. injection Er as Er.
  assert (Hpt : forall x c, 0 <= x < 3 -> 0 <= c < 1 -> pcoord dz (sp_ph s) [x] c = (if x =? 1 then h else 0%R)).
  { intros x c Hx Hc. assert (c = 0) by lia. subst c. assert (Hx' : x = 0 \/ x = 1 \/ x = 2) by lia.
    destruct Hx' as [->|[->| ->]]; reflexivity. }
  destruct r' as [ph4|].
  2:{ exfalso. apply Hn; auto; [discriminate|]. intros cur Hcur. cbn in Hcur. inversion Hcur as [|? x ? l Hx Hl]; subst. inversion Hl; subst.
      left. split; [reflexivity|]. intros c Hc. cbn [upd]. change (fi 1 1) with 1. change (fj 1 1) with 1.
      rewrite !Hpt by (cbn in Hc; lia). reflexivity. }
  subst r. destruct (Hr _ eq_refl) as (W' & K' & G' & Dm' & Np' & Wt').
  match type of W' with well_formed ?x => set (s' := x) in * end.
  destruct (Hr' ph4 eq_refl) as (H1 & H2 & H3 & H4 & H5 & _).
  exists s, s'. split; [exact E|]. split; [exact W|]. split.
  { unfold remove_knot. change (Z.to_nat 1) with 1%nat. cbn [remove_knot_loop]. rewrite EQ, Er'. reflexivity. }
  assert (Hbs : is_bspline s) by reflexivity. assert (Hbs' : is_bspline s') by (apply weighted_bspline; rewrite Wt'; reflexivity).
  assert (Dom : in_domain s [1%R]) by (constructor; [cbn; lra | constructor]).
  assert (Dom' : in_domain s' [1%R]) by (constructor; [cbn; lra | constructor]).
  split.
  - rewrite eval_quotient; auto.
    + rewrite weight_function_bspline by auto. cbn [map]. do 2 f_equal. unfold weighted_sum.
      change (npts_of s) with [3]. change (knots_of s) with [[0; 0; 1; 2; 2]%R]. change (degs_of s) with [1].
      change (all_indices [3]) with [[0]; [1]; [2]]. cbn [lsum basis_product].
      rewrite !weight_p, !coordinate_p. rewrite !Hpt by lia. rewrite !wat_one by reflexivity.
      change (1 =? 1) with true. change (0 =? 1) with false. change (2 =? 1) with false. cbv iota.
      assert (EN : cox_de_boor [0; 0; 1; 2; 2]%R 1 1 1 = 1%R).
      { cbn. unfold quotient. cbn. repeat match goal with |- context [in_piece_dec ?a ?b ?c] =>
          let Q := fresh in destruct (in_piece_dec a b c) as [Q|Q]; unfold in_piece in Q; cbn in Q; try lra end.
        repeat match goal with |- context [Req_EM_T ?a ?b] => destruct (Req_EM_T a b); try lra end.
        all: try (field; lra). all: try field. }
      change (Z.to_nat 1) with 1%nat. rewrite EN. match goal with |- @eq _ ?x ?y => change (@eq R x y) end. lra.
    + constructor; [cbn; lia | constructor].
    + rewrite weight_function_bspline by auto. lra.
  - rewrite eval_quotient; auto.
    + rewrite weight_function_bspline by auto. cbn [map]. do 2 f_equal. unfold weighted_sum.
      assert (Hn2 : npts_of s' = [2]) by (rewrite Np'; reflexivity). rewrite Hn2.
      assert (Z0 : forall x, 0 <= x < 2 -> coordinate s' [x] 0 = 0%R).
      { intros x Hx. rewrite coordinate_p. change (sp_ph s') with ph4. rewrite H5.
        - unfold keepP, source. change (fi 1 1) with 1. cbn [nth]. assert (Hx' : x = 0 \/ x = 1) by lia.
          destruct Hx' as [->| ->]; cbn [Z.ltb Z.compare Pos.compare Pos.compare_cont above nth upd Z.add Pos.add Pos.succ Z.leb orb Z.sub Z.opp Z.pos_sub]; apply Hpt; lia.
        - constructor; [cbn; lia | constructor].
        - cbn; lia. }
      change (all_indices [2]) with [[0]; [1]]. cbn [lsum].
      rewrite !Z0 by lia. match goal with |- @eq _ ?x ?y => change (@eq R x y) end. lra.
    + constructor; [rewrite Dm'; cbn; lia | constructor].
    + rewrite weight_function_bspline by auto. lra.
Qed.
End Thms.

(* examples: a knot that can be inserted and removed, and one that is present *)
Lemma ex_remove : exists b n : spline (Rops (fun x => x)),
  well_formed b /\ is_bspline b /\ well_formed n /\ positive_weights n /\
  direction b 0 [0; 0; 0; 1; 2; 2; 2]%R 2 /\ direction n 0 [0; 0; 0; 1; 2; 2; 2]%R 2 /\
  insertable [0; 0; 0; 1; 2; 2; 2]%R 2 1 1 /\ In 1%R [0; 0; 0; 1; 2; 2; 2]%R /\
  occurrences [0; 0; 0; 1; 2; 2; 2]%R 1 = 1%nat /\ (first_knot [0; 0; 0; 1; 2; 2; 2] < 1 < final_knot [0; 0; 0; 1; 2; 2; 2])%R /\
  insertable [0; 0; 0; 1; 2; 2; 2]%R 2 (1/2) 2 /\ occurrences [0; 0; 0; 1; 2; 2; 2]%R (1/2) = 0%nat.
Proof.
  destruct ex_insert as (b & n & H1 & H2 & H3 & H4 & H5 & H6 & H7 & _). exists b, n.
  do 6 (split; [assumption|]). destruct H7 as (I1 & I2 & I3). split; [split; [auto | split; [auto | lia]]|].
  assert (O1 : occurrences [0; 0; 0; 1; 2; 2; 2]%R 1 = 1%nat).
  { unfold occurrences. cbn [count_occ].
    repeat match goal with |- context [Req_EM_T ?a ?b] => destruct (Req_EM_T a b); try lra end. reflexivity. }
  assert (O2 : occurrences [0; 0; 0; 1; 2; 2; 2]%R (1/2) = 0%nat).
  { unfold occurrences. cbn [count_occ].
    repeat match goal with |- context [Req_EM_T ?a ?b] => destruct (Req_EM_T a b); try lra end. reflexivity. }
  split; [cbn; auto|]. split; [exact O1|]. split; [exact I1|]. split; [|exact O2].
  split; [cbn; lra|]. split; [|rewrite O2; lia]. pose proof tolerance_lt. sepsolve.
Qed.

From Coq Require Import Floats.
(* removing a parameter that is not a knot takes another knot away and changes the curve *)
Lemma remove_absent_run :
  match spline_new (F := Fops) [[0; 0; 1; 2; 3; 3]%float] [1] [[0]; [1]; [2]; [3]]%float None with
  | Ok s => match evaluate s [2%float] [0], remove_knot s 1.5%float 0 0.5%float 1 with
            | Ok [v], Ok (c, s') => PrimFloat.eqb v 2 && (c =? 1) &&
                match ps_knots (sp_ps s') with
                | [kv] => list_equal PrimFloat.eqb kv [0; 0; 2; 3; 3]%float
                | _ => false
                end &&
                match evaluate s' [2%float] [0] with Ok [v'] => PrimFloat.ltb v' 1.5 | _ => false end
            | _, _ => false
            end
  | _ => false
  end = true.
Proof. vm_compute. reflexivity. Qed.

Lemma remove_absent : exists (s s' : spline Fops) (kv : list float) (v v' : float),
  spline_new (F := Fops) [[0; 0; 1; 2; 3; 3]%float] [1] [[0]; [1]; [2]; [3]]%float None = Ok s /\
  remove_knot s 1.5%float 0 0.5%float 1 = Ok (1, s') /\
  ps_knots (sp_ps s') = [kv] /\ list_equal PrimFloat.eqb kv [0; 0; 2; 3; 3]%float = true /\
  evaluate s [2%float] [0] = Ok [v] /\ PrimFloat.eqb v 2 = true /\
  evaluate s' [2%float] [0] = Ok [v'] /\ PrimFloat.ltb v' 1.5 = true.
Proof.
  pose proof remove_absent_run as H.
  destruct (spline_new (F := Fops) [[0; 0; 1; 2; 3; 3]%float] [1] [[0]; [1]; [2]; [3]]%float None) as [s| |] eqn:E1; try discriminate H.
  match type of H with context [evaluate s ?b ?c] => destruct (evaluate s b c) as [[|v [|]]| |] eqn:E2 end; try discriminate H.
  match type of H with context [remove_knot ?a ?b ?c ?e ?g] => destruct (remove_knot a b c e g) as [[c' s']| |] eqn:E3 end; try discriminate H.
  apply andb_prop in H as [H H4]. apply andb_prop in H as [H H3]. apply andb_prop in H as [H1 H2].
  apply Z.eqb_eq in H2. subst c'.
  match type of H4 with context [evaluate s' ?b ?c] => destruct (evaluate s' b c) as [[|v' [|]]| |] eqn:E4 end; try discriminate H4.
  destruct (ps_knots (sp_ps s')) as [|kv [|]] eqn:E5; try discriminate H3.
  exists s, s', kv, v, v'. exact (conj eq_refl (conj E3 (conj E5 (conj H3 (conj E2 (conj H1 (conj E4 H4))))))).
Qed.

(* a knot of multiplicity p+1 makes it read outside the scaling vector *)
Lemma remove_full_run :
  match spline_new (F := Fops) [[0; 0; 1; 1; 2; 2]%float] [1] [[0]; [1]; [1]; [2]]%float None with
  | Ok s => match remove_knot s 1%float 0 0.5%float 1 with UB => true | _ => false end
  | _ => false
  end = true.
Proof. vm_compute. reflexivity. Qed.
Lemma remove_full : exists s : spline Fops,
  spline_new (F := Fops) [[0; 0; 1; 1; 2; 2]%float] [1] [[0]; [1]; [1]; [2]]%float None = Ok s /\
  remove_knot s 1%float 0 0.5%float 1 = UB.
Proof.
  pose proof remove_full_run as H.
  destruct (spline_new (F := Fops) [[0; 0; 1; 1; 2; 2]%float] [1] [[0]; [1]; [1]; [2]]%float None) as [s| |] eqn:E1; try discriminate H.
  exists s. split; [reflexivity|]. destruct (remove_knot s 1%float 0 0.5%float 1) as [[]| |]; try discriminate H. reflexivity.
Qed.
