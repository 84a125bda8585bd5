(* Knot insertion into NURBS in doubles: every pass is Boehm's combination of the weights and the weighted points up to rounding. *)
From Coq Require Import ZArith List Bool Lia Reals Floats Lra Psatz Permutation.
From Verif Require Import Base BaseFacts RSum MultiIndex MultiIndexSpec MultiIndexFacts TensorSum
  KnotVec KnotVecSpec KnotVecFacts Boehm Basis BasisSpec BSplineTheory BasisFacts VecUtils
  Spaces SpacesSpec SpacesFacts SplineEval SplineEdit SplineSpec EvalFacts RationalDeriv EvalDeriv EvalThms SplineNew
  PhysFacts AdjustFacts InsertKnots InsertFacts EditSpec NearMap AdjustAny
  DoubleSpec DoubleFacts DoubleError DoubleKnots DoubleBasis DoubleSum DoubleEval DoubleThms DoubleMix DoubleMixRational DoubleInsert.
Import ListNotations.
Open Scope Z_scope.

(* coordinates up to M, weights from m to W *)
Definition wbounded (ph : phys Fops) (M m W : R) : Prop :=
  bounded ph M /\ exists w : list float, ph_wts ph = Some w /\ Forall (fun x : float => finite x /\ (m <= dval x <= W)%R) w.

Lemma wbounded_at ph M m W q N : g_sized ph N -> wbounded ph M m W -> 0 <= q < N ->
  finite (g_wat ph q : float) /\ (m <= dval (g_wat ph q) <= W)%R.
Proof.
  intros (_ & _ & H3) (_ & w & Ew & Hw) Hq. unfold g_wat. rewrite Ew. rewrite Forall_forall in Hw. apply Hw. apply nth_In.
  specialize (H3 w Ew). unfold zlen in H3. change (num Fops) with float in *. lia.
Qed.
Lemma wbounded_weighted ph M m W : wbounded ph M m W -> g_is_weighted ph = true.
Proof. intros (_ & w & Ew & _). unfold g_is_weighted. now rewrite Ew. Qed.

Section Pass.
Variables (kv : list float) (p : Z) (u : float) (n : nat).
Hypothesis Mk : Forall moderate kv.
Hypothesis Mu : moderate u.
Hypothesis Hin : inner (map dval kv) p (dval u) n.
Variables X Y z : R.
Hypothesis HX : (X <= 2 ^ 500)%R.
Hypothesis HY : (Y <= 2 ^ 102)%R.
Hypothesis Hz0 : (/ 2 ^ 102 <= z)%R.

Lemma r_pass m d (ph : phys Fops) M m1 W1 : Z.of_nat (m + occurrences (map dval kv) (dval u)) <= p -> zlen kv < 2 ^ 31 ->
  g_phys_ok ph -> wbounded ph M m1 W1 -> (M <= X)%R -> (W1 <= Y)%R -> (z <= m1 - mix_error Y)%R ->
  (d < length (ph_npts ph))%nat -> nth d (ph_npts ph) 0 = zlen kv + Z.of_nat m - p - 1 ->
  exists ph', insert_pass (F := Fops) kv p u d (Z.of_nat m + 1) (Z.of_nat n - 1, ph) = Ok (Z.of_nat n - 1, ph') /\
    ph_dim ph' = ph_dim ph /\ ph_npts ph' = upd (ph_npts ph) d (nth d (ph_npts ph) 0 + 1) /\ g_phys_ok ph' /\
    wbounded ph' (M + grow X Y z) (m1 - mix_error Y) (W1 + mix_error Y) /\
    forall idx, in_box (ph_npts ph') idx ->
      (Rabs (dval (g_pweight ph' idx) - (bal kv p u n m d idx * dval (g_pweight ph idx) + (1 - bal kv p u n m d idx) * dval (g_pweight ph (below d idx)))) <= mix_error Y)%R /\
      forall c, 0 <= c < ph_dim ph ->
        (Rabs (dval (g_pweight ph' idx) * dval (g_pcoord ph' idx c) -
               (bal kv p u n m d idx * (dval (g_pweight ph idx) * dval (g_pcoord ph idx c)) +
                (1 - bal kv p u n m d idx) * (dval (g_pweight ph (below d idx)) * dval (g_pcoord ph (below d idx) c)))) <= hom_error X Y)%R.
Proof.
  intros Hm Hz Hph Hwb HMX HWY Hzm Hd Hnd. pose proof Hwb as [Hb _].
  pose proof (inner_ends _ p _ n Hin) as [E1 E2]. rewrite zlen_map in E2. pose proof (inner_mult _ p _ n Hin) as Hmu.
  pose proof Hin as ((Hp & _ & Hnn & _) & _ & Hat & Hu). pose proof Hat as (_ & Hlo & Hhi). pose proof (f_n kv p u n Hin) as Hn1. rewrite map_length in Hhi.
  destruct (occurrences_below _ _ n Hnn Hat) as (_ & Hlt & Heq). pose proof (f_nonempty kv p u n Mk Hin) as Hne.
  set (rk := map dval kv) in *. assert (Lrk : length rk = length kv) by (unfold rk; now rewrite map_length).
  set (o := occurrences rk (dval u)) in *.
  unfold insert_pass. rewrite (f_is_last kv p u n Mk Mu Hin). cbn [bind fst snd].
  rewrite (f_multiplicity kv u Mk Mu). fold rk o.
  assert (U1 : u64 (Z.of_nat n - 1 - Z.of_nat o) = Z.of_nat n - 1 - Z.of_nat o) by (unfold u64; apply Z.mod_small; unfold zlen in *; lia).
  assert (U2 : u64 (Z.of_nat n - 1 - p + (Z.of_nat m + 1)) = Z.of_nat n - p + Z.of_nat m) by (unfold u64; rewrite Z.mod_small; unfold zlen in *; lia).
  rewrite U1, U2.
  set (last := Z.of_nat n - 1 - Z.of_nat o). set (first := Z.of_nat n - p + Z.of_nat m).
  rewrite f_scaling; try (unfold first, last, zlen in *; change (num Fops) with float in *; lia). cbn [bind].
  set (sc := map _ (zseq first (Z.to_nat (last - first + 1)))).
  assert (I1 : i32 first = first) by (unfold i32; rewrite Z.mod_small; unfold first, zlen in *; lia).
  assert (I2 : i32 last = last) by (unfold i32; rewrite Z.mod_small; unfold last, zlen in *; lia).
  rewrite I1, I2.
  assert (Hscl : zlen sc = last - first + 1).
  { unfold sc, zlen. rewrite map_length, zseq_length. unfold first, last. lia. }
  destruct (g_adjust_ok (F := Fops) ph sc first last d (nth d (ph_npts ph) 0)) as (ph' & E & D1 & D2 & D3 & D4 & D5); auto.
  { unfold first. lia. } { unfold last. rewrite Hnd. unfold zlen in *. lia. } { change (num Fops) with float. lia. }
  change (num Fops) with float in *. rewrite E. cbn [bind]. exists ph'. split; [reflexivity|]. split; [auto|]. split; [auto|]. split; [auto|].
  pose proof (wbounded_weighted _ _ _ _ Hwb) as Ew.
  assert (Pos : (0 <= M /\ m1 <= W1)%R).
  { destruct Hph as (Hpl & Hs). pose proof (total_pos _ Hpl). pose proof Hs as (Hs1 & _).
    destruct (bounded_at ph M 0 0 _ Hs Hb) as [_ B]; try lia. destruct (wbounded_at ph M m1 W1 0 _ Hs Hwb) as [_ B']; try lia.
    split; [eapply Rle_trans; [apply Rabs_pos | exact B] | lra]. }
  destruct Pos as [M0 mW].
  assert (z0 : (0 < z)%R) by (eapply Rlt_le_trans; [|exact Hz0]; apply Rinv_0_lt_compat, pow_lt; lra).
  assert (Y0 : (0 <= Y)%R).
  { destruct (Rle_dec 0 Y) as [H|H]; [exact H|]. exfalso. pose proof roundoff_lt. pose proof roundoff_pos. pose proof underflow_pos. unfold mix_error in Hzm.
    assert (roundoff * - Y <= / 1000 * - Y)%R by (apply Rmult_le_compat_r; lra). lra. }
  pose proof (mix_error_nonneg Y Y0) as E0. pose proof (hom_error_nonneg X Y ltac:(lra) Y0) as H0. pose proof (grow_nonneg X Y z ltac:(lra) Y0 z0) as G0.
  assert (Main : forall idx c, in_box (ph_npts ph') idx -> 0 <= c < ph_dim ph -> let v := g_pcoord ph' idx c : float in let w := g_pweight ph' idx : float in
      finite w /\ (m1 - mix_error Y <= dval w <= W1 + mix_error Y)%R /\
      (Rabs (dval w - (bal kv p u n m d idx * dval (g_pweight ph idx) + (1 - bal kv p u n m d idx) * dval (g_pweight ph (below d idx)))) <= mix_error Y)%R /\
      finite v /\ (Rabs (dval v) <= M + grow X Y z)%R /\
      (Rabs (dval w * dval v - (bal kv p u n m d idx * (dval (g_pweight ph idx) * dval (g_pcoord ph idx c)) +
             (1 - bal kv p u n m d idx) * (dval (g_pweight ph (below d idx)) * dval (g_pcoord ph (below d idx) c)))) <= hom_error X Y)%R).
  { intros idx c Hbox Hc. cbv zeta. rewrite D2 in Hbox. destruct (D5 idx Hbox) as [D6 D7]. rewrite (D6 c Hc), (D7 Ew). clear D6 D7.
    pose proof (in_box_nth _ _ d Hbox ltac:(now rewrite upd_length)) as Hj. rewrite nth_upd_same in Hj by auto.
    pose proof Hph as (Hpl & Hs).
    assert (Vself : nth d idx 0 <= last -> (finite (g_pcoord ph idx c : float) /\ (Rabs (dval (g_pcoord ph idx c)) <= M)%R) /\
                                          (finite (g_pweight ph idx : float) /\ (m1 <= dval (g_pweight ph idx) <= W1)%R)).
    { intros Hl. assert (0 <= get1d (ph_npts ph) idx < total (ph_npts ph)).
      { apply get1d_range; auto. apply (in_box_self _ _ d _ Hbox). unfold last in Hl. unfold zlen in *. lia. }
      split; [now apply (bounded_at ph M _ c _ Hs Hb) | now apply (wbounded_at ph M m1 W1 _ _ Hs Hwb)]. }
    assert (Vlow : 1 <= nth d idx 0 -> (finite (g_pcoord ph (below d idx) c : float) /\ (Rabs (dval (g_pcoord ph (below d idx) c)) <= M)%R) /\
                                          (finite (g_pweight ph (below d idx) : float) /\ (m1 <= dval (g_pweight ph (below d idx)) <= W1)%R)).
    { intros Hl. assert (0 <= get1d (ph_npts ph) (below d idx) < total (ph_npts ph)).
      { apply get1d_range; auto. apply (below_box _ d (nth d (ph_npts ph) 0)); auto. }
      split; [now apply (bounded_at ph M _ c _ Hs Hb) | now apply (wbounded_at ph M m1 W1 _ _ Hs Hwb)]. }
    unfold g_newC, g_newW, bal. fold rk. set (j := nth d idx 0) in *.
    pose proof (tk_insm rk n (dval u) m) as T. rewrite Lrk in T.
    unfold alpha. rewrite Z2Nat.id by lia.
    match goal with |- context [if Z_le_dec ?x ?y then ?b else ?e] => set (a := if Z_le_dec x y then b else e) end.
    destruct (Z.gtb_spec j last) as [C|C].
    - assert (A : a = 0%R).
      { unfold a. destruct (Z_le_dec (j + p) (Z.of_nat (n + m) - 1)) as [Q|Q]; [unfold last in *; lia|].
        destruct (Z_le_dec j (Z.of_nat (n + m) - 1)) as [Q'|Q']; auto. rewrite (T j) by auto.
        assert (Ej : (if Z_lt_dec j (Z.of_nat n) then tk rk j else if Z_lt_dec j (Z.of_nat n + Z.of_nat m) then dval u else tk rk (j - Z.of_nat m)) = dval u).
        { destruct (Z_lt_dec j (Z.of_nat n)).
          - rewrite tk_knot' by (unfold zlen; lia). apply Heq. unfold last in *. lia.
          - destruct (Z_lt_dec j (Z.of_nat n + Z.of_nat m)); [reflexivity | lia]. }
        rewrite Ej. unfold Rdiv. rewrite Rminus_diag_eq by reflexivity. apply Rmult_0_l. }
      destruct (Vlow ltac:(unfold last in *; lia)) as [[V1 V2] [V3 V4]]. rewrite A.
      split; [exact V3|]. split; [lra|]. split; [|split; [exact V1|]; split; [lra|]];
        match goal with |- (Rabs ?x <= _)%R => replace x with 0%R by ring end; rewrite Rabs_R0; lra.
    - destruct (Vself ltac:(lia)) as [[V1 V2] [V3 V4]]. destruct (Z.geb_spec j first) as [C2|C2].
      + destruct (Vlow ltac:(unfold first in *; lia)) as [[U1' U2'] [U3 U4]]. rewrite Ew.
        assert (A : a = ((dval u - tk rk j) / (tk rk (j + p - Z.of_nat m) - tk rk j))%R).
        { unfold a. destruct (Z_le_dec (j + p) (Z.of_nat (n + m) - 1)) as [Q|Q]; [unfold first in *; lia|].
          destruct (Z_le_dec j (Z.of_nat (n + m) - 1)) as [Q'|Q']; [|unfold last in *; lia].
          rewrite !T by auto. destruct (Z_lt_dec j (Z.of_nat n)); [|unfold last in *; lia].
          destruct (Z_lt_dec (j + p) (Z.of_nat n)); [unfold first in *; lia|].
          destruct (Z_lt_dec (j + p) (Z.of_nat n + Z.of_nat m)); [unfold first in *; lia|]. reflexivity. }
        assert (A1 : (tk rk j < dval u)%R). { rewrite tk_knot' by (unfold zlen; lia). apply Hlt. unfold last in *; lia. }
        assert (A2 : (dval u < tk rk (j + p - Z.of_nat m))%R).
        { apply Rlt_le_trans with (tk rk (Z.of_nat n)).
          - rewrite tk_knot' by (unfold zlen; lia). apply Hhi. lia.
          - apply tk_monotone; auto. unfold first in *. lia. }
        unfold sc. rewrite (nth_map_in _ _ _ 0) by (rewrite zseq_length; lia). rewrite zseq_nth by lia.
        replace (first + Z.of_nat (Z.to_nat (j - first))) with j by lia.
        replace (j + p - (Z.of_nat m + 1) + 1) with (j + p - Z.of_nat m) by lia.
        destruct (quotient_error u (dkn kv j) (dkn kv (j + p - Z.of_nat m)) Mu (dk_moderate kv _ Hne Mk) (dk_moderate kv _ Hne Mk)) as (Q1 & Q2 & Q3).
        { now rewrite dk_val. } { now rewrite dk_val. }
        rewrite !dk_val in Q3. fold rk in Q3. rewrite <- A in Q3.
        assert (Ar : (0 <= a <= 1)%R).
        { rewrite A. split.
          - apply Rmult_le_pos; [lra|]. left. apply Rinv_0_lt_compat. lra.
          - apply Rmult_le_reg_r with (tk rk (j + p - Z.of_nat m) - tk rk j)%R; [lra|]. unfold Rdiv. rewrite Rmult_assoc, Rinv_l by lra. lra. }
        pose proof (rational_mix _ a _ _ _ _ M m1 W1 X Y z Q1 Q2 Ar Q3 V1 U1' V2 U2' HMX HX V3 U3 V4 U4 HWY HY Hzm Hz0) as RM.
        unfold g_mix. cbn [nadd nmul nsub ndiv n1 Fops]. change PrimFloat.one with 1%float. exact RM.
      + assert (A : a = 1%R) by (unfold a; destruct (Z_le_dec (j + p) (Z.of_nat (n + m) - 1)) as [Q|Q]; auto; unfold first in *; lia).
        rewrite A.
        split; [exact V3|]. split; [lra|]. split; [|split; [exact V1|]; split; [lra|]];
          match goal with |- (Rabs ?x <= _)%R => replace x with 0%R by ring end; rewrite Rabs_R0; lra. }
  split; [split|].
  - unfold bounded. apply Forall_forall. intros x Hx. apply (In_nth _ _ 0%float) in Hx as (k & Hk & <-).
    destruct D3 as (Hpl & Hs1 & Hs2 & _). unfold zlen in Hs2. change (num Fops) with float in *.
    set (dim := ph_dim ph') in *. set (q := Z.of_nat k).
    destruct (get1d_surj (ph_npts ph') (q / dim) Hpl) as (idx & Hbx & Eq).
    { split; [apply Z.div_pos; unfold q; lia | apply Z.div_lt_upper_bound; unfold q; nia]. }
    pose proof (Z.mod_pos_bound q dim ltac:(lia)) as Hr.
    destruct (Main idx (q mod dim) Hbx ltac:(rewrite <- D1; exact Hr)) as (_ & _ & _ & R1 & R2 & _).
    assert (En : nth k (ph_cps ph') 0%float = g_pcoord ph' idx (q mod dim)).
    { unfold g_pcoord, g_cpat. fold dim. rewrite Eq, <- Z.div_mod by lia. unfold q. now rewrite Nat2Z.id. }
    change PrimFloat.float with float in *. match goal with |- finite ?x /\ _ => change x with (nth k (ph_cps ph') 0%float) end.
    rewrite En. split; [exact R1 | exact R2].
  - rewrite Ew in D4. unfold g_is_weighted in D4. destruct (ph_wts ph') as [w'|] eqn:Ew'; [|discriminate]. exists w'. split; [reflexivity|].
    apply Forall_forall. intros x Hx. apply (In_nth _ _ 0%float) in Hx as (k & Hk & <-).
    destruct D3 as (Hpl & Hs1 & Hs2 & Hs3). specialize (Hs3 w' Ew'). unfold zlen in Hs3. change (num Fops) with float in *.
    destruct (get1d_surj (ph_npts ph') (Z.of_nat k) Hpl) as (idx & Hbx & Eq); [lia|].
    destruct (Main idx 0 Hbx ltac:(destruct Hph as (_ & ? & _); lia)) as (R1 & R2 & _).
    assert (En : nth k w' 0%float = g_pweight ph' idx).
    { unfold g_pweight, g_wat. rewrite Eq, Ew'. now rewrite Nat2Z.id. }
    change PrimFloat.float with float in *. match goal with |- finite ?x /\ _ => change x with (nth k w' 0%float) end.
    rewrite En. split; [exact R1 | exact R2].
  - intros idx Hbx. split; [apply (Main idx 0 Hbx); destruct Hph as (_ & ? & _); lia|]. intros c Hc. apply Main; auto.
Qed.
End Pass.
