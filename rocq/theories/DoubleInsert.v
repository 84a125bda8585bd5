(* Knot insertion in doubles: every pass is Boehm's combination up to rounding. *)
From Coq Require Import ZArith List Bool Lia Reals Floats Lra Psatz Permutation.
From Verif Require Import Base BaseFacts RSum MultiIndex MultiIndexSpec MultiIndexFacts TensorSum
  KnotVec KnotVecSpec KnotVecFacts Boehm Basis BasisSpec BSplineTheory BasisFacts VecUtils
  Spaces SpacesSpec SpacesFacts SplineEval SplineEdit SplineSpec EvalFacts RationalDeriv EvalDeriv EvalThms SplineNew
  PhysFacts AdjustFacts InsertKnots InsertFacts EditSpec NearMap AdjustAny
  DoubleSpec DoubleFacts DoubleError DoubleKnots DoubleBasis DoubleSum DoubleEval DoubleThms DoubleMix.
Import ListNotations.
Open Scope Z_scope.

(* ---- knot vectors ---- *)
Definition fins1 (kv : list float) (n : nat) (u : float) : list float := firstn n kv ++ u :: skipn n kv.
Definition finsm (kv : list float) (n : nat) (u : float) (m : nat) : list float := firstn n kv ++ repeat u m ++ skipn n kv.
Lemma map_fins1 kv n u : map dval (fins1 kv n u) = ins1 (map dval kv) n (dval u).
Proof. unfold fins1, ins1. rewrite map_app. cbn [map]. now rewrite firstn_map, skipn_map. Qed.
Lemma map_finsm kv n u m : map dval (finsm kv n u m) = insm (map dval kv) n (dval u) m.
Proof. unfold finsm, insm. rewrite !map_app, firstn_map, skipn_map. do 2 f_equal. induction m; cbn [repeat map]; congruence. Qed.
Lemma finsm_0 kv n u : finsm kv n u 0 = kv.
Proof. apply firstn_skipn. Qed.
Lemma finsm_S kv n u m : (n <= length kv)%nat -> finsm kv n u (S m) = fins1 (finsm kv n u m) (n + m) u.
Proof.
  intros H. unfold finsm, fins1.
  assert (L2 : length (firstn n kv ++ repeat u m) = (n + m)%nat) by (rewrite app_length, repeat_length, firstn_length; lia).
  rewrite (app_assoc (firstn n kv) (repeat u m) (skipn n kv)). rewrite firstn_app, skipn_app, L2, Nat.sub_diag. cbn [firstn skipn].
  rewrite (firstn_all2 (firstn n kv ++ repeat u m)), (skipn_all2 (firstn n kv ++ repeat u m)) by lia.
  rewrite app_nil_r. cbn [app].
  replace (S m) with (m + 1)%nat by lia. rewrite repeat_app. cbn [repeat]. rewrite <- !app_assoc. reflexivity.
Qed.
Lemma finsm_length kv n u m : (n <= length kv)%nat -> length (finsm kv n u m) = (length kv + m)%nat.
Proof. intros H. unfold finsm. rewrite !app_length, firstn_length, skipn_length, repeat_length. lia. Qed.
Lemma finsm_perm kv n u m : Permutation (finsm kv n u m) (repeat u m ++ kv).
Proof.
  unfold finsm. rewrite <- (firstn_skipn n kv) at 3. rewrite !app_assoc. apply Permutation_app_tail. apply Permutation_app_comm.
Qed.
Lemma finsm_moderate kv n u m : Forall moderate kv -> moderate u -> Forall moderate (finsm kv n u m).
Proof.
  intros H Hu. apply (Permutation_Forall (Permutation_sym (finsm_perm kv n u m))). apply Forall_app. split; auto.
  apply Forall_forall. intros x Hx. apply repeat_spec in Hx. now subst.
Qed.

Section Pass.
Variables (kv : list float) (p : Z) (u : float) (n : nat).
Hypothesis Mk : Forall moderate kv.
Hypothesis Mu : moderate u.
Hypothesis Hin : inner (map dval kv) p (dval u) n.

Lemma f_n : (1 <= n < length kv)%nat.
Proof. destruct Hin as (_ & _ & (H & _) & _). now rewrite map_length in H. Qed.
Lemma f_nonempty : kv <> [].
Proof. pose proof f_n. intros ->. cbn [length] in H. lia. Qed.
Lemma f_span : knot_span (F := Fops) kv u = Ok (Z.of_nat n - 1).
Proof.
  pose proof Hin as ((_ & _ & Hn & Hs & Hne) & _ & _ & Hu).
  rewrite (span_exact noz kv u) by (auto; lra). now apply (inner_span noz _ p).
Qed.
Lemma f_is_last : is_last_knot (F := Fops) kv u = Ok false.
Proof.
  unfold is_last_knot. pose proof f_n. rewrite last_knot_dk by (unfold zlen; lia). cbn [bind]. f_equal.
  apply near_far; auto; [apply dlast_moderate; auto using f_nonempty|].
  rewrite dlast_val. pose proof (not_near_final _ _ _ _ Hin) as N. unfold near in N. lra.
Qed.
Lemma f_insert : kv_insert (F := Fops) kv u = Ok (fins1 kv n u).
Proof.
  unfold kv_insert. rewrite f_span. cbn [bind]. replace (Z.of_nat n - 1 + 1) with (Z.of_nat n) by lia.
  unfold insert_at. change (num Fops) with float. pose proof f_n.
  replace ((0 <=? Z.of_nat n) && (Z.of_nat n <=? zlen kv)) with true.
  - rewrite Nat2Z.id. reflexivity.
  - symmetry; apply andb_true_intro; unfold zlen; split; apply Z.leb_le; lia.
Qed.
Lemma f_multiplicity : multiplicity (F := Fops) kv u = Z.of_nat (occurrences (map dval kv) (dval u)).
Proof.
  rewrite <- (multiplicity_occ noz). clear Hin. revert Mk. generalize kv. intros l Hl. induction Hl as [|x t Hx Ht IH]; cbn [multiplicity map]; [reflexivity|].
  cbn [neqb Fops Rops]. rewrite eqb_exact by (auto using moderate_finite). rewrite IH. reflexivity.
Qed.

Lemma f_scaling i last : zlen kv < 2 ^ 64 -> 0 <= p -> p - i + 1 >= 0 -> last + (p - i + 1) < zlen kv ->
  forall fuel j, 0 <= j -> last - j + 1 <= Z.of_nat fuel ->
  insert_scaling (F := Fops) fuel kv u p i j last =
  Ok (map (fun x => ((u - dkn kv x) / (dkn kv (x + p - i + 1) - dkn kv x))%float) (zseq j (Z.to_nat (last - j + 1)))).
Proof.
  intros Hz Hp Hi Hl. induction fuel as [|f IH]; intros j Hj Hf; cbn [insert_scaling]; destruct (Z.leb_spec j last) as [H|H]; try lia.
  - replace (Z.to_nat (last - j + 1)) with 0%nat by lia. reflexivity.
  - rewrite get_knot_dk by lia. cbn [bind].
    assert (E1 : u64 (j + p - i + 1) = j + p - i + 1) by (unfold u64; apply Z.mod_small; lia).
    assert (E2 : u64 (j + 1) = j + 1) by (unfold u64; apply Z.mod_small; lia).
    rewrite E1, E2. rewrite get_knot_dk by lia. cbn [bind].
    rewrite IH by lia. cbn [bind]. replace (Z.to_nat (last - j + 1)) with (S (Z.to_nat (last - (j + 1) + 1))) by lia.
    reflexivity.
  - replace (Z.to_nat (last - j + 1)) with 0%nat by lia. reflexivity.
Qed.

(* coefficients of the exact combination *)
Definition bal (m : nat) (d : nat) (idx : list Z) : R :=
  alpha (tk (insm (map dval kv) n (dval u) m)) (Z.of_nat (n + m) - 1) (dval u) (Z.to_nat p) (nth d idx 0%Z).

Definition bounded (ph : phys Fops) (M : R) : Prop :=
  Forall (fun x : float => finite x /\ (Rabs (dval x) <= M)%R) (ph_cps ph).

Lemma bounded_at ph M q c N : g_sized ph N -> bounded ph M -> 0 <= q < N -> 0 <= c < ph_dim ph ->
  finite (g_cpat ph q c : float) /\ (Rabs (dval (g_cpat ph q c)) <= M)%R.
Proof.
  intros (H1 & H2 & _) Hb Hq Hc. unfold bounded in Hb. rewrite Forall_forall in Hb. apply Hb. apply nth_In.
  unfold zlen in H2. change (num Fops) with float in *. nia.
Qed.

Lemma f_pass m d (ph : phys Fops) M : Z.of_nat (m + occurrences (map dval kv) (dval u)) <= p -> zlen kv < 2 ^ 31 ->
  g_phys_ok ph -> ph_wts ph = None -> bounded ph M -> (M <= 2 ^ 500)%R ->
  (d < length (ph_npts ph))%nat -> nth d (ph_npts ph) 0 = zlen kv + Z.of_nat m - p - 1 ->
  exists ph', insert_pass (F := Fops) kv p u d (Z.of_nat m + 1) (Z.of_nat n - 1, ph) = Ok (Z.of_nat n - 1, ph') /\
    ph_dim ph' = ph_dim ph /\ ph_npts ph' = upd (ph_npts ph) d (nth d (ph_npts ph) 0 + 1) /\ g_phys_ok ph' /\
    ph_wts ph' = None /\ bounded ph' (M + mix_error M) /\
    forall idx c, in_box (ph_npts ph') idx -> 0 <= c < ph_dim ph ->
      (Rabs (dval (g_pcoord ph' idx c) - (bal m d idx * dval (g_pcoord ph idx c) + (1 - bal m d idx) * dval (g_pcoord ph (below d idx) c))) <= mix_error M)%R.
Proof.
  intros Hm Hz Hph Hw Hb HM Hd Hnd.
  pose proof (inner_ends _ p _ n Hin) as [E1 E2]. rewrite zlen_map in E2. pose proof (inner_mult _ p _ n Hin) as Hmu.
  pose proof Hin as ((Hp & _ & Hnn & _) & _ & Hat & Hu). pose proof Hat as (_ & Hlo & Hhi). pose proof f_n as Hn1. rewrite map_length in Hhi.
  destruct (occurrences_below _ _ n Hnn Hat) as (_ & Hlt & Heq). pose proof f_nonempty as Hne.
  set (rk := map dval kv) in *. assert (Lrk : length rk = length kv) by (unfold rk; now rewrite map_length).
  set (o := occurrences rk (dval u)) in *.
  unfold insert_pass. rewrite f_is_last. cbn [bind fst snd].
  rewrite f_multiplicity. fold rk o.
  assert (U1 : u64 (Z.of_nat n - 1 - Z.of_nat o) = Z.of_nat n - 1 - Z.of_nat o) by (unfold u64; apply Z.mod_small; unfold zlen in *; lia).
  assert (U2 : u64 (Z.of_nat n - 1 - p + (Z.of_nat m + 1)) = Z.of_nat n - p + Z.of_nat m) by (unfold u64; rewrite Z.mod_small; unfold zlen in *; lia).
  rewrite U1, U2.
  set (last := Z.of_nat n - 1 - Z.of_nat o). set (first := Z.of_nat n - p + Z.of_nat m).
  rewrite f_scaling; try (unfold first, last, zlen in *; change (num Fops) with float in *; lia). cbn [bind].
  set (sc := map _ (zseq first (Z.to_nat (last - first + 1)))).
  assert (I1 : i32 first = first) by (unfold i32; rewrite Z.mod_small; unfold first, zlen in *; lia).
  assert (I2 : i32 last = last) by (unfold i32; rewrite Z.mod_small; unfold last, zlen in *; lia).
  rewrite I1, I2.
  assert (Hscl : zlen sc = last - first + 1).
  { unfold sc, zlen. rewrite map_length, zseq_length. unfold first, last. lia. }
  destruct (g_adjust_ok (F := Fops) ph sc first last d (nth d (ph_npts ph) 0)) as (ph' & E & D1 & D2 & D3 & D4 & D5); auto.
  { unfold first. lia. } { unfold last. rewrite Hnd. unfold zlen in *. lia. } { change (num Fops) with float. lia. }
  change (num Fops) with float in *. rewrite E. cbn [bind]. exists ph'. split; [reflexivity|]. split; [auto|]. split; [auto|]. split; [auto|].
  assert (Ew : g_is_weighted ph = false) by (unfold g_is_weighted; now rewrite Hw).
  split; [rewrite Ew in D4; unfold g_is_weighted in D4; destruct (ph_wts ph'); [discriminate | reflexivity]|].
  assert (M0 : (0 <= mix_error M)%R).
  { destruct Hph as (Hpl & Hs). pose proof (total_pos _ Hpl). pose proof Hs as (Hs1 & _).
    destruct (bounded_at ph M 0 0 _ Hs Hb) as [_ B]; try lia. assert (0 <= M)%R by (eapply Rle_trans; [apply Rabs_pos | exact B]).
    unfold mix_error. pose proof roundoff_pos. pose proof underflow_pos. assert (0 <= roundoff * M)%R by (apply Rmult_le_pos; lra). lra. }
  assert (Main : forall idx c, in_box (ph_npts ph') idx -> 0 <= c < ph_dim ph -> let v := g_pcoord ph' idx c : float in
      finite v /\ (Rabs (dval v) <= M + mix_error M)%R /\
      (Rabs (dval v - (bal m d idx * dval (g_pcoord ph idx c) + (1 - bal m d idx) * dval (g_pcoord ph (below d idx) c))) <= mix_error M)%R).
  { intros idx c Hbox Hc. cbv zeta. rewrite D2 in Hbox. destruct (D5 idx Hbox) as [D6 _]. rewrite (D6 c Hc). clear D6.
    pose proof (in_box_nth _ _ d Hbox ltac:(now rewrite upd_length)) as Hj. rewrite nth_upd_same in Hj by auto.
    pose proof Hph as (Hpl & Hs).
    assert (Vself : nth d idx 0 <= last -> finite (g_pcoord ph idx c : float) /\ (Rabs (dval (g_pcoord ph idx c)) <= M)%R).
    { intros Hl. apply (bounded_at ph M _ c _ Hs Hb); auto. apply get1d_range; auto. apply (in_box_self _ _ d _ Hbox). unfold last in Hl. unfold zlen in *. lia. }
    assert (Vlow : 1 <= nth d idx 0 -> finite (g_pcoord ph (below d idx) c : float) /\ (Rabs (dval (g_pcoord ph (below d idx) c)) <= M)%R).
    { intros Hl. apply (bounded_at ph M _ c _ Hs Hb); auto. apply get1d_range; auto. apply (below_box _ d (nth d (ph_npts ph) 0)); auto. }
    unfold g_newC, bal. fold rk. set (j := nth d idx 0) in *.
    pose proof (tk_insm rk n (dval u) m) as T. rewrite Lrk in T.
    unfold alpha. rewrite Z2Nat.id by lia.
    match goal with |- context [if Z_le_dec ?x ?y then ?b else ?e] => set (a := if Z_le_dec x y then b else e) end.
    destruct (Z.gtb_spec j last) as [C|C].
    - assert (A : a = 0%R).
      { unfold a. destruct (Z_le_dec (j + p) (Z.of_nat (n + m) - 1)) as [Q|Q]; [unfold last in *; lia|].
        destruct (Z_le_dec j (Z.of_nat (n + m) - 1)) as [Q'|Q']; auto. rewrite (T j) by auto.
        assert (Ej : (if Z_lt_dec j (Z.of_nat n) then tk rk j else if Z_lt_dec j (Z.of_nat n + Z.of_nat m) then dval u else tk rk (j - Z.of_nat m)) = dval u).
        { destruct (Z_lt_dec j (Z.of_nat n)).
          - rewrite tk_knot' by (unfold zlen; lia). apply Heq. unfold last in *. lia.
          - destruct (Z_lt_dec j (Z.of_nat n + Z.of_nat m)); [reflexivity | lia]. }
        rewrite Ej. unfold Rdiv. rewrite Rminus_diag_eq by reflexivity. apply Rmult_0_l. }
      destruct (Vlow ltac:(unfold last in *; lia)) as [V1 V2]. split; [exact V1|]. split; [lra|]. rewrite A.
      match goal with |- (Rabs ?x <= _)%R => replace x with 0%R by ring end. rewrite Rabs_R0. lra.
    - destruct (Vself ltac:(lia)) as [V1 V2]. destruct (Z.geb_spec j first) as [C2|C2].
      + destruct (Vlow ltac:(unfold first in *; lia)) as [W1 W2]. rewrite Ew.
        assert (A : a = ((dval u - tk rk j) / (tk rk (j + p - Z.of_nat m) - tk rk j))%R).
        { unfold a. destruct (Z_le_dec (j + p) (Z.of_nat (n + m) - 1)) as [Q|Q]; [unfold first in *; lia|].
          destruct (Z_le_dec j (Z.of_nat (n + m) - 1)) as [Q'|Q']; [|unfold last in *; lia].
          rewrite !T by auto. destruct (Z_lt_dec j (Z.of_nat n)); [|unfold last in *; lia].
          destruct (Z_lt_dec (j + p) (Z.of_nat n)); [unfold first in *; lia|].
          destruct (Z_lt_dec (j + p) (Z.of_nat n + Z.of_nat m)); [unfold first in *; lia|]. reflexivity. }
        assert (A1 : (tk rk j < dval u)%R). { rewrite tk_knot' by (unfold zlen; lia). apply Hlt. unfold last in *; lia. }
        assert (A2 : (dval u < tk rk (j + p - Z.of_nat m))%R).
        { apply Rlt_le_trans with (tk rk (Z.of_nat n)).
          - rewrite tk_knot' by (unfold zlen; lia). apply Hhi. lia.
          - apply tk_monotone; auto. unfold first in *. lia. }
        unfold sc. rewrite (nth_map_in _ _ _ 0) by (rewrite zseq_length; lia). rewrite zseq_nth by lia.
        replace (first + Z.of_nat (Z.to_nat (j - first))) with j by lia.
        replace (j + p - (Z.of_nat m + 1) + 1) with (j + p - Z.of_nat m) by lia.
        destruct (quotient_error u (dkn kv j) (dkn kv (j + p - Z.of_nat m)) Mu (dk_moderate kv _ Hne Mk) (dk_moderate kv _ Hne Mk)) as (Q1 & Q2 & Q3).
        { now rewrite dk_val. } { now rewrite dk_val. }
        rewrite !dk_val in Q3. fold rk in Q3. rewrite <- A in Q3.
        assert (Ar : (0 <= a <= 1)%R).
        { rewrite A. split.
          - apply Rmult_le_pos; [lra|]. left. apply Rinv_0_lt_compat. lra.
          - apply Rmult_le_reg_r with (tk rk (j + p - Z.of_nat m) - tk rk j)%R; [lra|]. unfold Rdiv. rewrite Rmult_assoc, Rinv_l by lra. lra. }
        destruct (mix_close _ a _ _ M Q1 Q2 Ar Q3 V1 W1 V2 W2 (Rle_trans _ _ _ HM (pow2_le 500 1000 ltac:(lia)))) as [R1 R2].
        unfold g_mix. cbn [nadd nmul nsub n1 Fops]. change PrimFloat.one with 1%float. split; [exact R1|]. split; [|exact R2].
        apply Rabs_between in R2. apply Rabs_between in V2. apply Rabs_between in W2.
        assert (a * - M <= a * dval (g_pcoord ph idx c) <= a * M)%R by (split; apply Rmult_le_compat_l; lra).
        assert ((1 - a) * - M <= (1 - a) * dval (g_pcoord ph (below d idx) c) <= (1 - a) * M)%R by (split; apply Rmult_le_compat_l; lra).
        apply Rabs_le. lra.
      + assert (A : a = 1%R) by (unfold a; destruct (Z_le_dec (j + p) (Z.of_nat (n + m) - 1)) as [Q|Q]; auto; unfold first in *; lia).
        split; [exact V1|]. split; [lra|]. rewrite A.
        match goal with |- (Rabs ?x <= _)%R => replace x with 0%R by ring end. rewrite Rabs_R0. lra. }
  split.
  - unfold bounded. apply Forall_forall. intros x Hx. apply (In_nth _ _ 0%float) in Hx as (k & Hk & <-).
    destruct D3 as (Hpl & Hs1 & Hs2 & _). unfold zlen in Hs2. change (num Fops) with float in *.
    set (dim := ph_dim ph') in *. set (z := Z.of_nat k).
    destruct (get1d_surj (ph_npts ph') (z / dim) Hpl) as (idx & Hbx & Eq).
    { split; [apply Z.div_pos; unfold z; lia | apply Z.div_lt_upper_bound; unfold z; nia]. }
    pose proof (Z.mod_pos_bound z dim ltac:(lia)) as Hr.
    destruct (Main idx (z mod dim) Hbx ltac:(rewrite <- D1; exact Hr)) as (R1 & R2 & _).
    assert (En : nth k (ph_cps ph') 0%float = g_pcoord ph' idx (z mod dim)).
    { unfold g_pcoord, g_cpat. fold dim. rewrite Eq, <- Z.div_mod by lia. unfold z. now rewrite Nat2Z.id. }
    change PrimFloat.float with float in *. match goal with |- finite ?x /\ _ => change x with (nth k (ph_cps ph') 0%float) end.
    rewrite En. split; [exact R1 | exact R2].
  - intros idx c Hbx Hc. apply Main; auto.
Qed.
End Pass.
