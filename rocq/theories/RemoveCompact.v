(* RemoveControlPoints: writing the shorter control net over the longer one, and cutting the tail. *)
From Coq Require Import ZArith List Bool Lia Reals Lra.
From Verif Require Import Base BaseFacts RSum MultiIndex MultiIndexSpec MultiIndexFacts TensorSum
  KnotVec VecUtils Spaces SplineEval SplineEdit SplineSpec EvalFacts PhysFacts AdjustFacts RemoveFacts.
Import ListNotations.
Open Scope Z_scope.

Lemma nth_firstn_lt {A} (l : list A) n k a0 : (k < n)%nat -> nth k (firstn n l) a0 = nth k l a0.
Proof. revert n k; induction l as [|x l IH]; intros [|n] [|k] H; cbn; auto; try lia. apply IH. lia. Qed.
Lemma nth_skipn_add {A} (l : list A) n k a0 : nth k (skipn n l) a0 = nth (n + k) l a0.
Proof. revert n; induction l as [|x l IH]; intros [|n]; cbn; auto. now destruct k. Qed.

Section Loop.
Variable St : Type.
Variables (lens : list Z) (d : nat) (fi dim : Z).
Variable body : mih -> St -> Res St.
Variable good : St -> Prop.
Variable obs : St -> Z -> Z -> R.
Variable V : list Z -> Z -> R.
Variable st0 : St.
Notation n := (nth d lens 0).
Definition short : list Z := upd lens d (n - 1).
Definition target (idx : list Z) : list Z := if nth d idx 0 <? fi then idx else below d idx.
Definition source (idx : list Z) : list Z := if nth d idx 0 <? fi then idx else above d idx.
Hypothesis Hp : pos_lens lens.
Hypothesis Hd : (d < length lens)%nat.
Hypothesis Hfi : 0 <= fi < n.
Hypothesis Hfi1 : 1 <= n - 1.

Lemma short_nth : nth d short 0 = n - 1.
Proof. unfold short. now rewrite nth_upd_same. Qed.
Lemma short_pos : pos_lens short.
Proof. apply pos_lens_upd; auto. Qed.
Lemma in_short idx : in_box lens idx -> nth d idx 0 < n - 1 -> in_box short idx.
Proof.
  intros Hb Hx. pose proof (in_box_nth _ _ d Hb Hd). unfold short. rewrite <- (upd_nth_self idx d 0).
  apply in_box_upd_both; auto. lia.
Qed.
Lemma short_in idx : in_box short idx -> in_box lens idx /\ nth d idx 0 < n - 1.
Proof.
  intros Hb. assert (nth d idx 0 < n - 1).
  { pose proof (in_box_nth _ _ d Hb) as H. rewrite short_nth in H. unfold short in H. rewrite upd_length in H. specialize (H Hd). lia. }
  split; auto. apply (in_box_self lens idx d (n - 1)); auto. lia.
Qed.

Lemma target_box idx : in_box lens idx -> nth d idx 0 <> fi -> in_box short (target idx) /\ source (target idx) = idx.
Proof.
  intros Hb Hx. pose proof (in_box_nth _ _ d Hb Hd). assert (L := in_box_length _ _ Hb).
  unfold target, source. destruct (Z.ltb_spec (nth d idx 0) fi).
  - split; [apply in_short; auto; lia|]. destruct (Z.ltb_spec (nth d idx 0) fi); [auto|lia].
  - assert (E : nth d (below d idx) 0 = nth d idx 0 - 1) by (unfold below; apply nth_upd_same; lia).
    split.
    + apply in_short; [|lia]. unfold below. apply in_box_move; auto. lia.
    + rewrite E. destruct (Z.ltb_spec (nth d idx 0 - 1) fi); [lia|]. apply above_below. lia.
Qed.
Lemma source_box idx : in_box short idx -> in_box lens (source idx) /\ target (source idx) = idx /\ nth d (source idx) 0 <> fi.
Proof.
  intros Hb0. destruct (short_in idx Hb0) as [Hb Hx]. pose proof (in_box_nth _ _ d Hb Hd). assert (L := in_box_length _ _ Hb).
  unfold target, source. destruct (Z.ltb_spec (nth d idx 0) fi).
  - split; auto. split; [|lia]. destruct (Z.ltb_spec (nth d idx 0) fi); [auto|lia].
  - assert (E : nth d (above d idx) 0 = nth d idx 0 + 1) by (unfold above; apply nth_upd_same; lia).
    split; [|split].
    + unfold above. apply in_box_move; auto. lia.
    + rewrite E. destruct (Z.ltb_spec (nth d idx 0 + 1) fi); [lia|]. apply below_above. lia.
    + lia.
Qed.
Lemma target_pos idx : in_box lens idx -> nth d idx 0 <> fi -> 0 <= get1d short (target idx) <= get1d lens idx /\
  get1d short (target idx) < total short.
Proof.
  intros Hb Hx. destruct (target_box idx Hb Hx) as [Ht _]. pose proof (get1d_range _ _ Ht) as Hr. split; [|lia].
  split; [lia|]. transitivity (get1d lens (target idx)).
  - apply get1d_mono; [| eapply in_box_nonneg; eauto | apply short_pos]. apply Forall2_upd_ge. lia.
  - destruct (short_in _ Ht) as [Ht' _]. apply get1d_idx_mono; auto.
    + unfold target. destruct (nth d idx 0 <? fi); [|apply below_le]. clear. induction idx; constructor; auto. lia.
    + apply (in_box_length _ _ Ht').
Qed.
Lemma total_short : total short = total lens - total (remove_at d lens).
Proof. unfold short. rewrite total_upd by auto. rewrite <- (total_remove_at lens d Hd). ring. Qed.

Hypothesis Hstep : forall idx st, in_box lens idx -> good st ->
  (forall q c, get1d lens idx <= q < total lens -> 0 <= c < dim -> obs st q c = obs st0 q c) ->
  exists st', body (mkMih lens idx) st = Ok st' /\ good st' /\
    forall q c, 0 <= q -> 0 <= c < dim ->
      obs st' q c = if negb (nth d idx 0 =? fi) && (q =? get1d short (target idx)) then V idx c else obs st q c.

Lemma compact_loop : good st0 ->
  exists st', mih_loop lens body st0 = Ok st' /\ good st' /\
    forall idx c, in_box short idx -> 0 <= c < dim -> obs st' (get1d short idx) c = V (source idx) c.
Proof.
  intros H0.
  set (Inv := fun (k : nat) (st : St) => good st /\
    (forall q c, Z.of_nat k <= q < total lens -> 0 <= c < dim -> obs st q c = obs st0 q c) /\
    (forall idx c, in_box short idx -> 0 <= c < dim -> get1d lens (source idx) < Z.of_nat k ->
       obs st (get1d short idx) c = V (source idx) c)).
  destruct (mih_loop_inv lens Inv body st0) as (st' & E & I1 & I2 & I3).
  - intros k st Hk (I1 & I2 & I3).
    pose proof (nth_index_box lens k Hp) as Hb. set (idx := nth_index lens k) in *.
    assert (Eq : get1d lens idx = Z.of_nat k) by (apply nth_index_get1d; auto).
    destruct (Hstep idx st Hb I1) as (st' & E & G & Ho); [intros; apply I2; auto; lia|].
    exists st'. split; auto. split; auto. split.
    + intros q c Hq Hc. rewrite Ho by (auto; lia).
      destruct (Z.eqb_spec (nth d idx 0) fi) as [|Hne]; cbn [negb andb]; [apply I2; auto; lia|].
      pose proof (target_pos idx Hb Hne). destruct (Z.eqb_spec q (get1d short (target idx))); [lia|]. apply I2; auto. lia.
    + intros idx' c Hb' Hc Hlt. pose proof (get1d_range _ _ Hb'). rewrite Ho by (auto; lia).
      destruct (source_box idx' Hb') as (S1 & S2 & S3).
      destruct (Z.eqb_spec (nth d idx 0) fi) as [E1|Hne]; cbn [negb andb].
      * apply I3; auto. destruct (Z.eq_dec (get1d lens (source idx')) (Z.of_nat k)) as [C|]; [|lia].
        exfalso. apply S3. rewrite <- E1. f_equal. apply (get1d_inj lens); auto. lia.
      * destruct (target_box idx Hb Hne) as [T1 T2].
        destruct (Z.eqb_spec (get1d short idx') (get1d short (target idx))) as [C|C].
        -- assert (idx' = target idx) by (apply (get1d_inj short); auto). subst idx'. now rewrite T2.
        -- apply I3; auto. destruct (Z.eq_dec (get1d lens (source idx')) (Z.of_nat k)) as [C'|]; [|lia].
           exfalso. apply C. f_equal. rewrite <- S2. f_equal. apply (get1d_inj lens); auto. lia.
  - split; auto. split; auto. intros idx c Hb Hc Hlt. destruct (source_box idx Hb) as (S1 & _). pose proof (get1d_range _ _ S1). lia.
  - exists st'. split; auto. split; auto. intros idx c Hb Hc. apply I3; auto.
    destruct (source_box idx Hb) as (S1 & _). pose proof (get1d_range _ _ S1). lia.
Qed.
End Loop.

Section Compact.
Variable dz : R -> R.
Local Notation F := (Rops dz).
Variables (ph : phys F) (d : nat) (first last fi : Z).
Variable tw : list Z -> R.
Variable tp : list Z -> Z -> R.
Notation lens := (ph_npts ph).
Notation off := (first - 1).
Notation ins := (inslot lens d off last).
Notation sl := (slot lens d off last).
Hypothesis Hok : phys_ok dz ph.
Hypothesis Hd : (d < length lens)%nat.
Hypothesis Hf : 1 <= first.
Hypothesis Hfi : first <= fi <= last.
Hypothesis Hl : last + 2 <= nth d lens 0.

(* what the entry idx of the long net contributes *)
Definition keepP (idx : list Z) (c : Z) : R :=
  if (nth d idx 0 <=? off) || (last + 1 <=? nth d idx 0) then pcoord dz ph idx c else tp idx c.
Definition keepW (idx : list Z) : R :=
  if (nth d idx 0 <=? off) || (last + 1 <=? nth d idx 0) then pweight dz ph idx else tw idx.

Lemma sublist_nth (l : list R) lo n : 0 <= lo -> 0 <= n -> lo + n <= zlen l ->
  exists r, sublist l lo n = Ok r /\ zlen r = n /\ forall c, 0 <= c < n -> nth (Z.to_nat c) r 0%R = nth (Z.to_nat (lo + c)) l 0%R.
Proof.
  intros H1 H2 H3. unfold sublist. destruct (Z.leb_spec 0 lo); [|lia]. destruct (Z.leb_spec 0 n); [|lia].
  destruct (Z.leb_spec (lo + n) (zlen l)); [|lia]. cbn [andb]. eexists. split; [reflexivity|]. split.
  - unfold zlen in *. rewrite firstn_length, skipn_length. lia.
  - intros c Hc. rewrite nth_firstn_lt by lia. rewrite nth_skipn_add. f_equal. lia.
Qed.

Notation lens' := (short lens d).
Notation N := (total lens).

Definition same_frame (st : phys F) : Prop :=
  sized dz st N /\ ph_dim st = ph_dim ph /\ ph_npts st = lens.

Lemma tgt_eq idx : (if nth d idx 0 - off <? fi - off then upd idx d (nth d idx 0) else upd idx d (nth d idx 0 - 1)) = target d fi idx.
Proof.
  unfold target. destruct (Z.ltb_spec (nth d idx 0 - off) (fi - off)), (Z.ltb_spec (nth d idx 0) fi); try lia; auto.
  apply upd_nth_self.
Qed.

Lemma total_le : total lens' <= N.
Proof.
  destruct Hok as (Hp & _). rewrite total_short by auto.
  pose proof (total_remove_at lens d Hd). pose proof (total_pos _ Hp). pose proof (pos_lens_nth _ d Hp Hd). nia.
Qed.

Lemma set_new_points_ok temp : lenp dz ph d first last temp ->
  (forall idx, ins idx -> nth d idx 0 <> fi -> Kp dz ph d first last tp idx temp) ->
  exists st, set_new_points (F := F) ph temp last (fi - off) off d = Ok st /\ same_frame st /\ ph_wts st = ph_wts ph /\
    forall idx c, in_box lens' idx -> 0 <= c < ph_dim ph -> cpat dz st (get1d lens' idx) c = keepP (source d fi idx) c.
Proof.
  intros HL HK. pose proof Hok as (Hp & Hs). pose proof Hs as (Hdim & Hcps & _).
  unfold set_new_points. rewrite (dget_nth _ d 0) by auto. cbn [bind]. fold lens'.
  set (good := fun st : phys F => same_frame st /\ ph_wts st = ph_wts ph).
  pose proof total_le as HT.
  match goal with |- context [mih_loop _ ?b _] =>
    destruct (compact_loop (phys F) lens d fi (ph_dim ph) b good (cpat dz) keepP ph Hp Hd) as (st & E & [G1 G2] & Ho) end; try lia.
  - intros idx st Hb [(S1 & S2 & S3) S4] Hagree. cbn [mcur].
    assert (L := in_box_length _ _ Hb). rewrite (dget_nth idx d 0) by lia. cbn [bind].
    pose proof (in_box_nth _ _ d Hb Hd) as Hx. set (x := nth d idx 0) in *.
    pose proof (get1d_range _ _ Hb) as Hr.
    rewrite S2. rewrite line_extract by auto.
    (* the first write *)
    assert (W1 : forall T v (st1 : phys F), in_box lens' T -> zlen v = ph_dim ph -> good st1 ->
       exists st2, set_control_point st1 lens' T v = Ok st2 /\ good st2 /\
         forall q c, 0 <= q -> 0 <= c < ph_dim ph -> cpat dz st2 q c = if q =? get1d lens' T then nth (Z.to_nat c) v 0%R else cpat dz st1 q c).
    { intros T v st1 HT' Hv [(A1 & A2 & A3) A4]. pose proof (get1d_range _ _ HT').
      destruct (set_cp_at dz st1 N lens' T v A1) as (st2 & E & B1 & B2 & B3 & B4 & B5); [lia | lia |].
      exists st2. split; auto. split; [split; [split; [auto | split; congruence] | congruence]|].
      intros q c Hq Hc. apply B5; auto. lia. }
    assert (Hgood : good st) by (split; [split; auto|auto]).
    assert (Q1 : forall st1, good st1 -> get_control_point st1 idx =
        Ok (map (cpat dz st1 (get1d lens idx)) (zseq 0 (Z.to_nat (ph_dim ph))))).
    { intros st1 [(A1 & A2 & A3) A4]. rewrite <- A2, <- A3. apply (get_cp_at dz st1 N); auto. now rewrite A3. }
    assert (ZM : forall f : Z -> R, zlen (map f (zseq 0 (Z.to_nat (ph_dim ph)))) = ph_dim ph).
    { intros f. unfold zlen. rewrite map_length, zseq_length. lia. }
    assert (NM : forall (f : Z -> R) c, 0 <= c < ph_dim ph -> nth (Z.to_nat c) (map f (zseq 0 (Z.to_nat (ph_dim ph)))) 0%R = f c).
    { intros f c Hc. pose proof (zseq_map_nth f (Z.to_nat (ph_dim ph)) c [] ltac:(lia)) as E. now rewrite app_nil_r in E. }
    assert (Htmp : off < x <= last + 1 -> x <> fi -> exists cs,
       sublist temp ((line lens d idx * (last - off + 2) + x - off) * ph_dim ph) (ph_dim ph) = Ok cs /\ zlen cs = ph_dim ph /\
       forall c, 0 <= c < ph_dim ph -> nth (Z.to_nat c) cs 0%R = tp idx c).
    { intros Hx1 Hx2. assert (Hin : ins idx) by (split; auto; unfold x in *; lia).
      pose proof (slot_range lens d off last idx Hb (proj2 Hin)) as Hsl.
      unfold lenp in HL. destruct (sublist_nth temp (sl idx * ph_dim ph) (ph_dim ph)) as (r & E1 & E2 & E3); [nia | lia | nia |].
      exists r. split; [exact E1|]. split; auto. intros c Hc. rewrite E3 by auto. now apply HK. }
    destruct (Z.eq_dec x fi) as [Exf|Hne].
    + (* skipped *)
      replace (x - off =? fi - off) with true by (symmetry; apply Z.eqb_eq; lia). cbn [negb]. rewrite andb_false_r. cbn [andb bind].
      destruct (Z.leb_spec x off); [lia|]. rewrite Z.geb_leb. destruct (Z.leb_spec (last + 1) x); [lia|]. cbn [andb orb].
      exists st. split; auto. split; auto. intros q c _ _. rewrite Exf, Z.eqb_refl. reflexivity.
    + assert (T1 : in_box lens' (target d fi idx)) by (apply target_box; auto; lia).
      assert (T3 : 0 <= get1d lens' (target d fi idx) <= get1d lens idx) by (apply target_pos; auto; lia).
      replace (x - off =? fi - off) with false by (symmetry; apply Z.eqb_neq; lia). cbn [negb]. rewrite andb_true_r.
      replace (x =? fi) with false by (symmetry; apply Z.eqb_neq; lia). cbn [negb andb].
      assert (Etgt : upd idx d (if x - off <? fi - off then x else x - 1) = target d fi idx).
      { rewrite <- tgt_eq. fold x. now destruct (x - off <? fi - off). }
      rewrite Etgt. rewrite !Z.geb_leb.
      destruct (Z.leb_spec 1 (x - off)) as [C1|C1].
      * destruct (Z.leb_spec x off) as [|_]; [lia|]. cbn [andb orb].
        destruct (Z.ltb_spec x (last + 2)) as [C2|C2].
        -- destruct (Htmp ltac:(lia) Hne) as (cs & Ecs & Zcs & Vcs). rnorm. rewrite Ecs. cbn [bind].
           destruct (W1 (target d fi idx) cs st T1 Zcs Hgood) as (st1 & E1 & G1 & O1). rewrite E1. cbn [bind].
           destruct (Z.leb_spec (last + 1) x) as [C3|C3].
           ++ destruct (Z.ltb_spec x (nth d lens 0)) as [_|]; [|lia]. cbn [andb].
              rewrite (Q1 st1 G1). cbn [bind].
              replace (upd idx d (x - 1)) with (target d fi idx).
              2:{ unfold target. fold x. destruct (Z.ltb_spec x fi); [lia|reflexivity]. }
              destruct (W1 (target d fi idx) _ st1 T1 (ZM (cpat dz st1 (get1d lens idx))) G1) as (st2 & E2 & G2 & O2). rnorm. rewrite E2.
              exists st2. split; auto. split; auto. intros q c Hq Hc. rewrite O2 by auto.
              destruct (Z.eqb_spec q (get1d lens' (target d fi idx))).
              ** rewrite NM by auto. unfold keepP. fold x. destruct (Z.leb_spec x off); [lia|]. destruct (Z.leb_spec (last + 1) x); [|lia]. cbn [orb].
                 rewrite O1 by (auto; lia).
                 assert (get1d lens' (target d fi idx) < get1d lens idx).
                 { assert (Et : target d fi idx = below d idx) by (unfold target; fold x; destruct (Z.ltb_spec x fi); [lia|auto]).
                   assert (get1d lens (below d idx) < get1d lens idx).
                   { assert (Hle : get1d lens (below d idx) <= get1d lens idx) by (apply get1d_idx_mono; auto; [apply below_le | unfold below; rewrite upd_length; auto]).
                     destruct (Z.eq_dec (get1d lens (below d idx)) (get1d lens idx)) as [C|]; [|lia]. exfalso.
                     assert (Hbb : in_box lens (below d idx)) by (unfold below; apply in_box_move; auto; fold x; lia).
                     apply (get1d_inj lens) in C; auto. assert (Cn : nth d (below d idx) 0 = x) by (now rewrite C).
                     unfold below in Cn. rewrite nth_upd_same in Cn by lia. fold x in Cn. lia. }
                   rewrite Et in *. assert (get1d lens' (below d idx) <= get1d lens (below d idx)); [|lia].
                   apply get1d_mono; [| eapply in_box_nonneg; eauto | apply short_pos; auto; lia]. apply Forall2_upd_ge. lia. }
                 destruct (Z.eqb_spec (get1d lens idx) (get1d lens' (target d fi idx))); [lia|].
                 rewrite Hagree by (auto; lia). reflexivity.
              ** rewrite O1 by auto. destruct (Z.eqb_spec q (get1d lens' (target d fi idx))); [lia|reflexivity].
           ++ exists st1. split; auto. split; auto. intros q c Hq Hc. rewrite O1 by auto.
              destruct (Z.eqb_spec q (get1d lens' (target d fi idx))); auto.
              rewrite Vcs by auto. unfold keepP. fold x. destruct (Z.leb_spec x off); [lia|]. destruct (Z.leb_spec (last + 1) x); [lia|]. reflexivity.
        -- cbn [bind]. destruct (Z.leb_spec (last + 1) x); [|lia]. destruct (Z.ltb_spec x (nth d lens 0)) as [_|]; [|lia]. cbn [andb].
           rewrite (Q1 st Hgood). cbn [bind].
           replace (upd idx d (x - 1)) with (target d fi idx).
           2:{ unfold target. fold x. destruct (Z.ltb_spec x fi); [lia|reflexivity]. }
           destruct (W1 (target d fi idx) _ st T1 (ZM (cpat dz st (get1d lens idx))) Hgood) as (st2 & E2 & G2 & O2). rnorm. rewrite E2.
           exists st2. split; auto. split; auto. intros q c Hq Hc. rewrite O2 by auto.
           destruct (Z.eqb_spec q (get1d lens' (target d fi idx))); auto.
           rewrite NM by auto. unfold keepP. fold x. destruct (Z.leb_spec x off); [lia|]. destruct (Z.leb_spec (last + 1) x); [|lia]. cbn [orb].
           rewrite Hagree by (auto; lia). reflexivity.
      * cbn [andb bind]. destruct (Z.leb_spec x off) as [_|]; [|lia]. destruct (Z.ltb_spec (x - off) 1); [|lia]. cbn [andb orb].
        rewrite (Q1 st Hgood). cbn [bind].
        replace (upd idx d x) with (target d fi idx).
        2:{ unfold target. fold x. destruct (Z.ltb_spec x fi); [|lia]. unfold x. now rewrite upd_nth_self. }
        destruct (W1 (target d fi idx) _ st T1 (ZM (cpat dz st (get1d lens idx))) Hgood) as (st2 & E2 & G2 & O2). rnorm. rewrite E2.
        exists st2. split; auto. split; auto. intros q c Hq Hc. rewrite O2 by auto.
        destruct (Z.eqb_spec q (get1d lens' (target d fi idx))); auto.
        rewrite NM by auto. unfold keepP. fold x. destruct (Z.leb_spec x off); [|lia]. cbn [orb].
        rewrite Hagree by (auto; lia). reflexivity.
  - split; [split; [auto | split; reflexivity] | reflexivity].
  - exists st. split; [exact E|]. split; auto.
Qed.

Lemma short_below_pos idx : in_box lens idx -> fi < nth d idx 0 -> get1d lens' (target d fi idx) < get1d lens idx.
Proof.
  intros Hb Hx. pose proof Hok as (Hp & _). assert (L := in_box_length _ _ Hb). pose proof (in_box_nth _ _ d Hb Hd) as Hr.
  assert (Et : target d fi idx = below d idx) by (unfold target; destruct (Z.ltb_spec (nth d idx 0) fi); [lia|auto]).
  assert (T1 : in_box lens' (target d fi idx)) by (apply target_box; auto; lia). rewrite Et in *.
  assert (Hbb : in_box lens (below d idx)) by (unfold below; apply in_box_move; auto; lia).
  assert (get1d lens (below d idx) < get1d lens idx).
  { assert (Hle : get1d lens (below d idx) <= get1d lens idx) by (apply get1d_idx_mono; auto; [apply below_le | unfold below; rewrite upd_length; auto]).
    destruct (Z.eq_dec (get1d lens (below d idx)) (get1d lens idx)) as [C|]; [|lia]. exfalso.
    apply (get1d_inj lens) in C; auto. assert (Cn : nth d (below d idx) 0 = nth d idx 0) by (now rewrite C).
    unfold below in Cn. rewrite nth_upd_same in Cn by lia. lia. }
  assert (get1d lens' (below d idx) <= get1d lens (below d idx)); [|lia].
  apply get1d_mono; [| eapply in_box_nonneg; eauto | apply short_pos; auto; lia]. apply Forall2_upd_ge. lia.
Qed.

Lemma set_new_weights_ok ph1 temp : same_frame ph1 -> ph_wts ph1 = ph_wts ph -> is_weighted dz ph = true ->
  lenw dz ph d first last temp ->
  (forall idx, ins idx -> nth d idx 0 <> fi -> Kw dz ph d first last tw idx temp) ->
  exists st, set_new_weights (F := F) ph1 temp last (fi - off) off d = Ok st /\ same_frame st /\ ph_cps st = ph_cps ph1 /\
    is_weighted dz st = true /\
    forall idx, in_box lens' idx -> wat dz st (get1d lens' idx) = keepW (source d fi idx).
Proof.
  intros Hs1 Hw1 Hwt HL HK. pose proof Hok as (Hp & Hs).
  unfold set_new_weights. pose proof Hs1 as (_ & _ & En). rewrite En. rewrite (dget_nth _ d 0) by auto. cbn [bind]. fold lens'.
  set (good := fun st : phys F => same_frame st /\ is_weighted dz st = true /\ ph_cps st = ph_cps ph1).
  pose proof total_le as HT.
  assert (W0 : forall q, wat dz ph1 q = wat dz ph q) by (intros; unfold wat; now rewrite Hw1).
  match goal with |- context [mih_loop _ ?b _] =>
    destruct (compact_loop (phys F) lens d fi 1 b good (fun st q _ => wat dz st q) (fun idx _ => keepW idx) ph1 Hp Hd) as (st & E & (G1 & G2 & G3) & Ho) end; try lia.
  - intros idx st Hb Hgood Hagree0. pose proof Hgood as ((S1 & S2 & S3) & S4 & S5). cbn [mcur].
    assert (Hagree : forall q, get1d lens idx <= q < N -> wat dz st q = wat dz ph q).
    { intros q Hq. rewrite <- W0. apply (Hagree0 q 0); lia. }
    assert (L := in_box_length _ _ Hb). rewrite (dget_nth idx d 0) by lia. cbn [bind].
    pose proof (in_box_nth _ _ d Hb Hd) as Hx. 
    pose proof (get1d_range _ _ Hb) as Hr.
    rewrite line_extract by auto.
    assert (W1 : forall T v (st1 : phys F), in_box lens' T -> good st1 ->
       exists st2, set_weight st1 lens' T v = Ok st2 /\ good st2 /\
         forall q, 0 <= q -> wat dz st2 q = if q =? get1d lens' T then v else wat dz st1 q).
    { intros T v st1 HT' ((A1 & A2 & A3) & A4 & A5). pose proof (get1d_range _ _ HT').
      destruct (set_w_at dz st1 N lens' T v A1) as (st2 & E & B1 & B2 & B3 & B4 & B5 & B6); [lia | auto |].
      exists st2. split; auto. split; [split; [split; [auto | split; congruence] | split; congruence]|]. auto. }
    assert (Q1 : forall st1, good st1 -> get_weight st1 idx = Ok (wat dz st1 (get1d lens idx))).
    { intros st1 ((A1 & A2 & A3) & A4). rewrite <- A3. apply (get_weight_at dz st1 N); auto. now rewrite A3. }
    set (x := nth d idx 0) in *.
    assert (Htmp : off < x <= last + 1 -> x <> fi ->
       vget temp (line lens d idx * (last - off + 2) + x - off) = Ok (tw idx)).
    { intros Hx1 Hx2. assert (Hin : ins idx) by (split; auto; unfold x in *; lia).
      pose proof (slot_range lens d off last idx Hb (proj2 Hin)) as Hsl.
      unfold lenw in HL. fold (sl idx). change (line lens d idx * (last - off + 2) + x - off) with (sl idx).
      rewrite (vget_nth temp _ 0%R) by lia. f_equal. now apply HK. }
    destruct (Z.eq_dec x fi) as [Exf|Hne].
    + replace (x - off =? fi - off) with true by (symmetry; apply Z.eqb_eq; lia). cbn [negb]. rewrite andb_false_r. cbn [andb bind].
      destruct (Z.leb_spec x off); [lia|]. rewrite Z.geb_leb. destruct (Z.leb_spec (last + 1) x); [lia|]. cbn [andb orb].
      exists st. split; auto. split; auto. intros q c _ _. rewrite Exf, Z.eqb_refl. reflexivity.
    + assert (T1 : in_box lens' (target d fi idx)) by (apply target_box; auto; lia).
      assert (T3 : 0 <= get1d lens' (target d fi idx) <= get1d lens idx) by (apply target_pos; auto; lia).
      replace (x - off =? fi - off) with false by (symmetry; apply Z.eqb_neq; lia). cbn [negb]. rewrite andb_true_r.
      replace (x =? fi) with false by (symmetry; apply Z.eqb_neq; lia). cbn [negb andb].
      assert (Etgt : upd idx d (if x - off <? fi - off then x else x - 1) = target d fi idx).
      { rewrite <- tgt_eq. fold x. now destruct (x - off <? fi - off). }
      rewrite Etgt. rewrite !Z.geb_leb.
      destruct (Z.leb_spec 1 (x - off)) as [C1|C1].
      * destruct (Z.leb_spec x off) as [|_]; [lia|]. cbn [andb orb].
        destruct (Z.ltb_spec x (last + 2)) as [C2|C2].
        -- rnorm. rewrite (Htmp ltac:(lia) Hne). cbn [bind].
           destruct (W1 (target d fi idx) (tw idx) st T1 Hgood) as (st1 & E1 & G1 & O1). rewrite E1. cbn [bind].
           destruct (Z.leb_spec (last + 1) x) as [C3|C3].
           ++ destruct (Z.ltb_spec x (nth d lens 0)) as [_|]; [|lia]. cbn [andb].
              rewrite (Q1 st1 G1). cbn [bind].
              replace (upd idx d (x - 1)) with (target d fi idx).
              2:{ unfold target. fold x. destruct (Z.ltb_spec x fi); [lia|reflexivity]. }
              destruct (W1 (target d fi idx) (wat dz st1 (get1d lens idx)) st1 T1 G1) as (st2 & E2 & G2 & O2). rnorm. rewrite E2.
              exists st2. split; auto. split; auto. intros q c Hq Hc. rewrite O2 by auto.
              destruct (Z.eqb_spec q (get1d lens' (target d fi idx))).
              ** unfold keepW. fold x. destruct (Z.leb_spec x off); [lia|]. destruct (Z.leb_spec (last + 1) x); [|lia]. cbn [orb].
                 rewrite O1 by (auto; lia).
                 pose proof (short_below_pos idx Hb ltac:(unfold x in *; lia)).
                 destruct (Z.eqb_spec (get1d lens idx) (get1d lens' (target d fi idx))); [lia|].
                 rewrite Hagree by (auto; lia). reflexivity.
              ** rewrite O1 by auto. destruct (Z.eqb_spec q (get1d lens' (target d fi idx))); [lia|reflexivity].
           ++ exists st1. split; auto. split; auto. intros q c Hq Hc. rewrite O1 by auto.
              destruct (Z.eqb_spec q (get1d lens' (target d fi idx))); auto.
              unfold keepW. fold x. destruct (Z.leb_spec x off); [lia|]. destruct (Z.leb_spec (last + 1) x); [lia|]. reflexivity.
        -- cbn [bind]. destruct (Z.leb_spec (last + 1) x); [|lia]. destruct (Z.ltb_spec x (nth d lens 0)) as [_|]; [|lia]. cbn [andb].
           rewrite (Q1 st Hgood). cbn [bind].
           replace (upd idx d (x - 1)) with (target d fi idx).
           2:{ unfold target. fold x. destruct (Z.ltb_spec x fi); [lia|reflexivity]. }
           destruct (W1 (target d fi idx) (wat dz st (get1d lens idx)) st T1 Hgood) as (st2 & E2 & G2 & O2). rnorm. rewrite E2.
           exists st2. split; auto. split; auto. intros q c Hq Hc. rewrite O2 by auto.
           destruct (Z.eqb_spec q (get1d lens' (target d fi idx))); auto.
           unfold keepW. fold x. destruct (Z.leb_spec x off); [lia|]. destruct (Z.leb_spec (last + 1) x); [|lia]. cbn [orb].
           rewrite Hagree by (auto; lia). reflexivity.
      * cbn [andb bind]. destruct (Z.leb_spec x off) as [_|]; [|lia]. destruct (Z.ltb_spec (x - off) 1); [|lia]. cbn [andb orb].
        rewrite (Q1 st Hgood). cbn [bind].
        replace (upd idx d x) with (target d fi idx).
        2:{ unfold target. fold x. destruct (Z.ltb_spec x fi); [|lia]. unfold x. now rewrite upd_nth_self. }
        destruct (W1 (target d fi idx) (wat dz st (get1d lens idx)) st T1 Hgood) as (st2 & E2 & G2 & O2). rnorm. rewrite E2.
        exists st2. split; auto. split; auto. intros q c Hq Hc. rewrite O2 by auto.
        destruct (Z.eqb_spec q (get1d lens' (target d fi idx))); auto.
        unfold keepW. fold x. destruct (Z.leb_spec x off); [|lia]. cbn [orb].
        rewrite Hagree by (auto; lia). reflexivity.
  - split; [auto | split; [unfold is_weighted in *; now rewrite Hw1 | reflexivity]].
  - exists st. split; [exact E|]. split; auto. split; auto. split; auto. intros idx Hb. apply (Ho idx 0); auto. lia.
Qed.

(* cutting the tail *)
Lemma cut_ok ph2 : same_frame ph2 ->
  exists ph3, remove_control_points ph2 (total (remove_at d lens)) = Ok ph3 /\
    let ph4 := set_npts ph3 lens' in
    phys_ok dz ph4 /\ ph_dim ph4 = ph_dim ph /\ ph_npts ph4 = lens' /\ ph_npts ph3 = lens /\ is_weighted dz ph4 = is_weighted dz ph2 /\
    (forall idx c, in_box lens' idx -> 0 <= c < ph_dim ph -> pcoord dz ph4 idx c = cpat dz ph2 (get1d lens' idx) c) /\
    (forall idx, in_box lens' idx -> pweight dz ph4 idx = wat dz ph2 (get1d lens' idx)).
Proof.
  intros ((H1 & H2 & H3) & Hdm & Hn). pose proof Hok as (Hp & Hdim & _).
  assert (HT : total lens' = N - total (remove_at d lens)) by (apply total_short; auto).
  assert (HpS : pos_lens lens') by (apply short_pos; auto; lia). pose proof (total_pos _ HpS) as HTp.
  assert (Hlin : 0 <= total (remove_at d lens)).
  { pose proof (total_remove_at lens d Hd). pose proof (total_pos _ Hp). pose proof (pos_lens_nth _ d Hp Hd). nia. }
  unfold remove_control_points. rnorm. rewrite Hdm in H2. rewrite Hdm.
  rewrite erase_tail_ok by (rnorm; rewrite H2; nia). cbn [bind]. rewrite H2.
  assert (Hcut : forall l : list R, zlen l = ph_dim ph * N ->
     zlen (firstn (Z.to_nat (ph_dim ph * N - total (remove_at d lens) * ph_dim ph)) l) = ph_dim ph * total lens').
  { intros l Hl'. unfold zlen in *. rewrite firstn_length, HT. nia. }
  assert (Hcoord : forall w' idx c, in_box lens' idx -> 0 <= c < ph_dim ph ->
     pcoord dz (set_npts (mkPhys (F := F) (ph_dim ph) lens (firstn (Z.to_nat (ph_dim ph * N - total (remove_at d lens) * ph_dim ph)) (ph_cps ph2)) w') lens') idx c
     = cpat dz ph2 (get1d lens' idx) c).
  { intros w' idx c Hb Hc. unfold pcoord, cpat, set_npts. cbn [ph_dim ph_npts ph_cps]. rewrite Hdm.
    pose proof (get1d_range _ _ Hb). apply nth_firstn_lt. rewrite HT in H. nia. }
  rewrite Hn. destruct (ph_wts ph2) as [w|] eqn:Ew.
  - specialize (H3 w eq_refl). rewrite erase_tail_ok by (rnorm; lia). cbn [bind]. rewrite H3.
    eexists. split; [reflexivity|]. cbv zeta. split.
    { split; [exact HpS|]. split; [exact Hdim|]. split; [apply Hcut; exact H2|]. intros w' E. injection E as <-.
      unfold zlen in *. cbn [ph_wts set_npts ph_npts]. rewrite firstn_length, HT. lia. }
    split; [reflexivity|]. split; [reflexivity|]. split; [reflexivity|]. split; [unfold is_weighted; now rewrite Ew|]. split.
    { intros idx c Hb Hc. now apply Hcoord. }
    intros idx Hb. pose proof (get1d_range _ _ Hb). unfold pweight, wat. rewrite Ew. cbn [set_npts ph_wts ph_npts].
    apply nth_firstn_lt. lia.
  - eexists. split; [reflexivity|]. cbv zeta. split.
    { split; [exact HpS|]. split; [exact Hdim|]. split; [apply Hcut; exact H2|]. intros w' E. discriminate E. }
    split; [reflexivity|]. split; [reflexivity|]. split; [reflexivity|]. split; [unfold is_weighted; now rewrite Ew|]. split.
    { intros idx c Hb Hc. now apply Hcoord. }
    intros idx Hb. unfold pweight, wat. rewrite Ew. reflexivity.
Qed.
End Compact.
