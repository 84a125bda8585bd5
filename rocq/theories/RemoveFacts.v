(* RemoveControlPoints over real arithmetic: the temporary points, the check and the compaction of the
   control net. *)
From Coq Require Import ZArith List Bool Lia Reals Lra.
From Verif Require Import Base BaseFacts RSum MultiIndex MultiIndexSpec MultiIndexFacts TensorSum
  KnotVec VecUtils Spaces SplineEval SplineEdit SplineSpec EvalFacts PhysFacts AdjustFacts.
Import ListNotations.
Open Scope Z_scope.

(* ---- loops over multi-indices that run upwards ---- *)
Lemma mih_for_inv {St} lens (Inv : nat -> St -> Prop) (body : mih -> St -> Res St) N :
  (forall n st, (n < N)%nat -> Inv n st ->
     exists st', body (mkMih lens (nth_index lens n)) st = Ok st' /\ Inv (S n) st') ->
  forall m k st, (k + m = N)%nat -> Inv k st ->
     exists st', mih_for m (mkMih lens (nth_index lens k)) body st = Ok st' /\ Inv N st'.
Proof.
  intros Hb. induction m as [|m IH]; intros k st Hk Hi.
  - exists st. split; auto. replace N with k by lia. auto.
  - cbn [mih_for]. destruct (Hb k st ltac:(lia) Hi) as (st' & E & Hi'). rewrite E. cbn [bind].
    destruct (IH (S k) st' ltac:(lia) Hi') as (st'' & E' & Hi''). exists st''. split; auto.
    rewrite <- E'. f_equal. unfold mih_incr. cbn [mlen mcur]. now rewrite nth_index_S.
Qed.

Lemma mih_loop_inv {St} lens (Inv : nat -> St -> Prop) (body : mih -> St -> Res St) st :
  (forall n st, Z.of_nat n < total lens -> Inv n st ->
     exists st', body (mkMih lens (nth_index lens n)) st = Ok st' /\ Inv (S n) st') ->
  Inv 0%nat st -> exists st', mih_loop lens body st = Ok st' /\ Inv (Z.to_nat (total lens)) st'.
Proof.
  intros Hb H0. unfold mih_loop.
  apply (mih_for_inv lens Inv body (Z.to_nat (total lens))) with (k := 0%nat); auto.
  intros n s Hn. apply Hb. lia.
Qed.

Lemma pair_inv_index lens idx : in_box lens idx -> exists n, Z.of_nat n < total lens /\ nth_index lens n = idx.
Proof.
  intros H. exists (Z.to_nat (get1d lens idx)). pose proof (get1d_range _ _ H). split; [lia|].
  now apply nth_index_of_get1d.
Qed.

(* ---- writing a block of a vector ---- *)
Lemma vset_block_gen (l : list R) base n (body : list R -> Z -> Res (list R)) (v : Z -> R) :
  0 <= base -> base + Z.of_nat n <= zlen l ->
  (forall tmp k, 0 <= k < Z.of_nat n -> length tmp = length l ->
     (forall j, 0 <= j -> ~ (base <= j < base + Z.of_nat n) -> nth (Z.to_nat j) tmp 0%R = nth (Z.to_nat j) l 0%R) ->
     body tmp k = vset tmp (base + k) (v k)) ->
  exists l', foldM body (zseq 0 n) l = Ok l' /\ length l' = length l /\
    (forall j, 0 <= j < Z.of_nat n -> nth (Z.to_nat (base + j)) l' 0%R = v j) /\
    (forall j, 0 <= j -> ~ (base <= j < base + Z.of_nat n) -> nth (Z.to_nat j) l' 0%R = nth (Z.to_nat j) l 0%R).
Proof.
  intros Hb Hl Hbody.
  assert (G : forall m, (m <= n)%nat -> exists l', foldM body (zseq 0 m) l = Ok l' /\ length l' = length l /\
    (forall j, 0 <= j < Z.of_nat m -> nth (Z.to_nat (base + j)) l' 0%R = v j) /\
    (forall j, 0 <= j -> ~ (base <= j < base + Z.of_nat m) -> nth (Z.to_nat j) l' 0%R = nth (Z.to_nat j) l 0%R)).
  { induction m as [|m IH]; intros Hm.
    - exists l. split; auto. split; auto. split; auto. intros; lia.
    - destruct (IH ltac:(lia)) as (l' & E & HL & H1 & H2).
      assert (Es : zseq 0 (S m) = zseq 0 m ++ [Z.of_nat m]).
      { rewrite !zseq_map. rewrite seq_S, map_app. cbn [map]. f_equal. }
      rewrite Es, foldM_app, E. cbn [bind foldM].
      rewrite Hbody; [|lia|auto|intros j Hj Hn; apply H2; lia].
      rewrite vset_ok by (unfold zlen in *; lia). cbn [bind]. eexists. split; [reflexivity|].
      split; [now rewrite upd_length|]. unfold zlen in Hl. split.
      + intros j Hj. destruct (Z.eq_dec j (Z.of_nat m)) as [->|Hne].
        * rewrite nth_upd_same; auto. lia.
        * rewrite nth_upd_other by lia. apply H1. lia.
      + intros j Hj Hn. rewrite nth_upd_other by lia. apply H2; lia. }
  apply G. lia.
Qed.

Definition above (d : nat) (idx : list Z) : list Z := upd idx d (nth d idx 0 + 1).

Lemma above_below d idx : (d < length idx)%nat -> above d (below d idx) = idx.
Proof.
  intros H. unfold above, below. rewrite nth_upd_same, upd_upd by auto.
  replace (nth d idx 0 - 1 + 1) with (nth d idx 0) by lia. apply upd_nth_self.
Qed.
Lemma below_above d idx : (d < length idx)%nat -> below d (above d idx) = idx.
Proof.
  intros H. unfold above, below. rewrite nth_upd_same, upd_upd by auto.
  replace (nth d idx 0 + 1 - 1) with (nth d idx 0) by lia. apply upd_nth_self.
Qed.

(* number of the line through idx in direction d *)
Definition line (lens : list Z) (d : nat) (idx : list Z) : Z := get1d (remove_at d lens) (remove_at d idx).

Lemma line_range lens d idx : in_box lens idx -> 0 <= line lens d idx < total (remove_at d lens).
Proof. intros H. apply get1d_range. now apply in_box_remove_at. Qed.
Lemma line_upd lens d idx a : line lens d (upd idx d a) = line lens d idx.
Proof. unfold line. now rewrite remove_at_upd. Qed.
Lemma line_inj lens d i1 i2 : in_box lens i1 -> in_box lens i2 -> (d < length lens)%nat ->
  line lens d i1 = line lens d i2 -> nth d i1 0 = nth d i2 0 -> i1 = i2.
Proof.
  intros H1 H2 Hd E En. pose proof (in_box_length _ _ H1). pose proof (in_box_length _ _ H2).
  apply (remove_at_nth_eq Z 0 d); try lia; auto.
  apply (get1d_inj (remove_at d lens)); auto using in_box_remove_at.
Qed.
Lemma line_extract lens d idx : in_box lens idx -> extract_dimension (mkMih lens idx) d = line lens d idx.
Proof. intros H. rewrite extract_dimension_eq; auto. cbn. now rewrite (in_box_length _ _ H). Qed.

(* the place of idx in the temporary arrays *)
Definition slot (lens : list Z) (d : nat) (off last : Z) (idx : list Z) : Z :=
  line lens d idx * (last - off + 2) + nth d idx 0 - off.

Lemma slot_range lens d off last idx : in_box lens idx -> off <= nth d idx 0 <= last + 1 ->
  0 <= slot lens d off last idx < total (remove_at d lens) * (last - off + 2).
Proof. intros H Hx. pose proof (line_range lens d idx H). unfold slot. nia. Qed.

Lemma slot_inj lens d off last i1 i2 : in_box lens i1 -> in_box lens i2 -> (d < length lens)%nat ->
  off <= nth d i1 0 <= last + 1 -> off <= nth d i2 0 <= last + 1 ->
  slot lens d off last i1 = slot lens d off last i2 -> i1 = i2.
Proof.
  intros H1 H2 Hd X1 X2 E. unfold slot in E.
  assert (line lens d i1 = line lens d i2) by nia.
  apply (line_inj lens d); auto. nia.
Qed.

Lemma slot_below lens d off last idx : (d < length idx)%nat -> slot lens d off last (below d idx) = slot lens d off last idx - 1.
Proof. intros H. unfold slot, below. rewrite line_upd, nth_upd_same by auto. lia. Qed.
Lemma slot_above lens d off last idx : (d < length idx)%nat -> slot lens d off last (above d idx) = slot lens d off last idx + 1.
Proof. intros H. unfold slot, above. rewrite line_upd, nth_upd_same by auto. lia. Qed.

Lemma in_box_move lens d idx a : in_box lens idx -> 0 <= a < nth d lens 0 -> in_box lens (upd idx d a).
Proof.
  intros H Ha. rewrite <- (upd_nth_self lens d 0) at 1. now apply in_box_upd_both.
Qed.

(* ---- the skeleton of GetTempNew... ---- *)
Section Temp.
Variable dz : R -> R.
Local Notation F := (Rops dz).
Variables (lens : list Z) (d : nat) (off last : Z) (sc : list R).
Variable put : mih -> list R -> R -> Z -> Z -> Res (list R).
Variable K : list Z -> list R -> Prop.   (* the slot of idx holds the right value *)
Variable good : list R -> Prop.
Hypothesis Hp : pos_lens lens.
Hypothesis Hd : (d < length lens)%nat.
Hypothesis Hoff : 0 <= off.
Hypothesis Hlast : last + 2 <= nth d lens 0.
Hypothesis Hord : off <= last + 1.

Definition inslot (idx : list Z) : Prop := in_box lens idx /\ off <= nth d idx 0 <= last + 1.
Definition sets (idx : list Z) (tmp tmp' : list R) : Prop :=
  good tmp' /\ K idx tmp' /\ forall idx', inslot idx' -> idx' <> idx -> K idx' tmp -> K idx' tmp'.
Definition coef (x : Z) : R := nth (Z.to_nat (x - off - 1)) sc 0%R.

Hypothesis Hput_end : forall idx tmp, inslot idx -> nth d idx 0 = off \/ nth d idx 0 = last + 1 -> good tmp ->
  exists tmp', put (mkMih lens idx) tmp 1%R (nth d idx 0) 0 = Ok tmp' /\ sets idx tmp tmp'.

Lemma temp_ends_ok tmp : good tmp ->
  exists tmp', temp_ends (F := F) lens d off last put tmp = Ok tmp' /\ good tmp' /\
    forall idx, inslot idx -> nth d idx 0 = off \/ nth d idx 0 = last + 1 -> K idx tmp'.
Proof.
  intros Hg. unfold temp_ends.
  set (Inv := fun (k : nat) (t : list R) => good t /\
     forall idx, inslot idx -> nth d idx 0 = off \/ nth d idx 0 = last + 1 -> get1d lens idx < Z.of_nat k -> K idx t).
  match goal with |- context [mih_loop _ ?b _] => destruct (mih_loop_inv lens Inv b tmp) as (t' & E & I1 & I2) end.
  - intros k t Hk (I1 & I2). cbn [mcur].
    pose proof (nth_index_box lens k Hp) as Hb. set (idx := nth_index lens k) in *.
    assert (Eq : get1d lens idx = Z.of_nat k) by (apply nth_index_get1d; auto).
    rewrite (dget_nth idx d 0) by (rewrite (in_box_length _ _ Hb); auto). cbn [bind].
    pose proof (in_box_nth _ _ d Hb Hd) as Hx.
    assert (Hcase : forall idx', inslot idx' -> get1d lens idx' < Z.of_nat (S k) -> idx' = idx \/ get1d lens idx' < Z.of_nat k).
    { intros idx' [B1 _] Hlt. destruct (Z.eq_dec (get1d lens idx') (Z.of_nat k)); [left; apply (get1d_inj lens); auto; lia | right; lia]. }
    destruct (Z.eqb_spec (nth d idx 0) off) as [E1|E1]; [|destruct (Z.eqb_spec (nth d idx 0) (last + 1)) as [E2|E2]]; cbn [orb].
    + destruct (Hput_end idx t) as (t' & E & S1 & S2 & S3); [split; auto; lia | auto | auto |].
      exists t'. split; [now rewrite E1 in E|]. split; auto. intros idx' Hi' He Hlt.
      destruct (list_eq_dec Z.eq_dec idx' idx) as [->|Hne]; auto. destruct (Hcase idx' Hi' Hlt) as [C|C]; [contradiction|]. now apply S3; auto.
    + destruct (Hput_end idx t) as (t' & E & S1 & S2 & S3); [split; auto; lia | auto | auto |].
      exists t'. split; [now rewrite E2 in E|]. split; auto. intros idx' Hi' He Hlt.
      destruct (list_eq_dec Z.eq_dec idx' idx) as [->|Hne]; auto. destruct (Hcase idx' Hi' Hlt) as [C|C]; [contradiction|]. now apply S3; auto.
    + exists t. split; [reflexivity|]. split; auto. intros idx' Hi' He Hlt.
      destruct (Hcase idx' Hi' Hlt) as [->|C]; [lia|]. now apply I2.
  - split; auto. intros idx [B _] _ Hlt. pose proof (get1d_range _ _ B). lia.
  - exists t'. split; auto. split; auto. intros idx Hi He. apply I2; auto. destruct Hi as [B _]. pose proof (get1d_range _ _ B). lia.
Qed.

Variables (fi fj : Z).  (* bounds of the inner updates *)
Hypothesis Hput_lo : forall idx tmp, inslot idx -> off < nth d idx 0 < fi -> good tmp -> K (below d idx) tmp ->
  exists tmp', put (mkMih lens idx) tmp (coef (nth d idx 0)) (nth d idx 0) (-1) = Ok tmp' /\ sets idx tmp tmp'.
Hypothesis Hput_hi : forall idx tmp, inslot idx -> fj < nth d idx 0 <= last -> good tmp -> K (above d idx) tmp ->
  exists tmp', put (mkMih lens idx) tmp (1 - coef (nth d idx 0%Z))%R (nth d idx 0) 1 = Ok tmp' /\ sets idx tmp tmp'.
Hypothesis Hsc : last - off <= zlen sc.

Lemma temp_inner_ok : forall fuel i j tmp, good tmp -> off < i -> j <= last -> j - i >= -1 -> j - i <= Z.of_nat fuel ->
  fi = i + (j - i + 1) / 2 -> fj = j - (j - i + 1) / 2 ->
  (forall idx, inslot idx -> nth d idx 0 < i \/ j < nth d idx 0 -> K idx tmp) ->
  exists tmp', temp_inner (F := F) fuel lens d sc off put i j tmp = Ok tmp' /\ good tmp' /\
    forall idx, inslot idx -> nth d idx 0 < fi \/ fj < nth d idx 0 -> K idx tmp'.
Proof.
  induction fuel as [|f IH]; intros i j tmp Hg Hi Hj Hge Hfuel Ei Ej Hk.
  - cbn [temp_inner]. rewrite Z.gtb_ltb. destruct (Z.ltb_spec 0 (j - i)); [lia|].
    assert (fi = i /\ fj = j) as [-> ->]. { assert ((j - i + 1) / 2 = 0) by (apply Z.div_small; lia). lia. }
    exists tmp. auto.
  - cbn [temp_inner]. rewrite Z.gtb_ltb. destruct (Z.ltb_spec 0 (j - i)).
    2:{ assert (fi = i /\ fj = j) as [-> ->]. { assert ((j - i + 1) / 2 = 0) by (apply Z.div_small; lia). lia. } exists tmp. auto. }
    assert (Hdiv : (j - i + 1) / 2 = (j - 1 - (i + 1) + 1) / 2 + 1).
    { replace (j - i + 1) with (j - 1 - (i + 1) + 1 + 1 * 2) by lia. rewrite Z.div_add by lia. reflexivity. }
    assert (Hdiv0 : 0 <= (j - 1 - (i + 1) + 1) / 2) by (apply Z.div_pos; lia).
    assert (Hdiv2 : 2 * ((j - 1 - (i + 1) + 1) / 2) <= j - 1 - (i + 1) + 1) by (apply Z.mul_div_le; lia).
    set (Inv := fun (k : nat) (t : list R) => good t /\
       (forall idx, inslot idx -> nth d idx 0 < i \/ j < nth d idx 0 -> K idx t) /\
       (forall idx, inslot idx -> nth d idx 0 = i \/ nth d idx 0 = j -> get1d lens idx < Z.of_nat k -> K idx t)).
    match goal with |- context [mih_loop _ ?b _] => destruct (mih_loop_inv lens Inv b tmp) as (t' & E & I1 & I2 & I3) end.
    + intros k t Hlt (I1 & I2 & I3). cbn [mcur].
      pose proof (nth_index_box lens k Hp) as Hb. set (idx := nth_index lens k) in *.
      assert (Eq : get1d lens idx = Z.of_nat k) by (apply nth_index_get1d; auto).
      pose proof (in_box_length _ _ Hb) as HL.
      rewrite (dget_nth idx d 0) by lia. cbn [bind].
      pose proof (in_box_nth _ _ d Hb Hd) as Hx.
      assert (Hcase : forall idx', inslot idx' -> get1d lens idx' < Z.of_nat (S k) -> idx' = idx \/ get1d lens idx' < Z.of_nat k).
      { intros idx' [B1 _] Hlt'. destruct (Z.eq_dec (get1d lens idx') (Z.of_nat k)); [left; apply (get1d_inj lens); auto; lia | right; lia]. }
      destruct (Z.eqb_spec (nth d idx 0) i) as [E1|E1].
      * destruct (Z.eqb_spec (nth d idx 0) j) as [C|_]; [lia|].
        rnorm. rewrite (vget_nth sc (i - off - 1) 0%R) by (rnorm; lia). cbn [bind].
        destruct (Hput_lo idx t) as (t' & E & S1 & S2 & S3); auto; [split; auto; lia | lia | |].
        { apply I2; [split|left]; unfold below; rewrite ?nth_upd_same by lia; try lia. apply in_box_move; auto. lia. }
        exists t'. split; [unfold coef in E; rewrite E1 in E; rewrite E; reflexivity|].
        split; auto. split.
        -- intros idx' Hi' Hc. apply S3; auto. intros ->. lia.
        -- intros idx' Hi' Hc Hlt'. destruct (list_eq_dec Z.eq_dec idx' idx) as [->|Hne]; auto.
           destruct (Hcase idx' Hi' Hlt') as [C|C]; [contradiction|]. apply S3; auto.
      * cbn [bind]. destruct (Z.eqb_spec (nth d idx 0) j) as [E2|E2].
        -- rnorm. rewrite (vget_nth sc (j - off - 1) 0%R) by (rnorm; lia). cbn [bind].
           destruct (Hput_hi idx t) as (t' & E & S1 & S2 & S3); auto; [split; auto; lia | lia | |].
           { apply I2; [split|right]; unfold above; rewrite ?nth_upd_same by lia; try lia. apply in_box_move; auto. lia. }
           exists t'. split; [unfold coef in E; rewrite E2 in E; exact E|].
           split; auto. split.
           ++ intros idx' Hi' Hc. apply S3; auto. intros ->. lia.
           ++ intros idx' Hi' Hc Hlt'. destruct (list_eq_dec Z.eq_dec idx' idx) as [->|Hne]; auto.
              destruct (Hcase idx' Hi' Hlt') as [C|C]; [contradiction|]. apply S3; auto.
        -- exists t. split; [reflexivity|]. split; auto. split; auto. intros idx' Hi' Hc Hlt'.
           destruct (Hcase idx' Hi' Hlt') as [->|C]; [lia|]. now apply I3.
    + split; auto. split; auto. intros idx [B _] _ Hlt. pose proof (get1d_range _ _ B). lia.
    + rnorm. rewrite E. cbn [bind]. apply IH; auto; try lia.
      intros idx Hi' Hc.
      assert (get1d lens idx < Z.of_nat (Z.to_nat (total lens))) by (destruct Hi' as [B _]; pose proof (get1d_range _ _ B); lia).
      destruct (Z.eq_dec (nth d idx 0) i); [apply I3; auto|]. destruct (Z.eq_dec (nth d idx 0) j); [apply I3; auto|]. apply I2; auto. lia.
Qed.
End Temp.

Lemma ndiv_1 dz (x : R) : ndiv (n := Rops dz) x 1%R = x.
Proof. rewrite ndiv_R by lra. change (x / 1 = x)%R. field. Qed.

Lemma erase_tail_ok {A} (l : list A) n : 0 <= n <= zlen l -> erase_tail l n = Ok (firstn (Z.to_nat (zlen l - n)) l).
Proof.
  intros H. unfold erase_tail. destruct (Z.leb_spec 0 n); [|lia]. destruct (Z.leb_spec n (zlen l)); [|lia]. reflexivity.
Qed.

Section Remove.
Variable dz : R -> R.
Local Notation F := (Rops dz).
Variables (ph : phys F) (d : nat) (first last : Z) (sc : list R).
Variable tw : list Z -> R.           (* temporary weights *)
Variable tp : list Z -> Z -> R.      (* temporary points *)
Notation lens := (ph_npts ph).
Notation off := (first - 1).
Notation lines := (total (remove_at d lens)).
Definition fi : Z := first + (last - first + 1) / 2.
Definition fj : Z := last - (last - first + 1) / 2.
Notation ins := (inslot lens d off last).
Notation al := (coef off sc).
Notation sl := (slot lens d off last).

Hypothesis Hok : phys_ok dz ph.
Hypothesis Hd : (d < length lens)%nat.
Hypothesis Hf : 1 <= first.
Hypothesis Hfl : first <= last.
Hypothesis Hl : last + 2 <= nth d lens 0.
Hypothesis Hsc : last - off <= zlen sc.

(* the weight factor: 1 without weights *)
Definition ew (idx : list Z) : R := if is_weighted dz ph then tw idx else 1%R.
Definition hq (idx : list Z) (c : Z) : R :=
  if is_weighted dz ph then (pcoord dz ph idx c * pweight dz ph idx)%R else pcoord dz ph idx c.
Definition fin (idx : list Z) (y : R) : R := if is_weighted dz ph then ndiv (n := F) y (tw idx) else y.

Hypothesis HW_end : forall idx, ins idx -> nth d idx 0 = off \/ nth d idx 0 = last + 1 -> tw idx = pweight dz ph idx.
Hypothesis HW_lo : forall idx, ins idx -> off < nth d idx 0 < fi ->
  tw idx = ndiv (n := F) (pweight dz ph idx - (1 - al (nth d idx 0%Z)) * tw (below d idx))%R (al (nth d idx 0)).
Hypothesis HW_hi : forall idx, ins idx -> fj < nth d idx 0 <= last ->
  tw idx = ndiv (n := F) (pweight dz ph idx - (1 - (1 - al (nth d idx 0%Z))) * tw (above d idx))%R (1 - al (nth d idx 0%Z))%R.

Hypothesis HP_end : forall idx c, ins idx -> 0 <= c < ph_dim ph -> nth d idx 0 = off \/ nth d idx 0 = last + 1 ->
  tp idx c = fin idx (hq idx c).
Hypothesis HP_lo : forall idx c, ins idx -> 0 <= c < ph_dim ph -> off < nth d idx 0 < fi ->
  tp idx c = fin idx (ndiv (n := F) (hq idx c - (1 - al (nth d idx 0%Z)) * tp (below d idx) c * ew (below d idx))%R (al (nth d idx 0))).
Hypothesis HP_hi : forall idx c, ins idx -> 0 <= c < ph_dim ph -> fj < nth d idx 0 <= last ->
  tp idx c = fin idx (ndiv (n := F) (hq idx c - (1 - (1 - al (nth d idx 0%Z))) * tp (above d idx) c * ew (above d idx))%R
                                    (1 - al (nth d idx 0%Z))%R).

Lemma half : fi - first = (last - first + 1) / 2 /\ first <= fi <= last /\ first - 1 <= fj <= last /\
  (fi = fj \/ fi = fj + 1).
Proof.
  unfold fi, fj. pose proof (Z.div_mod (last - first + 1) 2 ltac:(lia)). pose proof (Z.mod_pos_bound (last - first + 1) 2 ltac:(lia)). lia.
Qed.

Lemma lines_facts : 1 <= lines /\ total lens = nth d lens 0 * lines /\ num_control_points ph = Ok (total lens) /\
  idiv (total lens) (nth d lens 0) = Ok lines.
Proof.
  destruct Hok as (Hp & Hdim & Hc & _). pose proof (pos_lens_nth _ d Hp Hd) as Hn.
  pose proof (total_remove_at lens d Hd) as HT. pose proof (total_pos _ Hp).
  split; [nia|]. split; [now rewrite HT|]. split.
  - unfold num_control_points, idiv. destruct (Z.eqb_spec (ph_dim ph) 0); [lia|]. f_equal. rnorm. rewrite Hc, Z.mul_comm. apply Z.quot_mul. lia.
  - unfold idiv. destruct (Z.eqb_spec (nth d lens 0) 0); [lia|]. f_equal. rewrite <- HT, Z.mul_comm. apply Z.quot_mul. lia.
Qed.

Lemma ins_len idx : in_box lens idx -> (d < length idx)%nat.
Proof. intros H. now rewrite (in_box_length _ _ H). Qed.

Lemma at_box idx : in_box lens idx -> sized dz ph (total lens) /\ 0 <= get1d lens idx < total lens.
Proof. intros H. split; [apply Hok | now apply get1d_range]. Qed.

Definition lenw (tmp : list R) : Prop := zlen tmp = lines * (last - off + 2).
Definition Kw (idx : list Z) (tmp : list R) : Prop := nth (Z.to_nat (sl idx)) tmp 0%R = tw idx.

Lemma set_temp_weight_ok idx tmp a shift : ins idx -> lenw tmp -> 0 <= sl idx + shift < lines * (last - off + 2) ->
  set_temp_weight (F := F) ph (mkMih lens idx) tmp a (nth d idx 0) off last d shift =
  Ok (upd tmp (Z.to_nat (sl idx)) (ndiv (n := F) (pweight dz ph idx - (1 - a) * nth (Z.to_nat (sl idx + shift)) tmp 0)%R a)).
Proof.
  intros [Hb Hx] Hlen Hs. unfold set_temp_weight. cbn [mcur].
  destruct (at_box idx Hb) as [A1 A2]. rewrite (get_weight_at dz ph (total lens)) by auto. cbn [bind].
  rewrite line_extract by auto. fold (sl idx).
  change (line lens d idx * (last - off + 2) + nth d idx 0 - off + shift) with (sl idx + shift).
  rnorm. unfold lenw in Hlen. rewrite (vget_nth tmp _ 0%R) by lia. cbn [bind].
  rewrite vset_ok; [reflexivity|]. rewrite Hlen. apply slot_range; auto.
Qed.

Lemma upd_sets idx tmp v : ins idx -> lenw tmp -> v = tw idx ->
  sets lens d off last Kw lenw idx tmp (upd tmp (Z.to_nat (sl idx)) v).
Proof.
  intros [Hb Hx] Hlen ->. pose proof (slot_range lens d off last idx Hb Hx) as Hr. unfold lenw in Hlen. split; [|split].
  - unfold lenw. now rewrite zlen_upd.
  - unfold Kw. apply nth_upd_same. unfold zlen in Hlen. lia.
  - intros idx' [Hb' Hx'] Hne H. unfold Kw in *. pose proof (slot_range lens d off last idx' Hb' Hx').
    rewrite nth_upd_other; auto. intros E. apply Hne. apply (slot_inj lens d off last); auto. lia.
Qed.

Lemma below_ins idx : in_box lens idx -> off < nth d idx 0 <= last + 1 -> ins (below d idx).
Proof.
  intros Hb Hx. pose proof (in_box_nth _ _ d Hb Hd). split; unfold below.
  - apply in_box_move; auto. lia.
  - rewrite nth_upd_same by (now apply ins_len). lia.
Qed.
Lemma above_ins idx : in_box lens idx -> off <= nth d idx 0 < last + 1 -> ins (above d idx).
Proof.
  intros Hb Hx. pose proof (in_box_nth _ _ d Hb Hd). split; unfold above.
  - apply in_box_move; auto. lia.
  - rewrite nth_upd_same by (now apply ins_len). lia.
Qed.

Lemma temp_weights_ok : exists tmp, temp_new_weights (F := F) ph sc off last first last d = Ok tmp /\ lenw tmp /\
  forall idx, ins idx -> nth d idx 0 < fi \/ fj < nth d idx 0 -> Kw idx tmp.
Proof.
  destruct lines_facts as (L1 & L2 & L3 & L4). pose proof half as (F1 & F2 & F3 & F4).
  destruct Hok as (Hp & _).
  unfold temp_new_weights. rewrite L3. cbn [bind]. rewrite (dget_nth _ d 0) by auto. cbn [bind]. rewrite L4. cbn [bind].
  unfold vmake. destruct (Z.ltb_spec (lines * (last - off + 2)) 0); [nia|]. cbn [bind].
  match goal with |- context [temp_ends _ _ _ _ ?put ?tmp0] =>
    destruct (temp_ends_ok dz lens d off last put Kw lenw Hp Hd ltac:(lia)) with (tmp := tmp0) as (t1 & E1 & G1 & K1) end.
  - intros idx tmp Hi He Hg. cbn beta. eexists. split.
    + apply (set_temp_weight_ok idx tmp 1%R 0); auto. rewrite Z.add_0_r. destruct Hi. apply slot_range; auto.
    + apply upd_sets; auto. rewrite ndiv_1, HW_end by auto. ring.
  - unfold lenw, zlen. rewrite repeat_length. lia.
  - rnorm. rewrite E1. cbn [bind].
    match goal with |- context [temp_inner _ _ _ _ _ ?put _ _ _] =>
      destruct (temp_inner_ok dz lens d off last sc put Kw lenw Hp Hd ltac:(lia) Hl fi fj) with
        (fuel := Z.to_nat (last - first)) (i := first) (j := last) (tmp := t1) as (t2 & E2 & G2 & K2) end; auto; try lia.
    + intros idx tmp Hi Hx Hg HK. cbn beta. destruct Hi as [Hb Hx'].
      pose proof (below_ins idx Hb ltac:(lia)) as [Hb2 Hx2]. pose proof (slot_range lens d off last _ Hb2 Hx2) as Hr.
      rewrite slot_below in Hr by (now apply ins_len).
      eexists. split; [apply (set_temp_weight_ok idx tmp); auto; first [lia | split; auto]|].
      apply upd_sets; auto; [split; auto|].
      unfold Kw in HK. rewrite slot_below in HK by (now apply ins_len).
      replace (sl idx + -1) with (sl idx - 1) by lia. rewrite HK. symmetry. apply HW_lo; [split; auto | auto].
    + intros idx tmp Hi Hx Hg HK. cbn beta. destruct Hi as [Hb Hx'].
      pose proof (above_ins idx Hb ltac:(lia)) as [Hb2 Hx2]. pose proof (slot_range lens d off last _ Hb2 Hx2) as Hr.
      rewrite slot_above in Hr by (now apply ins_len).
      eexists. split; [apply (set_temp_weight_ok idx tmp); auto; first [lia | split; auto]|].
      apply upd_sets; auto; [split; auto|].
      unfold Kw in HK. rewrite slot_above in HK by (now apply ins_len).
      rewrite HK. symmetry. apply HW_hi; [split; auto | auto].
    + intros idx Hi Hx. apply K1; auto. destruct Hi as [_ Hx']. lia.
    + exists t2. split; [exact E2|]. auto.
Qed.

(* ---- points ---- *)
Definition lenp (tmp : list R) : Prop := zlen tmp = lines * ph_dim ph * (last - off + 2).
Definition Kp (idx : list Z) (tmp : list R) : Prop :=
  forall c, 0 <= c < ph_dim ph -> nth (Z.to_nat (sl idx * ph_dim ph + c)) tmp 0%R = tp idx c.

Lemma get_cp_comp idx c : in_box lens idx -> 0 <= c < ph_dim ph ->
  exists l, get_control_point ph idx = Ok l /\ vget l c = Ok (pcoord dz ph idx c).
Proof.
  intros Hb Hc. destruct (at_box idx Hb) as [A1 A2]. eexists. split; [apply (get_cp_at dz ph (total lens)); auto|].
  rewrite (vget_nth _ _ 0%R) by (unfold zlen; rewrite map_length, zseq_length; lia). f_equal.
  rewrite (nth_map_in _ _ _ 0) by (rewrite zseq_length; lia). rewrite zseq_nth by lia. unfold pcoord. f_equal. lia.
Qed.

Lemma get_hom_comp idx c : in_box lens idx -> 0 <= c < ph_dim ph -> is_weighted dz ph = true ->
  exists l, get_homogeneous ph idx = Ok l /\ vget l c = Ok (pcoord dz ph idx c * pweight dz ph idx)%R.
Proof.
  intros Hb Hc Hw. destruct (at_box idx Hb) as [A1 A2]. eexists. split; [apply (get_hom_at dz ph (total lens)); auto|].
  rewrite (vget_nth _ _ 0%R) by (unfold zlen; rewrite app_length, map_length, zseq_length; cbn [length]; lia). f_equal.
  rewrite zseq_map_nth by lia. reflexivity.
Qed.

Variable tempw : list R.
Hypothesis Htw : is_weighted dz ph = true ->
  lenw tempw /\ forall idx, ins idx -> nth d idx 0 < fi \/ fj < nth d idx 0 -> Kw idx tempw.

Lemma set_temp_point_ok idx tmp a shift (src : list Z) : ins idx -> lenp tmp -> ins src ->
  sl src = sl idx + shift -> (nth d idx 0 < fi \/ fj < nth d idx 0) -> (nth d src 0 < fi \/ fj < nth d src 0) ->
  (shift = 0 -> a = 1%R) ->
  (shift <> 0 -> forall c, 0 <= c < ph_dim ph -> nth (Z.to_nat (sl src * ph_dim ph + c)) tmp 0%R = tp src c) ->
  (forall c, 0 <= c < ph_dim ph -> tp idx c = fin idx (ndiv (n := F) (hq idx c - (1 - a) * tp src c * ew src)%R a)) ->
  exists tmp', set_temp_point (F := F) ph tempw (mkMih lens idx) tmp a (nth d idx 0) off last d shift = Ok tmp' /\
    sets lens d off last Kp lenp idx tmp tmp'.
Proof.
  intros [Hb Hx] Hlen [Hbs Hxs] Es Hki Hks H0 Hsrc Hval. unfold set_temp_point. cbn [mcur].
  rewrite line_extract by auto.
  change (line lens d idx * (last - off + 2) + nth d idx 0 - off) with (sl idx).
  rewrite <- Es.
  pose proof (slot_range lens d off last idx Hb Hx) as R1. pose proof (slot_range lens d off last src Hbs Hxs) as R2.
  destruct Hok as (_ & Hdim & _).
  assert (Hlen' : zlen tmp = lines * (last - off + 2) * ph_dim ph) by (unfold lenp in Hlen; rewrite Hlen; ring).
  match goal with |- context [foldM ?b (zseq 0 ?nn) tmp] =>
    destruct (vset_block_gen tmp (sl idx * ph_dim ph) nn b (tp idx)) as (t' & E & HL & V1 & V2) end.
  - nia.
  - rewrite Z2Nat.id by lia. rewrite Hlen'. nia.
  - rewrite Z2Nat.id by lia. intros t0 c Hc HL0 Hout.
    assert (Z0 : zlen t0 = lines * (last - off + 2) * ph_dim ph) by (unfold zlen in *; congruence).
    assert (Hread : vget t0 (sl src * ph_dim ph + c) = Ok (nth (Z.to_nat (sl src * ph_dim ph + c)) t0 0%R)).
    { apply vget_nth. rewrite Z0. nia. }
    assert (Hmul : ((1 - a) * nth (Z.to_nat (sl src * ph_dim ph + c)) t0 0 = (1 - a) * tp src c)%R).
    { destruct (Z.eq_dec shift 0) as [E0|E0]; [rewrite H0 by auto; ring|]. f_equal.
      rewrite Hout by nia. now apply Hsrc. }
    specialize (Hval c Hc). unfold fin, hq, ew, is_weighted in Hval.
    destruct (ph_wts ph) as [w|] eqn:Ew.
    + assert (Hw : is_weighted dz ph = true) by (unfold is_weighted; now rewrite Ew).
      destruct (get_hom_comp idx c Hb Hc Hw) as (l1 & G1 & G2). rewrite G1. cbn [bind]. rnorm. rewrite G2. cbn [bind].
      rewrite Hread. cbn [bind]. destruct (Htw Hw) as [LW KW]. unfold lenw in LW.
      rewrite (vget_nth tempw (sl src) 0%R) by lia. cbn [bind].
      rewrite (vget_nth tempw (sl idx) 0%R) by lia. cbn [bind].
      assert (KI : nth (Z.to_nat (sl idx)) tempw 0%R = tw idx) by (apply (KW idx); auto; split; auto).
      assert (KS : nth (Z.to_nat (sl src)) tempw 0%R = tw src) by (apply (KW src); auto; split; auto).
      rewrite KI, KS. f_equal. rewrite Hmul, Hval. reflexivity.
    + destruct (get_cp_comp idx c Hb Hc) as (l1 & G1 & G2). rewrite G1. cbn [bind]. rnorm. rewrite G2. cbn [bind].
      rewrite Hread. cbn [bind]. f_equal. rewrite Hmul, Hval. f_equal. ring.
  - exists t'. split; [exact E|]. split; [|split].
    + unfold lenp, zlen in *. now rewrite HL.
    + intros c Hc. apply V1. lia.
    + intros idx' [Hb' Hx'] Hne HK c Hc. pose proof (slot_range lens d off last idx' Hb' Hx').
      assert (sl idx' <> sl idx) by (intros E'; apply Hne; apply (slot_inj lens d off last); auto).
      rewrite V2 by nia. now apply HK.
Qed.

Lemma temp_points_ok : exists tmp, temp_new_points (F := F) ph tempw sc off last first last d = Ok tmp /\ lenp tmp /\
  forall idx, ins idx -> nth d idx 0 < fi \/ fj < nth d idx 0 -> Kp idx tmp.
Proof.
  destruct lines_facts as (L1 & L2 & L3 & L4). pose proof half as (F1 & F2 & F3 & F4).
  pose proof Hok as (Hp & Hdim & _).
  unfold temp_new_points. rewrite L3. cbn [bind]. rewrite (dget_nth _ d 0) by auto. cbn [bind]. rewrite L4. cbn [bind].
  unfold vmake. destruct (Z.ltb_spec (lines * ph_dim ph * (last - off + 2)) 0); [nia|]. cbn [bind].
  match goal with |- context [temp_ends _ _ _ _ ?put ?tmp0] =>
    destruct (temp_ends_ok dz lens d off last put Kp lenp Hp Hd ltac:(lia)) with (tmp := tmp0) as (t1 & E1 & G1 & K1) end.
  - intros idx tmp Hi He Hg. cbn beta. apply (set_temp_point_ok idx tmp 1%R 0 idx); auto; try lia; try reflexivity.
    intros c Hc. rewrite HP_end by auto. rewrite ndiv_1. f_equal. ring.
  - unfold lenp, zlen. rewrite repeat_length. nia.
  - rnorm. rewrite E1. cbn [bind].
    match goal with |- context [temp_inner _ _ _ _ _ ?put _ _ _] =>
      destruct (temp_inner_ok dz lens d off last sc put Kp lenp Hp Hd ltac:(lia) Hl fi fj) with
        (fuel := Z.to_nat (last - first)) (i := first) (j := last) (tmp := t1) as (t2 & E2 & G2 & K2) end; auto; try lia.
    + intros idx tmp Hi Hx Hg HK. cbn beta. pose proof Hi as [Hb Hx'].
      apply (set_temp_point_ok idx tmp _ (-1) (below d idx)); auto; try lia.
      * apply below_ins; auto. lia.
      * rewrite slot_below by (now apply ins_len). lia.
      * unfold below. rewrite nth_upd_same by (now apply ins_len). lia.
    + intros idx tmp Hi Hx Hg HK. cbn beta. pose proof Hi as [Hb Hx'].
      apply (set_temp_point_ok idx tmp _ 1 (above d idx)); auto; try lia.
      * apply above_ins; auto. lia.
      * rewrite slot_above by (now apply ins_len). lia.
      * unfold above. rewrite nth_upd_same by (now apply ins_len). lia.
    + intros idx Hi Hx. apply K1; auto. destruct Hi as [_ Hx']. lia.
    + exists t2. split; [exact E2|]. auto.
Qed.
End Remove.
