(* RemoveControlPoints as a whole, over real arithmetic: what the new net holds. *)
From Coq Require Import ZArith List Bool Lia Reals Lra.
From Verif Require Import Base BaseFacts RSum MultiIndex MultiIndexSpec MultiIndexFacts TensorSum
  KnotVec VecUtils Spaces SplineEval SplineEdit SplineSpec EvalFacts PhysFacts AdjustFacts RemoveFacts RemoveCompact RemoveCheck.
Import ListNotations.
Open Scope Z_scope.

Section Points.
Variable dz : R -> R.
Local Notation F := (Rops dz).
Variables (ph : phys F) (d : nat) (first last : Z) (sc : list R).
Variable tw : list Z -> R.
Variable tp : list Z -> Z -> R.
Notation lens := (ph_npts ph).
Notation off := (first - 1).
Notation fi := (fi first last).
Notation fj := (fj first last).
Notation ins := (inslot lens d off last).
Notation al := (coef off sc).
Hypothesis Hok : phys_ok dz ph.
Hypothesis Hd : (d < length lens)%nat.
Hypothesis Hf : 1 <= first.
Hypothesis Hfl : first <= last.
Hypothesis Hl : last + 2 <= nth d lens 0.
Hypothesis Hsc : last - off <= zlen sc.

Hypothesis HW_end : is_weighted dz ph = true -> forall idx, ins idx -> nth d idx 0 = off \/ nth d idx 0 = last + 1 -> tw idx = pweight dz ph idx.
Hypothesis HW_lo : is_weighted dz ph = true -> forall idx, ins idx -> off < nth d idx 0 < fi ->
  tw idx = ndiv (n := F) (pweight dz ph idx - (1 - al (nth d idx 0%Z)) * tw (below d idx))%R (al (nth d idx 0)).
Hypothesis HW_hi : is_weighted dz ph = true -> forall idx, ins idx -> fj < nth d idx 0 <= last ->
  tw idx = ndiv (n := F) (pweight dz ph idx - (1 - (1 - al (nth d idx 0%Z))) * tw (above d idx))%R (1 - al (nth d idx 0%Z))%R.
Notation fin := (fin dz ph tw).
Notation hq := (hq dz ph).
Notation ew := (ew dz ph tw).
Hypothesis HP_end : forall idx c, ins idx -> 0 <= c < ph_dim ph -> nth d idx 0 = off \/ nth d idx 0 = last + 1 ->
  tp idx c = fin idx (hq idx c).
Hypothesis HP_lo : forall idx c, ins idx -> 0 <= c < ph_dim ph -> off < nth d idx 0 < fi ->
  tp idx c = fin idx (ndiv (n := F) (hq idx c - (1 - al (nth d idx 0%Z)) * tp (below d idx) c * ew (below d idx))%R (al (nth d idx 0))).
Hypothesis HP_hi : forall idx c, ins idx -> 0 <= c < ph_dim ph -> fj < nth d idx 0 <= last ->
  tp idx c = fin idx (ndiv (n := F) (hq idx c - (1 - (1 - al (nth d idx 0%Z))) * tp (above d idx) c * ew (above d idx))%R
                                    (1 - al (nth d idx 0%Z))%R).

Lemma remove_points_exact tol : exists r, remove_points (F := F) ph sc first last d tol = Ok r /\
  (forall ph4, r = Some ph4 ->
    phys_ok dz ph4 /\ ph_dim ph4 = ph_dim ph /\ ph_npts ph4 = short lens d /\ is_weighted dz ph4 = is_weighted dz ph /\
    (forall idx c, in_box (short lens d) idx -> 0 <= c < ph_dim ph ->
       pcoord dz ph4 idx c = keepP dz ph d first last tp (source d fi idx) c) /\
    (is_weighted dz ph = true -> forall idx, in_box (short lens d) idx ->
       pweight dz ph4 idx = keepW dz ph d first last tw (source d fi idx))) /\
  exists tol', effective dz ph tol tol' /\
    (r <> None <-> forall cur, in_box (upd lens d 1) cur -> accepts dz ph d first last sc tw tp tol' cur).
Proof.
  pose proof (half_range first last Hfl) as (F2 & F3 & F4). pose proof Hok as (Hp & Hdim & Hc & Hwt).
  assert (TW : exists tmpw, match ph_wts ph with None => Ok [] | Some _ => temp_new_weights (F := F) ph sc off last first last d end = Ok tmpw /\
     (is_weighted dz ph = true -> lenw dz ph d first last tmpw /\
        forall idx, ins idx -> nth d idx 0 < fi \/ fj < nth d idx 0 -> Kw dz ph d first last tw idx tmpw)).
  { unfold is_weighted in *. destruct (ph_wts ph) as [w|] eqn:Ew; [|exists []; split; [auto|discriminate]].
    destruct (temp_weights_ok dz ph d first last sc tw) as (tmp & E & L & K); auto. exists tmp. auto. }
  destruct TW as (tmpw & EW & HKw).
  destruct (temp_points_ok dz ph d first last sc tw tp Hok Hd Hf Hfl Hl Hsc HP_end HP_lo HP_hi tmpw HKw) as (tmp & EP & LP & KP).
  unfold remove_points. rewrite EW. cbn [bind]. rewrite EP. cbn [bind].
  change (first + (last - first + 1) / 2) with fi. change (last - (last - first + 1) / 2) with fj.
  rnorm. rewrite (vget_nth sc _ 0%R) by lia. cbn [bind]. change (nth (Z.to_nat (fi - off - 1)) sc 0%R) with (al fi).
  destruct (removable_ok dz ph d first last sc tw tp Hok Hd Hf Hfl Hl tmp tmpw LP KP HKw tol) as (b & tol' & EB & HE & HB).
  rewrite EB. cbn [bind]. destruct b.
  2:{ exists None. split; [reflexivity|]. split; [discriminate|]. exists tol'. split; [exact HE|]. rewrite <- HB. split; congruence. }
  assert (Kne : forall idx, ins idx -> nth d idx 0 <> fi -> nth d idx 0 < fi \/ fj < nth d idx 0) by (intros; lia).
  destruct (set_new_points_ok dz ph d first last fi tp Hok Hd Hf F2 Hl tmp LP) as (ph1 & E1 & S1 & W1 & V1).
  { intros idx Hin Hne. apply KP; auto. }
  rewrite E1. cbn [bind].
  assert (TW2 : exists ph2, match ph_wts ph with None => Ok ph1 | Some _ => set_new_weights (F := F) ph1 tmpw last (fi - off) off d end = Ok ph2 /\
     same_frame dz ph ph2 /\ ph_cps ph2 = ph_cps ph1 /\ is_weighted dz ph2 = is_weighted dz ph /\
     (is_weighted dz ph = true -> forall idx, in_box (short lens d) idx -> wat dz ph2 (get1d (short lens d) idx) = keepW dz ph d first last tw (source d fi idx))).
  { destruct (ph_wts ph) as [w|] eqn:Ew.
    - assert (Hw : is_weighted dz ph = true) by (unfold is_weighted; now rewrite Ew). destruct (HKw Hw) as [LW KW].
      rewrite <- Ew in W1.
      destruct (set_new_weights_ok dz ph d first last fi tw Hok Hd Hf F2 Hl ph1 tmpw S1 W1 Hw LW) as (st & G1 & G2 & G3 & G4 & G5); auto.
      exists st. rewrite Hw, G4. auto.
    - assert (Hw : is_weighted dz ph = false) by (unfold is_weighted; now rewrite Ew).
      exists ph1. split; auto. split; auto. split; auto. split; [unfold is_weighted; now rewrite W1, Ew | rewrite Hw; discriminate]. }
  destruct TW2 as (ph2 & E2 & S2 & C2 & I2 & V2).
  match goal with |- context [bind ?m _] => replace m with (Ok ph2) by (symmetry; exact E2) end. cbn [bind].
  destruct S2 as (Z2 & D2 & N2).
  assert (Hok2 : phys_ok dz ph2) by (split; [now rewrite N2 | rewrite N2; exact Z2]).
  assert (Hd2 : (d < length (ph_npts ph2))%nat) by now rewrite N2.
  destruct (lines_facts dz ph2 d first last Hok2 Hd2 Hf Hfl ltac:(now rewrite N2)) as (L1 & L2 & L3 & L4).
  rewrite L3. cbn [bind]. rewrite (dget_nth _ d 0) by auto. cbn [bind]. rewrite L4. cbn [bind]. rewrite N2.
  destruct (cut_ok dz ph d first last fi Hok Hd Hf F2 Hl ph2 (conj Z2 (conj D2 N2))) as (ph3 & E3 & O4 & D4 & N4 & N3 & I4 & P4 & Q4).
  rewrite E3. cbn [bind]. rewrite N3. eexists. split; [reflexivity|]. split; [|exists tol'; split; [exact HE|]; rewrite <- HB; split; congruence].
  intros ph4 Heq. injection Heq as <-. fold (short lens d).
  split; [exact O4|]. split; [exact D4|]. split; [exact N4|]. split; [now rewrite I4|]. split.
  - intros idx c Hb Hcc. rewrite P4 by auto. rewrite <- V1 by auto. unfold cpat. now rewrite C2, D2, (proj1 (proj2 S1)).
  - intros Hw idx Hb. rewrite Q4 by auto. now apply V2.
Qed.
Lemma remove_points_ok tol : exists r, remove_points (F := F) ph sc first last d tol = Ok r /\
  (forall ph4, r = Some ph4 ->
    phys_ok dz ph4 /\ ph_dim ph4 = ph_dim ph /\ ph_npts ph4 = short lens d /\ is_weighted dz ph4 = is_weighted dz ph /\
    (forall idx c, in_box (short lens d) idx -> 0 <= c < ph_dim ph ->
       pcoord dz ph4 idx c = keepP dz ph d first last tp (source d fi idx) c) /\
    (is_weighted dz ph = true -> forall idx, in_box (short lens d) idx ->
       pweight dz ph4 idx = keepW dz ph d first last tw (source d fi idx))) /\
  ((0 <= tol)%R -> (is_weighted dz ph = true -> forall idx, in_box lens idx -> (0 < pweight dz ph idx)%R) ->
   (forall cur, in_box (upd lens d 1) cur -> passes dz ph d first last sc tw tp cur) -> r <> None).
Proof.
  destruct (remove_points_exact tol) as (r & E & H & tol' & HE & HB). exists r. split; [exact E|]. split; [exact H|].
  intros Ht Hpos HP. apply HB. intros cur Hb. apply passes_accepts; auto. exact (effective_nonneg dz ph _ _ HE Ht Hpos).
Qed.
End Points.
