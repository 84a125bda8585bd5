(* IsKnotRemovable over real arithmetic, and the whole of RemoveControlPoints. *)
From Coq Require Import ZArith List Bool Lia Reals Lra.
From Verif Require Import Base BaseFacts RSum MultiIndex MultiIndexSpec MultiIndexFacts TensorSum
  KnotVec VecUtils Spaces SplineEval SplineEdit SplineSpec DegreeSpec EvalFacts PhysFacts AdjustFacts RemoveFacts RemoveCompact.
Import ListNotations.
Open Scope Z_scope.

Section Dist.
Variable dz : R -> R.
Local Notation F := (Rops dz).

Lemma transform_into_ok op (a b : list R) : length a = length b -> transform_into (F := F) op a b = Ok (map2 op a b).
Proof.
  revert b; induction a as [|x a IH]; intros [|y b] H; try discriminate; cbn; auto.
  rewrite IH by (cbn in H; lia). reflexivity.
Qed.

Lemma sum_fold (l : list R) acc : fold_left Rplus l acc = (acc + lsum (fun x => x) l)%R.
Proof. revert acc; induction l as [|x l IH]; intros acc; cbn [fold_left lsum]; [lra|]. rewrite IH. lra. Qed.

Lemma distance_euclid (a b : list R) : length a = length b -> distance (F := F) a b = Ok (euclid a b).
Proof.
  intros H. unfold distance, difference. rewrite transform_into_ok by auto. cbn [bind]. f_equal.
  unfold two_norm, sum_of, euclid. rnorm. rewrite sum_fold, Rplus_0_l.
  assert (E : lsum (fun x => x) (map (fun x => x * x)%R (map2 Rminus a b)) =
              lsum (fun xy => (fst xy - snd xy) * (fst xy - snd xy))%R (combine a b)).
  { clear H. revert b; induction a as [|x a IH]; intros [|y b]; cbn; auto. now rewrite IH. }
  match goal with |- nsqrt ?x = _ => change (nsqrt (n := F) x = R_sqrt.sqrt (lsum (fun xy => (fst xy - snd xy) * (fst xy - snd xy))%R (combine a b))) end.
  rewrite <- E. match goal with |- nsqrt ?x = _ => set (y := x) in * end.
  assert (Hy : (0 <= y)%R).
  { rewrite E. apply lsum_nonneg. intros xy _. apply Rle_0_sqr. }
  cbn. destruct (Rlt_dec y 0); [lra | reflexivity].
Qed.

Lemma euclid_nonneg (a b : list R) : (0 <= euclid a b)%R.
Proof. apply R_sqrt.sqrt_pos. Qed.
Lemma euclid_same (a : list R) : euclid a a = 0%R.
Proof.
  unfold euclid. replace (lsum _ (combine a a)) with 0%R; [apply R_sqrt.sqrt_0|].
  induction a as [|x a IH]; cbn; auto. rewrite <- IH. ring.
Qed.

(* the largest distance of a control point from the origin and the smallest weight *)
Definition radius (ph : phys F) (idx : list Z) : R :=
  euclid (repeat 0%R (Z.to_nat (ph_dim ph))) (map (pcoord dz ph idx) (zseq 0 (Z.to_nat (ph_dim ph)))).
Definition largest_radius (ph : phys F) (m : R) : Prop :=
  (exists idx, in_box (ph_npts ph) idx /\ m = radius ph idx) /\ forall idx, in_box (ph_npts ph) idx -> (radius ph idx <= m)%R.
Definition smallest_weight (ph : phys F) (m : R) : Prop :=
  (exists idx, in_box (ph_npts ph) idx /\ m = pweight dz ph idx) /\ forall idx, in_box (ph_npts ph) idx -> (m <= pweight dz ph idx)%R.

Lemma max_distance_ok (ph : phys F) : phys_ok dz ph -> exists m, max_distance ph = Ok m /\ largest_radius ph m.
Proof.
  intros (Hp & Hdim & Hc & _). unfold max_distance.
  assert (EN : num_control_points ph = Ok (total (ph_npts ph))).
  { unfold num_control_points, idiv. destruct (Z.eqb_spec (ph_dim ph) 0); [lia|]. f_equal. rnorm. rewrite Hc, Z.mul_comm. apply Z.quot_mul. lia. }
  rewrite EN. cbn [bind]. unfold for_up. rewrite for_n_foldM.
  set (rad := fun i => euclid (repeat 0%R (Z.to_nat (ph_dim ph))) (map (fun c => cpat dz ph i c) (zseq 0 (Z.to_nat (ph_dim ph))))).
  assert (Hrad : forall idx, radius ph idx = rad (get1d (ph_npts ph) idx)) by reflexivity.
  assert (G : forall l m0, (forall i, In i l -> 0 <= i < total (ph_npts ph)) ->
    exists m, foldM (fun (m : R) i =>
      pt <- mapM (fun j => vget (ph_cps ph) (i * ph_dim ph + j)) (zseq 0 (Z.to_nat (ph_dim ph))) ;;
      dist <- distance (F := F) (repeat (n0 (n := F)) (Z.to_nat (ph_dim ph))) pt ;;
      Ok (if nltb (n := F) m dist then dist else m)) l m0 = Ok m /\ (m0 <= m)%R /\ (forall i, In i l -> (rad i <= m)%R) /\
      (m = m0 \/ exists i, In i l /\ m = rad i)).
  { induction l as [|i l IH]; intros m0 Hi; cbn [foldM].
    - exists m0. split; [reflexivity|]. split; [lra|]. split; [intros i []|]. now left.
    - rewrite (mapM_ok _ (fun c => cpat dz ph i c)).
      2:{ intros c Hcc. apply zseq_In in Hcc. specialize (Hi i (or_introl eq_refl)). unfold cpat.
          rnorm. rewrite (vget_nth _ _ 0%R) by (rnorm; rewrite Hc; nia). do 2 f_equal. lia. }
      cbn [bind]. rewrite distance_euclid by (now rewrite repeat_length, map_length, zseq_length). cbn [bind].
      change (euclid (repeat (n0 (n := F)) (Z.to_nat (ph_dim ph))) (map (fun c : Z => cpat dz ph i c) (zseq 0 (Z.to_nat (ph_dim ph))))) with (rad i).
      change (nltb (n := F) m0 (rad i)) with (Rltb m0 (rad i)).
      destruct (IH (if Rltb m0 (rad i) then rad i else m0)) as (m & E & M1 & M2 & M3); [intros; apply Hi; now right|].
      exists m. split; [exact E|]. destruct (Rltb_spec m0 (rad i)) as [C|C]; (split; [lra|]; split;
        [intros i' [<-|Hi']; [lra | auto]|]).
      + right. destruct M3 as [->|(i' & Hi' & ->)]; [exists i; split; [now left | auto] | exists i'; split; [now right | auto]].
      + destruct M3 as [->|(i' & Hi' & ->)]; [now left | right; exists i'; split; [now right | auto]]. }
  pose proof (total_pos _ Hp) as HT.
  destruct (G (zseq 0 (Z.to_nat (total (ph_npts ph) - 0))) 0%R) as (m & E & M1 & M2 & M3).
  { intros i Hi. apply zseq_In in Hi. lia. }
  exists m. split; [exact E|]. split.
  - assert (M : exists i, In i (zseq 0 (Z.to_nat (total (ph_npts ph) - 0))) /\ m = rad i).
    { destruct M3 as [->|M3]; [|exact M3]. exists 0. assert (H0 : In 0 (zseq 0 (Z.to_nat (total (ph_npts ph) - 0)))) by (apply zseq_In; lia).
      split; [exact H0|]. specialize (M2 0 H0). pose proof (euclid_nonneg (repeat 0%R (Z.to_nat (ph_dim ph))) (map (fun c => cpat dz ph 0 c) (zseq 0 (Z.to_nat (ph_dim ph))))).
      fold (rad 0) in H. lra. }
    destruct M as (i & Hi & ->). apply zseq_In in Hi. destruct (get1d_surj (ph_npts ph) i Hp ltac:(lia)) as (idx & Hb & <-).
    exists idx. split; [exact Hb | reflexivity].
  - intros idx Hb. rewrite Hrad. apply M2. apply zseq_In. pose proof (get1d_range _ _ Hb). lia.
Qed.

Lemma radius_nonneg (ph : phys F) m : largest_radius ph m -> (0 <= m)%R.
Proof. intros [(idx & _ & ->) _]. apply euclid_nonneg. Qed.

Lemma min_weight_ok (ph : phys F) : phys_ok dz ph -> is_weighted dz ph = true ->
  exists m, min_weight ph = Ok m /\ smallest_weight ph m.
Proof.
  intros (Hp & Hdim & Hc & Hw) Hwt. unfold min_weight, is_weighted in *. destruct (ph_wts ph) as [w|] eqn:Ew; [|discriminate].
  specialize (Hw w eq_refl). pose proof (total_pos _ Hp). rnorm. rewrite (vget_nth w 0 0%R) by lia. cbn [bind].
  eexists. split; [reflexivity|].
  assert (G : forall l m0, let m := fold_left (fun m x => if Rltb x m then x else m) l m0 in
            (m <= m0)%R /\ (forall x, In x l -> (m <= x)%R) /\ (m = m0 \/ In m l)).
  { induction l as [|x l IH]; intros m0; cbn [fold_left]; cbv zeta; [split; [lra|]; split; [intros x [] | now left]|].
    specialize (IH (if Rltb x m0 then x else m0)). cbv zeta in IH. destruct IH as (I1 & I2 & I3).
    destruct (Rltb_spec x m0) as [C|C].
    - split; [lra|]. split; [intros y [<-|Hy]; auto|]. right. destruct I3 as [->|I3]; [now left | now right].
    - split; [lra|]. split; [intros y [<-|Hy]; [lra | auto]|]. destruct I3 as [->|I3]; [now left | right; now right]. }
  specialize (G w (nth (Z.to_nat 0) w 0%R)). cbv zeta in G.
  change (fold_left (fun m x : F => if nltb (n := F) x m then x else m) w (nth (Z.to_nat 0) w 0%R))
    with (fold_left (fun m x => if Rltb x m then x else m) w (nth (Z.to_nat 0) w 0%R)).
  destruct G as (G1 & G2 & G3). set (m := fold_left _ _ _) in *.
  assert (HIn : In m w) by (destruct G3 as [->|G3]; [apply nth_In; unfold zlen in Hw; lia | exact G3]).
  split.
  - apply (In_nth _ _ 0%R) in HIn as (k & Hk & <-).
    destruct (get1d_surj (ph_npts ph) (Z.of_nat k) Hp) as (idx & Hb & Eq); [zl|].
    exists idx. split; [exact Hb|]. unfold pweight, wat. now rewrite Ew, Eq, Nat2Z.id.
  - intros idx Hb. unfold pweight, wat. rewrite Ew. apply G2. apply nth_In. pose proof (get1d_range _ _ Hb). zl.
Qed.

(* the tolerance in effect *)
Definition effective (ph : phys F) (tol tol' : R) : Prop :=
  if is_weighted dz ph
  then exists mw m, smallest_weight ph mw /\ largest_radius ph m /\ tol' = (tol * mw / (1 + m))%R
  else tol' = tol.

Lemma effective_nonneg (ph : phys F) tol tol' : effective ph tol tol' -> (0 <= tol)%R ->
  (is_weighted dz ph = true -> forall idx, in_box (ph_npts ph) idx -> (0 < pweight dz ph idx)%R) -> (0 <= tol')%R.
Proof.
  unfold effective. destruct (is_weighted dz ph); [|intros ->; auto].
  intros (mw & m & ([idx [Hb ->]] & _) & Hm & ->) Ht Hpos. apply radius_nonneg in Hm. specialize (Hpos eq_refl idx Hb).
  apply Rmult_le_pos; [nra|]. left. apply Rinv_0_lt_compat. lra.
Qed.
End Dist.

(* ---- the loop over the lines ---- *)
Lemma incr_zero lens d cur : in_box (upd lens d 1) cur -> incr (upd lens d 0) cur = incr (upd lens d 1) cur.
Proof.
  unfold in_box. revert d cur; induction lens as [|l lens IH]; intros [|d] cur H; cbn [upd] in *; auto.
  - inversion H; subst. cbn [incr]. assert (y = 0) by lia. subst. cbn. reflexivity.
  - inversion H; subst. cbn [incr]. destruct ((y =? l - 1) || (l =? 0)); auto. now rewrite IH.
Qed.

Lemma line_one lens d cur : in_box (upd lens d 1) cur -> (d < length lens)%nat -> get1d (upd lens d 1) cur = line lens d cur.
Proof.
  unfold in_box, line. revert d cur; induction lens as [|l lens IH]; intros [|d] cur H Hd; cbn [upd length remove_at] in *; try lia.
  - inversion H; subst. cbn [remove_at]. rewrite get1d_cons. lia.
  - inversion H; subst. cbn [remove_at]. rewrite !get1d_cons. rewrite IH by (auto; lia). reflexivity.
Qed.

Lemma origin_zero lens d : map (fun _ : Z => 0) (upd lens d 0) = map (fun _ : Z => 0) (upd lens d 1).
Proof. revert d; induction lens as [|l lens IH]; intros [|d]; cbn; auto. now rewrite IH. Qed.

Lemma lines_ok lens d (check : Z -> mih -> Res bool) (C : list Z -> Prop) : pos_lens lens -> (d < length lens)%nat ->
  (forall cur, in_box (upd lens d 1) cur -> exists b, check (line lens d cur) (mkMih (upd lens d 0) cur) = Ok b /\ (b = true <-> C cur)) ->
  exists b, lines_removable (Z.to_nat (total (remove_at d lens))) 0 (mih_new (upd lens d 0)) check = Ok b /\
    (b = true <-> forall cur, in_box (upd lens d 1) cur -> C cur).
Proof.
  intros Hp Hd Hc.
  assert (Hp1 : pos_lens (upd lens d 1)) by (apply pos_lens_upd; auto; lia).
  assert (HT : total (upd lens d 1) = total (remove_at d lens)) by (rewrite total_upd by auto; lia).
  assert (G : forall m k, Z.of_nat (k + m) = total (remove_at d lens) ->
     exists b, lines_removable m (Z.of_nat k) (mkMih (upd lens d 0) (nth_index (upd lens d 1) k)) check = Ok b /\
       (b = true <-> forall k', (k <= k' < k + m)%nat -> C (nth_index (upd lens d 1) k'))).
  { induction m as [|m IH]; intros k Hk; cbn [lines_removable].
    - exists true. split; auto. split; auto. intros _ k' Hk'. lia.
    - pose proof (nth_index_box (upd lens d 1) k Hp1) as Hb.
      destruct (Hc _ Hb) as (b & E & HC). rewrite <- line_one in E by auto. rewrite nth_index_get1d in E by (auto; lia).
      rewrite E. cbn [bind]. destruct b.
      + destruct (IH (S k) ltac:(lia)) as (b & E' & HC'). exists b. split.
        * rewrite <- E'. f_equal; [lia|]. unfold mih_incr. cbn [mlen mcur]. f_equal. rewrite nth_index_S. now apply incr_zero.
        * rewrite HC'. split; intros H k' Hk'; [|apply H; lia].
          destruct (Nat.eq_dec k' k) as [->|]; [now apply HC | apply H; lia].
      + exists false. split; auto. split; [discriminate|]. intros H. apply HC. apply H. lia. }
  destruct (G (Z.to_nat (total (remove_at d lens))) 0%nat) as (b & E & HC).
  { pose proof (total_pos _ Hp1). lia. }
  exists b. split.
  - rewrite <- E. f_equal. unfold mih_new. f_equal. apply origin_zero.
  - rewrite HC. split; intros H.
    + intros cur Hb. pose proof (get1d_range _ _ Hb) as Hr.
      assert (Ec : cur = nth_index (upd lens d 1) (Z.to_nat (get1d (upd lens d 1) cur))).
      { apply (get1d_inj (upd lens d 1)); auto; [now apply nth_index_box|]. rewrite nth_index_get1d by (auto; lia). lia. }
      rewrite Ec. apply H. lia.
    + intros k' Hk'. apply H. now apply nth_index_box.
Qed.

Lemma half_range first last : first <= last -> first <= fi first last <= last /\ first - 1 <= fj first last <= last /\
  (fi first last = fj first last \/ fi first last = fj first last + 1).
Proof.
  intros H. unfold fi, fj. pose proof (Z.div_mod (last - first + 1) 2 ltac:(lia)). pose proof (Z.mod_pos_bound (last - first + 1) 2 ltac:(lia)). lia.
Qed.

Section Check.
Variable dz : R -> R.
Local Notation F := (Rops dz).
Variables (ph : phys F) (d : nat) (first last : Z) (sc : list R).
Variable tw : list Z -> R.
Variable tp : list Z -> Z -> R.
Notation lens := (ph_npts ph).
Notation off := (first - 1).
Notation fi := (fi first last).
Notation fj := (fj first last).
Notation ins := (inslot lens d off last).
Notation al := (coef off sc).
Notation sl := (slot lens d off last).
Notation ks := (zseq 0 (Z.to_nat (ph_dim ph))).
Hypothesis Hok : phys_ok dz ph.
Hypothesis Hd : (d < length lens)%nat.
Hypothesis Hf : 1 <= first.
Hypothesis Hfl : first <= last.
Hypothesis Hl : last + 2 <= nth d lens 0.

Variables (temp tempw : list R).
Hypothesis HLp : lenp dz ph d first last temp.
Hypothesis HKp : forall idx, ins idx -> nth d idx 0 < fi \/ fj < nth d idx 0 -> Kp dz ph d first last tp idx temp.
Hypothesis HLw : is_weighted dz ph = true -> lenw dz ph d first last tempw /\
  forall idx, ins idx -> nth d idx 0 < fi \/ fj < nth d idx 0 -> Kw dz ph d first last tw idx tempw.

(* what makes the check succeed *)
Definition ewt (idx : list Z) : R := if is_weighted dz ph then tw idx else 1%R.
Definition ewq (idx : list Z) : R := if is_weighted dz ph then pweight dz ph idx else 1%R.
Definition passes (cur : list Z) : Prop :=
  let lo := upd cur d (fi - 1) in let hi := upd cur d (fj + 1) in
  let mid := upd cur d fi in let up := upd cur d (fi + 1) in
  (ewt lo = ewt hi /\ forall c, (0 <= c < ph_dim ph)%Z -> tp lo c = tp hi c)%R \/
  (ewq mid = al fi * ewt up + (1 - al fi) * ewt lo /\
   forall c, (0 <= c < ph_dim ph)%Z -> pcoord dz ph mid c * ewq mid = al fi * tp up c * ewt up + (1 - al fi) * tp lo c * ewt lo)%R.

(* what it checks, exactly *)
Definition accepts (tol : R) (cur : list Z) : Prop :=
  let lo := upd cur d (fi - 1) in let hi := upd cur d (fj + 1) in
  let mid := upd cur d fi in let up := upd cur d (fi + 1) in
  (euclid (map (fun c => tp lo c * ewt lo) ks ++ [ewt lo]) (map (fun c => tp hi c * ewt hi) ks ++ [ewt hi]) <= tol)%R \/
  (euclid (map (fun c => pcoord dz ph mid c * ewq mid) ks ++ [ewq mid])
          (map (fun c => al fi * tp up c * ewt up + (1 - al fi) * tp lo c * ewt lo) ks ++ [al fi * ewt up + (1 - al fi) * ewt lo]) <= tol)%R.

Lemma passes_accepts tol cur : (0 <= tol)%R -> passes cur -> accepts tol cur.
Proof.
  intros Ht [[HPw HP]|[HPw HP]]; [left | right]; unfold accepts; cbv zeta in *.
  - rewrite <- HPw. erewrite map_ext_in; [now rewrite euclid_same|]. intros c Hc. apply zseq_In in Hc. now rewrite HP by lia.
  - rewrite <- HPw. erewrite map_ext_in; [now rewrite euclid_same|]. intros c Hc. apply zseq_In in Hc. apply HP. lia.
Qed.

Lemma at_slot cur a : in_box (upd lens d 1) cur -> off <= a <= last + 1 -> ins (upd cur d a) /\
  sl (upd cur d a) = line lens d cur * (last - off + 2) + a - off /\ nth d (upd cur d a) 0 = a.
Proof.
  intros Hb Ha. assert (L : length cur = length lens) by (rewrite (in_box_length _ _ Hb), upd_length; auto).
  assert (En : nth d (upd cur d a) 0 = a) by (apply nth_upd_same; lia).
  split; [split; [eapply in_box_upd; eauto; lia | lia]|]. split; auto. unfold slot. rewrite line_upd, En. reflexivity.
Qed.

Lemma read_p cur a c x : in_box (upd lens d 1) cur -> off <= a <= last + 1 -> (a < fi \/ fj < a) -> 0 <= c < ph_dim ph ->
  x = (line lens d cur * (last - off + 2) + a - off) * ph_dim ph + c -> vget temp x = Ok (tp (upd cur d a) c).
Proof.
  intros Hb Ha Hk Hc ->. destruct (at_slot cur a Hb Ha) as (Hin & Es & En). rewrite <- Es.
  pose proof (slot_range lens d off last _ (proj1 Hin) (proj2 Hin)). unfold lenp in HLp.
  rewrite (vget_nth temp _ 0%R) by nia. f_equal. apply HKp; auto. lia.
Qed.
Lemma read_w cur a x : is_weighted dz ph = true -> in_box (upd lens d 1) cur -> off <= a <= last + 1 -> (a < fi \/ fj < a) ->
  x = line lens d cur * (last - off + 2) + a - off -> vget tempw x = Ok (tw (upd cur d a)).
Proof.
  intros Hw Hb Ha Hk ->. destruct (HLw Hw) as [L1 L2]. destruct (at_slot cur a Hb Ha) as (Hin & Es & En). rewrite <- Es.
  pose proof (slot_range lens d off last _ (proj1 Hin) (proj2 Hin)). unfold lenw in L1.
  rewrite (vget_nth tempw _ 0%R) by nia. f_equal. apply L2; auto. lia.
Qed.

Lemma line_ok tol cur : is_weighted dz ph = false -> in_box (upd lens d 1) cur ->
  exists b, line_removable (F := F) ph (al fi) temp tol fi fj off d ((last - off + 2) * ph_dim ph) (line lens d cur) (mkMih (upd lens d 0) cur) = Ok b /\
    (b = true <-> accepts tol cur).
Proof.
  intros Hw Hb. pose proof (half_range first last Hfl) as (F2 & F3 & F4). unfold line_removable. cbn [mcur].
  assert (L : length cur = length lens) by (rewrite (in_box_length _ _ Hb), upd_length; auto).
  unfold accepts, ewt, ewq. rewrite Hw. cbv zeta.
  rewrite (mapM_ok _ (tp (upd cur d (fi - 1)))).
  2:{ intros c Hc. apply zseq_In in Hc. apply (read_p cur (fi - 1) c); auto; first [lia | ring]. }
  rewrite (mapM_ok _ (tp (upd cur d (fj + 1)))).
  2:{ intros c Hc. apply zseq_In in Hc. apply (read_p cur (fj + 1) c); auto; first [lia | ring]. }
  cbn [bind]. rnorm. rewrite distance_euclid by (now rewrite !app_length, !map_length). cbn [bind].
  replace (map (fun c => tp (upd cur d (fi - 1)%Z) c * 1)%R ks) with (map (tp (upd cur d (fi - 1)%Z)) ks) by (apply map_ext; intros; ring).
  replace (map (fun c => tp (upd cur d (fj + 1)%Z) c * 1)%R ks) with (map (tp (upd cur d (fj + 1)%Z)) ks) by (apply map_ext; intros; ring).
  destruct (Rltb_spec tol (euclid (map (tp (upd cur d (fi - 1))) ks ++ [1%R]) (map (tp (upd cur d (fj + 1))) ks ++ [1%R]))) as [Hlt|Hge].
  2:{ exists true. split; [reflexivity|]. split; [intros _; left; lra | auto]. }
  assert (Hmid : in_box lens (upd cur d fi)) by (eapply in_box_upd; eauto; lia).
  rewrite (mapM_ok _ (pcoord dz ph (upd cur d fi))).
  2:{ intros c Hc. apply zseq_In in Hc. destruct (get_cp_comp dz ph d Hok Hd (upd cur d fi) c Hmid ltac:(lia)) as (l & G1 & G2).
      rewrite G1. cbn [bind]. exact G2. }
  cbn [bind].
  rewrite (mapM_ok _ (fun c => al fi * tp (upd cur d (fi + 1)%Z) c + (1 - al fi) * tp (upd cur d (fi - 1)%Z) c)%R).
  2:{ intros c Hc. apply zseq_In in Hc.
      rewrite (read_p cur (fi + 1) c) by (auto; first [lia | ring]). cbn [bind].
      rewrite (read_p cur (fi - 1) c) by (auto; first [lia | ring]). reflexivity. }
  cbn [bind]. rnorm. rewrite distance_euclid by (now rewrite !app_length, !map_length). cbn [bind].
  eexists. split; [reflexivity|].
  replace (map (fun c => pcoord dz ph (upd cur d fi) c * 1)%R ks) with (map (pcoord dz ph (upd cur d fi)) ks) by (apply map_ext; intros; ring).
  replace (map (fun c => al fi * tp (upd cur d (fi + 1)%Z) c * 1 + (1 - al fi) * tp (upd cur d (fi - 1)%Z) c * 1)%R ks)
    with (map (fun c => al fi * tp (upd cur d (fi + 1)%Z) c + (1 - al fi) * tp (upd cur d (fi - 1)%Z) c)%R ks) by (apply map_ext; intros; ring).
  replace (al fi * 1 + (1 - al fi) * 1)%R with 1%R by ring.
  match goal with |- context [Rltb tol ?x] => destruct (Rltb_spec tol x) as [C|C] end; cbn [negb].
  - split; [discriminate|]. intros [H|H]; lra.
  - split; [intros _; right; lra | auto].
Qed.

Lemma line_w_ok tol cur : is_weighted dz ph = true -> in_box (upd lens d 1) cur ->
  exists b, line_removable_w (F := F) ph (al fi) temp tempw tol fi fj off d ((last - off + 2) * ph_dim ph) (last - off + 2)
     (line lens d cur) (mkMih (upd lens d 0) cur) = Ok b /\
    (b = true <-> accepts tol cur).
Proof.
  intros Hw Hb. pose proof (half_range first last Hfl) as (F2 & F3 & F4). unfold line_removable_w. cbn [mcur].
  assert (L : length cur = length lens) by (rewrite (in_box_length _ _ Hb), upd_length; auto).
  unfold accepts, ewt, ewq. rewrite Hw. cbv zeta.
  rnorm. rewrite (read_w cur (fi - 1)) by (auto; first [lia | ring]). cbn [bind].
  rnorm. rewrite (read_w cur (fj + 1)) by (auto; first [lia | ring]). cbn [bind].
  rewrite (mapM_ok _ (fun c => tp (upd cur d (fi - 1)%Z) c * tw (upd cur d (fi - 1)%Z))%R).
  2:{ intros c Hc. apply zseq_In in Hc. rnorm. rewrite (read_p cur (fi - 1) c) by (auto; first [lia | ring]). reflexivity. }
  rewrite (mapM_ok _ (fun c => tp (upd cur d (fj + 1)%Z) c * tw (upd cur d (fj + 1)%Z))%R).
  2:{ intros c Hc. apply zseq_In in Hc. rnorm. rewrite (read_p cur (fj + 1) c) by (auto; first [lia | ring]). reflexivity. }
  cbn [bind]. rnorm. rewrite distance_euclid by (now rewrite !app_length, !map_length). cbn [bind].
  match goal with |- context [Rltb tol ?x] => destruct (Rltb_spec tol x) as [Hlt|Hge] end.
  2:{ exists true. split; [reflexivity|]. split; [intros _; left; lra | auto]. }
  assert (Hmid : in_box lens (upd cur d fi)) by (eapply in_box_upd; eauto; lia).
  rewrite (mapM_ok _ (fun c => pcoord dz ph (upd cur d fi) c * pweight dz ph (upd cur d fi))%R).
  2:{ intros c Hc. apply zseq_In in Hc. destruct (get_hom_comp dz ph d Hok Hd (upd cur d fi) c Hmid ltac:(lia) Hw) as (l & G1 & G2).
      rewrite G1. cbn [bind]. exact G2. }
  cbn [bind].
  rewrite (mapM_ok _ (fun c => al fi * tp (upd cur d (fi + 1)%Z) c * tw (upd cur d (fi + 1)%Z)
                             + (1 - al fi) * tp (upd cur d (fi - 1)%Z) c * tw (upd cur d (fi - 1)%Z))%R).
  2:{ intros c Hc. apply zseq_In in Hc.
      rnorm. rewrite (read_p cur (fi + 1) c) by (auto; first [lia | ring]). cbn [bind].
      rnorm. rewrite (read_w cur (fi + 1)) by (auto; first [lia | ring]). cbn [bind].
      rnorm. rewrite (read_p cur (fi - 1) c) by (auto; first [lia | ring]). cbn [bind].
      rnorm. try rewrite (read_w cur (fi - 1)) by (auto; first [lia | ring]). reflexivity. }
  cbn [bind].
  destruct (at_box dz ph Hok (upd cur d fi) Hmid) as [A1 A2]. rewrite (get_weight_at dz ph (total lens)) by auto. cbn [bind].
  rnorm. try rewrite (read_w cur (fi + 1)) by (auto; first [lia | ring]). cbn [bind].
  rnorm. try rewrite (read_w cur (fi - 1)) by (auto; first [lia | ring]). cbn [bind].
  rewrite distance_euclid by (now rewrite !app_length, !map_length). cbn [bind].
  eexists. split; [reflexivity|]. change (wat dz ph (get1d lens (upd cur d fi))) with (pweight dz ph (upd cur d fi)).
  match goal with |- context [Rltb tol ?x] => destruct (Rltb_spec tol x) as [C|C] end; cbn [negb].
  - split; [discriminate|]. intros [H|H]; lra.
  - split; [intros _; right; lra | auto].
Qed.

Lemma removable_ok tol : exists b tol', is_knot_removable (F := F) ph (al fi) temp tempw tol fi fj off d = Ok b /\
  effective dz ph tol tol' /\ (b = true <-> forall cur, in_box (upd lens d 1) cur -> accepts tol' cur).
Proof.
  pose proof Hok as (Hp & Hdim & _).
  destruct (lines_facts dz ph d first last Hok Hd Hf Hfl Hl) as (L1 & L2 & L3 & L4).
  unfold is_knot_removable, npts_at. rewrite (dget_nth _ d 0) by auto. cbn [bind]. rewrite L3. cbn [bind]. rewrite L4. cbn [bind].
  set (lines := total (remove_at d lens)) in *.
  assert (E1 : idiv (zlen temp) lines = Ok ((last - off + 2) * ph_dim ph)).
  { unfold idiv. destruct (Z.eqb_spec lines 0); [lia|]. f_equal. unfold lenp in HLp. fold lines in HLp. rewrite HLp.
    replace (lines * ph_dim ph * (last - off + 2)) with ((last - off + 2) * ph_dim ph * lines) by ring. apply Z.quot_mul. lia. }
  rnorm. rewrite E1. cbn [bind]. unfold effective.
  destruct (ph_wts ph) as [w|] eqn:Ew.
  - assert (Hw : is_weighted dz ph = true) by (unfold is_weighted; now rewrite Ew). rewrite Hw.
    destruct (max_distance_ok dz ph Hok) as (m & Em & Hm). rewrite Em. cbn [bind].
    destruct (min_weight_ok dz ph Hok Hw) as (mw & Emw & Hmw). rewrite Emw. cbn [bind].
    assert (E2 : idiv (zlen tempw) lines = Ok (last - off + 2)).
    { unfold idiv. destruct (Z.eqb_spec lines 0); [lia|]. f_equal. destruct (HLw Hw) as [HL _]. unfold lenw in HL. fold lines in HL. rewrite HL.
      replace (lines * (last - off + 2)) with ((last - off + 2) * lines) by ring. apply Z.quot_mul. lia. }
    rnorm. rewrite E2. cbn [bind]. pose proof (radius_nonneg dz ph m Hm) as Hm0.
    set (tol' := ndiv (n := F) (tol * mw)%R (1 + m)%R).
    match goal with |- context [lines_removable _ _ _ ?ch] =>
      destruct (lines_ok lens d ch (accepts tol') Hp Hd) as (b & E & Hb) end.
    + intros cur Hb. exact (line_w_ok tol' cur Hw Hb).
    + exists b, tol'. split; [exact E|]. split; [|exact Hb]. exists mw, m. split; [exact Hmw|]. split; [exact Hm|].
      unfold tol'. now rewrite ndiv_R by lra.
  - assert (Hw : is_weighted dz ph = false) by (unfold is_weighted; now rewrite Ew). rewrite Hw.
    match goal with |- context [lines_removable _ _ _ ?ch] =>
      destruct (lines_ok lens d ch (accepts tol) Hp Hd) as (b & E & Hb) end.
    + intros cur Hb. exact (line_ok tol cur Hw Hb).
    + exists b, tol. split; [exact E|]. split; [reflexivity | exact Hb].
Qed.
End Check.
