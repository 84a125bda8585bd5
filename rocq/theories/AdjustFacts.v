(* AdjustControlPoints (spline.h InsertKnot passes) over real arithmetic: the in-place backward loop
   computes the new control net from the old one. *)
From Coq Require Import ZArith List Bool Lia Reals Lra.
From Verif Require Import Base BaseFacts RSum MultiIndex MultiIndexSpec MultiIndexFacts TensorSum
  KnotVec VecUtils Spaces SplineEval SplineEdit SplineSpec EvalFacts PhysFacts.
Import ListNotations.
Open Scope Z_scope.

Section Adjust.
Variable dz : R -> R.
Local Notation F := (Rops dz).
Implicit Types p : phys F.

Definition below (d : nat) (idx : list Z) : list Z := upd idx d (nth d idx 0 - 1).
Definition mixR (a x y : R) : R := (a * x + (1 - a) * y)%R.

Definition newW p (d : nat) (sc : list R) (first last : Z) (idx : list Z) : R :=
  let cur := nth d idx 0 in
  if cur >? last then pweight dz p (below d idx)
  else if cur >=? first then
    mixR (nth (Z.to_nat (cur - first)) sc 0%R) (pweight dz p idx) (pweight dz p (below d idx))
  else pweight dz p idx.

Definition newC p (d : nat) (sc : list R) (first last : Z) (idx : list Z) (c : Z) : R :=
  let cur := nth d idx 0 in
  if cur >? last then pcoord dz p (below d idx) c
  else if cur >=? first then
    let a := nth (Z.to_nat (cur - first)) sc 0%R in
    if is_weighted dz p then
      ndiv (n := F) (mixR a (pcoord dz p idx c * pweight dz p idx)%R
                            (pcoord dz p (below d idx) c * pweight dz p (below d idx))%R)
                    (newW p d sc first last idx)
    else mixR a (pcoord dz p idx c) (pcoord dz p (below d idx) c)
  else pcoord dz p idx c.

(* the positions the step at idx reads *)
Definition reads_ok p (d : nat) (sc : list R) (first last N : Z) (idx : list Z) : Prop :=
  let cur := nth d idx 0 in
  (d < length idx)%nat /\
  (cur > last -> 0 <= get1d (ph_npts p) (below d idx) < N) /\
  (cur <= last -> 0 <= get1d (ph_npts p) idx < N) /\
  (first <= cur <= last -> 0 <= get1d (ph_npts p) (below d idx) < N /\ 0 <= cur - first < zlen sc).

Lemma dec_at_ok d idx : (d < length idx)%nat -> dec_at d idx = Ok (below d idx).
Proof. intros H. unfold dec_at. now rewrite (dget_nth idx d 0) by auto. Qed.

Lemma new_weight_ok p d sc first last N idx : sized dz p N -> reads_ok p d sc first last N idx ->
  new_weight p idx d sc (nth d idx 0) first last = Ok (newW p d sc first last idx).
Proof.
  intros Hs (Hd & H1 & H2 & H3). unfold new_weight, newW. rewrite (dec_at_ok d idx Hd).
  destruct (Z.gtb_spec (nth d idx 0) last).
  - cbn [bind]. apply (get_weight_at dz p N); auto. apply H1; lia.
  - destruct (Z.geb_spec (nth d idx 0) first).
    + cbn [bind]. destruct (H3 ltac:(lia)) as [H4 H5].
      rewrite (get_weight_at dz p N) by (auto; apply H2; lia). cbn [bind].
      rewrite (get_weight_at dz p N) by auto. cbn [bind].
      rewrite (vget_nth sc _ 0%R) by auto. reflexivity.
    + apply (get_weight_at dz p N); auto.
Qed.

Lemma map2_maps {A B C D} (f : B -> C -> D) (g : A -> B) (h : A -> C) l :
  map2 f (map g l) (map h l) = map (fun x => f (g x) (h x)) l.
Proof. induction l; cbn; congruence. Qed.

Lemma map2_app {A B C} (f : A -> B -> C) l1 l2 m1 m2 : length l1 = length m1 ->
  map2 f (l1 ++ l2) (m1 ++ m2) = map2 f l1 m1 ++ map2 f l2 m2.
Proof. revert m1; induction l1 as [|x l1 IH]; intros [|y m1] H; try discriminate; cbn; auto. now rewrite IH by (cbn in H; lia). Qed.

Lemma zseq_map_nth (f : Z -> R) n c tl : 0 <= c < Z.of_nat n ->
  nth (Z.to_nat c) (map f (zseq 0 n) ++ tl) 0%R = f c.
Proof.
  intros Hc. rewrite app_nth1 by (rewrite map_length, zseq_length; lia).
  rewrite (nth_map_in f _ _ 0) by (rewrite zseq_length; lia). rewrite zseq_nth by lia. f_equal. lia.
Qed.

Lemma new_cp_ok p d sc first last N idx : sized dz p N -> reads_ok p d sc first last N idx ->
  exists tl, new_control_point p idx d sc (nth d idx 0) first last =
    Ok (map (newC p d sc first last idx) (zseq 0 (Z.to_nat (ph_dim p))) ++ tl).
Proof.
  intros Hs Hr. pose proof Hr as (Hd & H1 & H2 & H3). unfold new_control_point, newC. rewrite (dec_at_ok d idx Hd).
  destruct (Z.gtb_spec (nth d idx 0) last).
  - cbn [bind]. exists []. rewrite app_nil_r. rewrite (get_cp_at dz p N); auto. apply H1; lia.
  - destruct (Z.geb_spec (nth d idx 0) first).
    + cbn [bind]. destruct (H3 ltac:(lia)) as [H4 H5].
      rewrite (vget_nth sc _ 0%R) by auto. cbn [bind]. unfold is_weighted.
      destruct (ph_wts p) as [w|] eqn:Ew.
      * rewrite (get_hom_at dz p N) by (auto; unfold is_weighted; rewrite ?Ew; auto; apply H2; lia). cbn [bind].
        rewrite (get_hom_at dz p N) by (auto; unfold is_weighted; rewrite ?Ew; auto). cbn [bind].
        rewrite (new_weight_ok p d sc first last N) by auto. cbn [bind].
        rewrite map2_app by (now rewrite !map_length). rewrite map2_maps. eexists. reflexivity.
      * exists []. rewrite app_nil_r.
        rewrite (get_cp_at dz p N) by (auto; apply H2; lia). cbn [bind].
        rewrite (get_cp_at dz p N) by auto. cbn [bind]. rewrite map2_maps. reflexivity.
    + exists []. rewrite app_nil_r. apply (get_cp_at dz p N); auto.
Qed.

(* agreement of two nets on the positions below n *)
Definition agree p p0 (n : Z) : Prop :=
  forall q, 0 <= q < n -> wat dz p q = wat dz p0 q /\ (forall c, 0 <= c < ph_dim p0 -> cpat dz p q c = cpat dz p0 q c).

Lemma agree_newW p p0 n d sc first last idx : ph_npts p = ph_npts p0 -> agree p p0 n ->
  reads_ok p0 d sc first last n idx -> newW p d sc first last idx = newW p0 d sc first last idx.
Proof.
  intros En Ha (Hd & H1 & H2 & H3). unfold newW, pweight. rewrite En.
  destruct (Z.gtb_spec (nth d idx 0) last); [apply Ha; apply H1; lia|].
  destruct (Z.geb_spec (nth d idx 0) first); [|apply Ha; auto].
  f_equal; apply Ha; [apply H2 | apply H3]; lia.
Qed.

Lemma agree_newC p p0 n d sc first last idx c : ph_npts p = ph_npts p0 -> is_weighted dz p = is_weighted dz p0 ->
  agree p p0 n -> 0 <= c < ph_dim p0 -> reads_ok p0 d sc first last n idx ->
  newC p d sc first last idx c = newC p0 d sc first last idx c.
Proof.
  intros En Ew Ha Hc Hr. pose proof (agree_newW p p0 n d sc first last idx En Ha Hr) as EW.
  destruct Hr as (Hd & H1 & H2 & H3). unfold newC. rewrite EW, Ew. unfold pcoord, pweight. rewrite En.
  destruct (Z.gtb_spec (nth d idx 0) last); [apply Ha; auto; apply H1; lia|].
  destruct (Z.geb_spec (nth d idx 0) first); [|apply Ha; auto].
  destruct (Ha (get1d (ph_npts p0) idx)) as [A1 A2]; [apply H2; lia|].
  destruct (Ha (get1d (ph_npts p0) (below d idx))) as [A3 A4]; [apply H3; lia|].
  rewrite A1, A2, A3, A4 by auto. reflexivity.
Qed.

Lemma upd_map_pred npts d n : nth d npts 0 = n -> upd (map (fun n => n - 1) npts) d n = map (fun n => n - 1) (upd npts d (n + 1)).
Proof.
  revert d; induction npts as [|x npts IH]; intros [|d] H; cbn in *; auto.
  - f_equal. lia.
  - now rewrite IH.
Qed.

Lemma below_box npts d n idx : in_box (upd npts d (n + 1)) idx -> nth d npts 0 = n -> 1 <= nth d idx 0 -> (d < length npts)%nat ->
  in_box npts (below d idx).
Proof.
  intros Hb En Hi Hd. apply (in_box_upd npts idx d _ (n + 1)); auto.
  pose proof (in_box_nth _ _ d Hb) as Hn. rewrite upd_length, nth_upd_same in Hn by auto. lia.
Qed.

Lemma below_le d idx : Forall2 Z.le (below d idx) idx.
Proof. apply Forall2_upd_ge. lia. Qed.

Theorem adjust_ok p sc first last d n :
  phys_ok dz p -> (d < length (ph_npts p))%nat -> nth d (ph_npts p) 0 = n ->
  1 <= first -> 0 <= last < n -> last - first + 1 <= zlen sc ->
  exists p', adjust_control_points p sc first last d = Ok p' /\
    ph_dim p' = ph_dim p /\ ph_npts p' = upd (ph_npts p) d (n + 1) /\ phys_ok dz p' /\
    is_weighted dz p' = is_weighted dz p /\
    forall idx, in_box (upd (ph_npts p) d (n + 1)) idx ->
      (forall c, 0 <= c < ph_dim p -> pcoord dz p' idx c = newC p d sc first last idx c) /\
      (is_weighted dz p = true -> pweight dz p' idx = newW p d sc first last idx).
Proof.
  intros (Hp & Hs) Hd En Hf Hl Hsc. unfold adjust_control_points, npts_at.
  rewrite (dget_nth _ d 0) by auto. rewrite En. cbn [bind].
  set (lens := upd (ph_npts p) d (n + 1)).
  assert (Hn : 1 <= n) by (rewrite <- En; now apply pos_lens_nth).
  assert (HpL : pos_lens lens) by (apply pos_lens_upd; auto; lia).
  assert (HT : total (ph_npts p) = n * total (remove_at d (ph_npts p))).
  { rewrite <- En. symmetry. now apply total_remove_at. }
  assert (HTL : total lens = (n + 1) * total (remove_at d (ph_npts p))) by (now apply total_upd).
  set (m := total (remove_at d (ph_npts p))) in *.
  pose proof (total_pos _ Hp) as HTp.
  assert (Hm : 1 <= m) by nia.
  pose proof Hs as (Hdim & Hcps & Hwts).
  assert (EN : num_control_points p = Ok (total (ph_npts p))).
  { unfold num_control_points, idiv. destruct (Z.eqb_spec (ph_dim p) 0); [lia|].
    f_equal. rnorm. rewrite Hcps, Z.mul_comm. apply Z.quot_mul. lia. }
  rewrite EN. cbn [bind].
  assert (EM : idiv (total (ph_npts p)) n = Ok m).
  { unfold idiv. destruct (Z.eqb_spec n 0); [lia|]. f_equal. rewrite HT, Z.mul_comm. apply Z.quot_mul. lia. }
  rewrite EM. cbn [bind].
  set (p1 := add_control_points p m).
  assert (Hs1 : sized dz p1 (total lens)).
  { split; [exact Hdim|]. split.
    - change (zlen (ph_cps p ++ repeat 0%R (Z.to_nat m * Z.to_nat (ph_dim p))) = ph_dim p * total lens).
      unfold zlen in *. rewrite app_length, repeat_length. rnorm. nia.
    - cbn [p1 add_control_points ph_wts]. intros w E. destruct (ph_wts p) as [w0|]; [|discriminate]. inversion E; subst.
      specialize (Hwts w0 eq_refl). unfold zlen in *. rewrite app_length, repeat_length. rnorm. nia. }
  assert (Hw1 : is_weighted dz p1 = is_weighted dz p) by (unfold p1, is_weighted; cbn; destruct (ph_wts p); reflexivity).
  assert (Ha1 : agree p1 p (total (ph_npts p))).
  { intros q Hq. split.
    - unfold wat, p1; cbn [add_control_points ph_wts]. destruct (ph_wts p) as [w|]; auto. cbn [option_map].
      specialize (Hwts w eq_refl). apply app_nth1. unfold zlen in *. rnorm. lia.
    - intros c Hc. unfold cpat, p1; cbn [add_control_points ph_cps ph_dim]. apply app_nth1. unfold zlen in *. rnorm. nia. }
  (* reads *)
  assert (Hreads : forall idx, in_box lens idx ->
            reads_ok p d sc first last (Z.min (total (ph_npts p)) (get1d lens idx + 1)) idx).
  { intros idx Hb. pose proof (in_box_length _ _ Hb) as HlenI. unfold lens in HlenI. rewrite upd_length in HlenI.
    assert (Hnn := in_box_nonneg _ _ Hb).
    assert (Hle : get1d (ph_npts p) idx <= get1d lens idx).
    { apply get1d_mono; auto. apply Forall2_upd_le; [|lia]. intros E. rewrite E in Hd. cbn in Hd. lia. }
    assert (Hself : nth d idx 0 <= last -> 0 <= get1d (ph_npts p) idx < total (ph_npts p)).
    { intros Hc. apply get1d_range; auto. apply (in_box_self _ _ d (n + 1)); auto. lia. }
    assert (Hlo : 1 <= nth d idx 0 -> 0 <= get1d (ph_npts p) (below d idx) < Z.min (total (ph_npts p)) (get1d lens idx + 1)).
    { intros Hc. pose proof (below_box _ _ _ _ Hb En Hc Hd) as Hbb.
      pose proof (get1d_range _ _ Hbb).
      assert (get1d (ph_npts p) (below d idx) <= get1d (ph_npts p) idx).
      { apply get1d_idx_mono; auto; [apply below_le|]. unfold below. rewrite upd_length. congruence. }
      lia. }
    split; [lia|]. split; [|split].
    - intros Hc. apply Hlo. lia.
    - intros Hc. specialize (Hself Hc). lia.
    - intros Hc. split; [apply Hlo; lia | rnorm; lia]. }
  (* the loop *)
  set (Inv := fun (k : nat) (st : phys F) =>
    sized dz st (total lens) /\ ph_dim st = ph_dim p /\ ph_npts st = ph_npts p /\ is_weighted dz st = is_weighted dz p /\
    agree st p (Z.min (total (ph_npts p)) (Z.of_nat k)) /\
    forall idx, in_box lens idx -> Z.of_nat k <= get1d lens idx ->
      (forall c, 0 <= c < ph_dim p -> cpat dz st (get1d lens idx) c = newC p d sc first last idx c) /\
      (is_weighted dz p = true -> wat dz st (get1d lens idx) = newW p d sc first last idx)).
  assert (Etop : mkMih lens (upd (map (fun n0 => n0 - 1) (ph_npts p)) d n) = mkMih lens (nth_index lens (Z.to_nat (total lens) - 1))).
  { rewrite nth_index_top by auto. unfold lens. now rewrite upd_map_pred. }
  rewrite Etop.
  match goal with |- context [mih_for_down ?nn ?h ?body ?s0] =>
    destruct (mih_for_down_inv lens Inv body) with (n := nn) (st := s0) as (st' & Est & Hinv) end; auto.
  - (* step *)
    intros k st Hk (I1 & I2 & I3 & I4 & I5 & I6).
    set (idx := nth_index lens k).
    pose proof (nth_index_box lens k HpL) as Hb. fold idx in Hb.
    assert (Eq : get1d lens idx = Z.of_nat k) by (apply nth_index_get1d; auto).
    pose proof (in_box_length _ _ Hb) as HlenI. unfold lens in HlenI. rewrite upd_length in HlenI.
    cbn [mcur]. rewrite (dget_nth idx d 0) by lia. cbn [bind].
    pose proof (Hreads idx Hb) as Hr. rewrite Eq in Hr.
    assert (Hr' : reads_ok st d sc first last (total lens) idx).
    { destruct Hr as (R1 & R2 & R3 & R4). unfold reads_ok. rewrite I3. split; [auto|].
      assert (total (ph_npts p) <= total lens) by nia.
      repeat split; intros; try (specialize (R2 ltac:(lia))); try (specialize (R3 ltac:(lia)));
       try (destruct (R4 ltac:(lia))); lia. }
    assert (I5' : agree st p (Z.min (total (ph_npts p)) (Z.of_nat k + 1))) by (replace (Z.of_nat k + 1) with (Z.of_nat (S k)) by lia; auto).
    destruct (new_cp_ok st d sc first last (total lens) idx I1 Hr') as (tl & Ecp). rewrite Ecp. cbn [bind].
    set (cp := map (newC st d sc first last idx) (zseq 0 (Z.to_nat (ph_dim st))) ++ tl).
    assert (Hcp : forall c, 0 <= c < ph_dim p -> nth (Z.to_nat c) cp 0%R = newC p d sc first last idx c).
    { intros c Hc. unfold cp. rewrite zseq_map_nth by (rewrite I2; lia).
      apply (agree_newC st p (Z.min (total (ph_npts p)) (Z.of_nat k + 1))); auto. }
    assert (Hcl : ph_dim st <= zlen cp).
    { unfold cp, zlen. rewrite app_length, map_length, zseq_length. lia. }
    rewrite (new_weight_ok st d sc first last (total lens)) by auto.
    rewrite (agree_newW st p _ d sc first last idx I3 I5' Hr).
    destruct (set_cp_at dz st (total lens) lens idx cp I1 ltac:(rewrite Eq; lia) Hcl) as (st1 & E1 & J1 & J2 & J3 & J4 & J5).
    assert (Jw : is_weighted dz st1 = is_weighted dz st) by (unfold is_weighted; now rewrite J4).
    assert (Jwat : forall q, wat dz st1 q = wat dz st q) by (intros; unfold wat; now rewrite J4).
    destruct (ph_wts st) as [wst|] eqn:Ew.
    + cbn [bind]. rewrite E1. cbn [bind].
      assert (Wp : is_weighted dz p = true) by (rewrite <- I4; unfold is_weighted; now rewrite Ew).
      destruct (set_w_at dz st1 (total lens) lens idx (newW p d sc first last idx) J1 ltac:(rewrite Eq; lia) ltac:(congruence))
        as (st2 & E2 & K1 & K2 & K3 & K4 & K5 & K6).
      exists st2. split; [exact E2|].
      assert (Hc2 : forall q c, cpat dz st2 q c = cpat dz st1 q c) by (intros; unfold cpat; now rewrite K2, K5).
      split; [auto|]. split; [congruence|]. split; [congruence|]. split; [congruence|]. split.
      * intros q Hq. rewrite K6 by lia. destruct (Z.eqb_spec q (get1d lens idx)); [lia|]. split.
        -- rewrite Jwat. apply I5. lia.
        -- intros c Hc. rewrite Hc2, J5 by (try lia; rewrite I2; auto).
           destruct (Z.eqb_spec q (get1d lens idx)); [lia|]. apply I5; auto. lia.
      * intros idx' Hb' Hk'. rewrite K6 by lia. destruct (Z.eqb_spec (get1d lens idx') (get1d lens idx)) as [Ee|Ee].
        -- assert (idx' = idx) by (apply (get1d_inj lens); auto). subst idx'. split; auto.
           intros c Hc. rewrite Hc2, J5 by (try lia; rewrite I2; auto). rewrite Z.eqb_refl. now apply Hcp.
        -- destruct (I6 idx' Hb' ltac:(lia)) as [I7 I8]. split.
           ++ intros c Hc. rewrite Hc2, J5 by (try lia; rewrite I2; auto).
              destruct (Z.eqb_spec (get1d lens idx') (get1d lens idx)); [lia|]. now apply I7.
           ++ intros _. rewrite <- I8 by auto. apply Jwat.
    + exists st1. split; [exact E1|].
      split; [auto|]. split; [congruence|]. split; [congruence|]. split; [congruence|]. split.
      * intros q Hq. split.
        -- rewrite Jwat. apply I5. lia.
        -- intros c Hc. rewrite J5 by (try lia; rewrite I2; auto).
           destruct (Z.eqb_spec q (get1d lens idx)); [lia|]. apply I5; auto. lia.
      * intros idx' Hb' Hk'.
        assert (Wp : is_weighted dz p = false) by (rewrite <- I4; unfold is_weighted; now rewrite Ew).
        split; [|congruence]. intros c Hc. rewrite J5 by (try lia; rewrite I2; auto).
        destruct (Z.eqb_spec (get1d lens idx') (get1d lens idx)) as [Ee|Ee].
        -- assert (idx' = idx) by (apply (get1d_inj lens); auto). subst idx'. now apply Hcp.
        -- apply (I6 idx' Hb' ltac:(lia)); auto.
  - rewrite Z2Nat.id by nia. lia.
  - (* start *)
    split; [auto|]. split; [reflexivity|]. split; [reflexivity|]. split; [auto|]. split.
    + intros q Hq. apply Ha1. lia.
    + intros idx Hb Hk. pose proof (get1d_range _ _ Hb). lia.
  - (* result *)
    rewrite Est. cbn [bind]. exists (set_npts st' lens).
    destruct Hinv as (I1 & I2 & I3 & I4 & I5 & I6).
    split; [reflexivity|]. split; [exact I2|]. split; [reflexivity|]. split; [split; [exact HpL | exact I1]|].
    split; [exact I4|]. intros idx Hb. pose proof (get1d_range _ _ Hb) as Hg.
    destruct (I6 idx Hb ltac:(lia)) as [I7 I8]. split; [exact I7 | exact I8].
Qed.
End Adjust.
