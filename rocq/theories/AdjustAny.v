(* AdjustControlPoints (spline.h InsertKnot passes) over any arithmetic: the in-place backward loop
   computes the new control net from the old one.  The same statements over the reals are in PhysFacts and AdjustFacts. *)
From Coq Require Import ZArith List Bool Lia.
From Verif Require Import Base BaseFacts MultiIndex MultiIndexSpec MultiIndexFacts TensorSum
  KnotVec VecUtils Spaces SplineEval SplineEdit SplineSpec EvalFacts PhysFacts AdjustFacts.
Import ListNotations.
Open Scope Z_scope.

Section Any.
Context {F : NumOps}.
Implicit Types p : phys F.

(* values at a linear position *)
Definition g_cpat p (q c : Z) : F := nth (Z.to_nat (ph_dim p * q + c)) (ph_cps p) n0.
Definition g_wat p (q : Z) : F := match ph_wts p with None => n1 | Some w => nth (Z.to_nat q) w n0 end.

Definition g_sized p (N : Z) : Prop :=
  1 <= ph_dim p /\ zlen (ph_cps p) = ph_dim p * N /\ (forall w, ph_wts p = Some w -> zlen w = N).
Definition g_phys_ok p : Prop := pos_lens (ph_npts p) /\ g_sized p (total (ph_npts p)).

(* values at a multi-index *)
Definition g_pcoord p (idx : list Z) (c : Z) : F := g_cpat p (get1d (ph_npts p) idx) c.
Definition g_pweight p (idx : list Z) : F := g_wat p (get1d (ph_npts p) idx).

Definition g_is_weighted p : bool := match ph_wts p with None => false | Some _ => true end.

Lemma g_get_cp_at p N idx : g_sized p N -> 0 <= get1d (ph_npts p) idx < N ->
  get_control_point p idx = Ok (map (g_cpat p (get1d (ph_npts p) idx)) (zseq 0 (Z.to_nat (ph_dim p)))).
Proof.
  intros (H1 & H2 & _) Hq. unfold get_control_point. apply mapM_ok. intros c Hc. apply zseq_In in Hc.
  unfold g_cpat. rewrite (vget_nth _ _ n0); auto.  rewrite H2. nia.
Qed.

Lemma g_get_weight_at p N idx : g_sized p N -> 0 <= get1d (ph_npts p) idx < N ->
  get_weight p idx = Ok (g_wat p (get1d (ph_npts p) idx)).
Proof.
  intros (H1 & H2 & H3) Hq. unfold get_weight, g_wat. destruct (ph_wts p) as [w|]; auto.
  apply vget_nth. rewrite (H3 w); auto.
Qed.

Lemma g_get_hom_at p N idx : g_sized p N -> 0 <= get1d (ph_npts p) idx < N -> g_is_weighted p = true ->
  get_homogeneous p idx =
  Ok (map (fun c => g_cpat p (get1d (ph_npts p) idx) c * g_wat p (get1d (ph_npts p) idx))%num (zseq 0 (Z.to_nat (ph_dim p)))
      ++ [g_wat p (get1d (ph_npts p) idx)]).
Proof.
  intros Hs Hq Hw. pose proof Hs as (H1 & H2 & H3). unfold get_homogeneous, g_wat, g_is_weighted in *. destruct (ph_wts p) as [w|] eqn:Ew; [|discriminate].
  set (q := get1d (ph_npts p) idx) in *.
  erewrite (mapM_ok _ (fun c => g_cpat p q c * nth (Z.to_nat q) w n0)%num).
  - cbn [bind]. rewrite (vget_nth w q n0) by (rewrite (H3 w); auto). reflexivity.
  - intros c Hc. apply zseq_In in Hc. rewrite (vget_nth _ _ n0) by (rewrite H2; nia). cbn [bind].
    assert (Ei : idiv (ph_dim p * q) (ph_dim p) = Ok q).
    { unfold idiv. destruct (Z.eqb_spec (ph_dim p) 0); [lia|]. f_equal. rewrite Z.mul_comm. apply Z.quot_mul. lia. }
    rewrite Ei. cbn [bind]. rewrite (vget_nth w q n0) by (rewrite (H3 w); auto). reflexivity.
Qed.

Lemma g_vset_block (l cp : list F) off n : 0 <= off -> off + Z.of_nat n <= zlen l -> Z.of_nat n <= zlen cp ->
  exists l', foldM (fun l c => x <- vget cp c ;; vset l (off + c) x) (zseq 0 n) l = Ok l' /\ length l' = length l /\
    forall j, 0 <= j -> nth (Z.to_nat j) l' n0 =
      if (off <=? j) && (j <? off + Z.of_nat n) then nth (Z.to_nat (j - off)) cp n0 else nth (Z.to_nat j) l n0.
Proof.
  intros Ho. revert l; induction n as [|n IH]; intros l Hl Hc.
  - exists l. split; auto. split; auto. intros j Hj. destruct (Z.leb_spec off j), (Z.ltb_spec j (off + Z.of_nat 0)); auto; lia.
  - assert (Es : zseq 0 (S n) = zseq 0 n ++ [Z.of_nat n]).
    { rewrite !zseq_map. rewrite seq_S, map_app. cbn [map]. f_equal. }
    destruct (IH l ltac:(lia) ltac:(lia)) as (l' & E & Hlen & Hn).
    rewrite Es, foldM_app, E. cbn [bind foldM].
    rewrite (vget_nth cp (Z.of_nat n) n0) by lia. cbn [bind].
    rewrite vset_ok by (unfold zlen in *; rewrite Hlen; lia). cbn [bind].
    eexists. split; [reflexivity|]. split; [now rewrite upd_length|].
    intros j Hj. rewrite nth_upd by (unfold zlen in *; rewrite Hlen; lia).
    destruct (Nat.eqb_spec (Z.to_nat j) (Z.to_nat (off + Z.of_nat n))) as [Ej|Ej].
    + assert (j = off + Z.of_nat n) by lia. subst j.
      destruct (Z.leb_spec off (off + Z.of_nat n)); [|lia].
      destruct (Z.ltb_spec (off + Z.of_nat n) (off + Z.of_nat (S n))); [|lia]. cbn [andb]. f_equal. lia.
    + rewrite Hn by auto. destruct (Z.leb_spec off j); cbn [andb]; auto.
      destruct (Z.ltb_spec j (off + Z.of_nat n)); destruct (Z.ltb_spec j (off + Z.of_nat (S n))); auto; lia.
Qed.

Lemma g_set_cp_at p N lens idx cp : g_sized p N -> 0 <= get1d lens idx < N -> ph_dim p <= zlen cp ->
  exists p', set_control_point p lens idx cp = Ok p' /\ g_sized p' N /\ ph_dim p' = ph_dim p /\ ph_npts p' = ph_npts p /\
    ph_wts p' = ph_wts p /\
    forall q c, 0 <= q -> 0 <= c < ph_dim p ->
      g_cpat p' q c = if q =? get1d lens idx then nth (Z.to_nat c) cp n0 else g_cpat p q c.
Proof.
  intros (H1 & H2 & H3) Hq Hcp. unfold set_control_point.
  destruct (g_vset_block (ph_cps p) cp (ph_dim p * get1d lens idx) (Z.to_nat (ph_dim p))) as (l' & E & Hl & Hn);
    [nia | rewrite H2; nia | lia|].
   rewrite E. cbn [bind]. eexists. split; [reflexivity|].
  split; [|split; [reflexivity | split; [reflexivity | split; [reflexivity|]]]].
  - split; [auto|]. split; [|auto]. cbn [ph_cps ph_dim]. rewrite <- H2. unfold zlen.  now rewrite Hl.
  - intros q c Hq' Hc. unfold g_cpat. cbn [ph_cps ph_dim]. rewrite Hn by nia.
    destruct (Z.eqb_spec q (get1d lens idx)) as [->|Hne].
    + destruct (Z.leb_spec (ph_dim p * get1d lens idx) (ph_dim p * get1d lens idx + c)); [|lia].
      destruct (Z.ltb_spec (ph_dim p * get1d lens idx + c) (ph_dim p * get1d lens idx + Z.of_nat (Z.to_nat (ph_dim p)))); [|lia].
      cbn [andb]. f_equal. lia.
    + destruct (Z.leb_spec (ph_dim p * get1d lens idx) (ph_dim p * q + c)); cbn [andb]; auto.
      destruct (Z.ltb_spec (ph_dim p * q + c) (ph_dim p * get1d lens idx + Z.of_nat (Z.to_nat (ph_dim p)))); auto.
      exfalso. apply Hne. assert (q < get1d lens idx + 1) by nia. assert (get1d lens idx < q + 1) by nia. lia.
Qed.

Lemma g_set_w_at p N lens idx x : g_sized p N -> 0 <= get1d lens idx < N -> g_is_weighted p = true ->
  exists p', set_weight p lens idx x = Ok p' /\ g_sized p' N /\ ph_dim p' = ph_dim p /\ ph_npts p' = ph_npts p /\
    g_is_weighted p' = true /\ ph_cps p' = ph_cps p /\
    forall q, 0 <= q -> g_wat p' q = if q =? get1d lens idx then x else g_wat p q.
Proof.
  intros (H1 & H2 & H3) Hq Hw. unfold set_weight, g_is_weighted, g_wat in *. destruct (ph_wts p) as [w|] eqn:Ew; [|discriminate].
  specialize (H3 w eq_refl).  rewrite vset_ok by lia. cbn [bind]. eexists. split; [reflexivity|].
  split; [|repeat (split; [reflexivity|])].
  - split; [auto|]. split; auto. cbn [ph_wts]. intros w' E. inversion E; subst. now rewrite zlen_upd.
  - cbn [ph_wts]. intros q Hq'. rewrite nth_upd by (unfold zlen in H3; lia).
    destruct (Nat.eqb_spec (Z.to_nat q) (Z.to_nat (get1d lens idx))); destruct (Z.eqb_spec q (get1d lens idx)); auto; lia.
Qed.
Definition g_mix (a x y : F) : F := (a * x + (n1 - a) * y)%num.

Definition g_newW p (d : nat) (sc : list F) (first last : Z) (idx : list Z) : F :=
  let cur := nth d idx 0 in
  if cur >? last then g_pweight p (below d idx)
  else if cur >=? first then
    g_mix (nth (Z.to_nat (cur - first)) sc n0) (g_pweight p idx) (g_pweight p (below d idx))
  else g_pweight p idx.

Definition g_newC p (d : nat) (sc : list F) (first last : Z) (idx : list Z) (c : Z) : F :=
  let cur := nth d idx 0 in
  if cur >? last then g_pcoord p (below d idx) c
  else if cur >=? first then
    let a := nth (Z.to_nat (cur - first)) sc n0 in
    if g_is_weighted p then
      ndiv (g_mix a (g_pcoord p idx c * g_pweight p idx)%num
                            (g_pcoord p (below d idx) c * g_pweight p (below d idx))%num)
                    (g_newW p d sc first last idx)
    else g_mix a (g_pcoord p idx c) (g_pcoord p (below d idx) c)
  else g_pcoord p idx c.

(* the positions the step at idx reads *)
Definition g_reads_ok p (d : nat) (sc : list F) (first last N : Z) (idx : list Z) : Prop :=
  let cur := nth d idx 0 in
  (d < length idx)%nat /\
  (cur > last -> 0 <= get1d (ph_npts p) (below d idx) < N) /\
  (cur <= last -> 0 <= get1d (ph_npts p) idx < N) /\
  (first <= cur <= last -> 0 <= get1d (ph_npts p) (below d idx) < N /\ 0 <= cur - first < zlen sc).


Lemma g_new_weight_ok p d sc first last N idx : g_sized p N -> g_reads_ok p d sc first last N idx ->
  new_weight p idx d sc (nth d idx 0) first last = Ok (g_newW p d sc first last idx).
Proof.
  intros Hs (Hd & H1 & H2 & H3). unfold new_weight, g_newW. rewrite (dec_at_ok d idx Hd).
  destruct (Z.gtb_spec (nth d idx 0) last).
  - cbn [bind]. apply (g_get_weight_at p N); auto. apply H1; lia.
  - destruct (Z.geb_spec (nth d idx 0) first).
    + cbn [bind]. destruct (H3 ltac:(lia)) as [H4 H5].
      rewrite (g_get_weight_at p N) by (auto; apply H2; lia). cbn [bind].
      rewrite (g_get_weight_at p N) by auto. cbn [bind].
      rewrite (vget_nth sc _ n0) by auto. reflexivity.
    + apply (g_get_weight_at p N); auto.
Qed.



Lemma g_zseq_map_nth (f : Z -> F) n c tl : 0 <= c < Z.of_nat n ->
  nth (Z.to_nat c) (map f (zseq 0 n) ++ tl) n0 = f c.
Proof.
  intros Hc. rewrite app_nth1 by (rewrite map_length, zseq_length; lia).
  rewrite (nth_map_in f _ _ 0) by (rewrite zseq_length; lia). rewrite zseq_nth by lia. f_equal. lia.
Qed.

Lemma g_new_cp_ok p d sc first last N idx : g_sized p N -> g_reads_ok p d sc first last N idx ->
  exists tl, new_control_point p idx d sc (nth d idx 0) first last =
    Ok (map (g_newC p d sc first last idx) (zseq 0 (Z.to_nat (ph_dim p))) ++ tl).
Proof.
  intros Hs Hr. pose proof Hr as (Hd & H1 & H2 & H3). unfold new_control_point, g_newC. rewrite (dec_at_ok d idx Hd).
  destruct (Z.gtb_spec (nth d idx 0) last).
  - cbn [bind]. exists []. rewrite app_nil_r. rewrite (g_get_cp_at p N); auto. apply H1; lia.
  - destruct (Z.geb_spec (nth d idx 0) first).
    + cbn [bind]. destruct (H3 ltac:(lia)) as [H4 H5].
      rewrite (vget_nth sc _ n0) by auto. cbn [bind]. unfold g_is_weighted.
      destruct (ph_wts p) as [w|] eqn:Ew.
      * rewrite (g_get_hom_at p N) by (auto; unfold g_is_weighted; rewrite ?Ew; auto; apply H2; lia). cbn [bind].
        rewrite (g_get_hom_at p N) by (auto; unfold g_is_weighted; rewrite ?Ew; auto). cbn [bind].
        rewrite (g_new_weight_ok p d sc first last N) by auto. cbn [bind].
        rewrite map2_app by (now rewrite !map_length). rewrite map2_maps. eexists. reflexivity.
      * exists []. rewrite app_nil_r.
        rewrite (g_get_cp_at p N) by (auto; apply H2; lia). cbn [bind].
        rewrite (g_get_cp_at p N) by auto. cbn [bind]. rewrite map2_maps. reflexivity.
    + exists []. rewrite app_nil_r. apply (g_get_cp_at p N); auto.
Qed.

(* agreement of two nets on the positions below n *)
Definition g_agree p p0 (n : Z) : Prop :=
  forall q, 0 <= q < n -> g_wat p q = g_wat p0 q /\ (forall c, 0 <= c < ph_dim p0 -> g_cpat p q c = g_cpat p0 q c).

Lemma g_agree_newW p p0 n d sc first last idx : ph_npts p = ph_npts p0 -> g_agree p p0 n ->
  g_reads_ok p0 d sc first last n idx -> g_newW p d sc first last idx = g_newW p0 d sc first last idx.
Proof.
  intros En Ha (Hd & H1 & H2 & H3). unfold g_newW, g_pweight. rewrite En.
  destruct (Z.gtb_spec (nth d idx 0) last); [apply Ha; apply H1; lia|].
  destruct (Z.geb_spec (nth d idx 0) first); [|apply Ha; auto].
  f_equal; apply Ha; [apply H2 | apply H3]; lia.
Qed.

Lemma g_agree_newC p p0 n d sc first last idx c : ph_npts p = ph_npts p0 -> g_is_weighted p = g_is_weighted p0 ->
  g_agree p p0 n -> 0 <= c < ph_dim p0 -> g_reads_ok p0 d sc first last n idx ->
  g_newC p d sc first last idx c = g_newC p0 d sc first last idx c.
Proof.
  intros En Ew Ha Hc Hr. pose proof (g_agree_newW p p0 n d sc first last idx En Ha Hr) as EW.
  destruct Hr as (Hd & H1 & H2 & H3). unfold g_newC. rewrite EW, Ew. unfold g_pcoord, g_pweight. rewrite En.
  destruct (Z.gtb_spec (nth d idx 0) last); [apply Ha; auto; apply H1; lia|].
  destruct (Z.geb_spec (nth d idx 0) first); [|apply Ha; auto].
  destruct (Ha (get1d (ph_npts p0) idx)) as [A1 A2]; [apply H2; lia|].
  destruct (Ha (get1d (ph_npts p0) (below d idx))) as [A3 A4]; [apply H3; lia|].
  rewrite A1, A2, A3, A4 by auto. reflexivity.
Qed.




Theorem g_adjust_ok p sc first last d n :
  g_phys_ok p -> (d < length (ph_npts p))%nat -> nth d (ph_npts p) 0 = n ->
  1 <= first -> 0 <= last < n -> last - first + 1 <= zlen sc ->
  exists p', adjust_control_points p sc first last d = Ok p' /\
    ph_dim p' = ph_dim p /\ ph_npts p' = upd (ph_npts p) d (n + 1) /\ g_phys_ok p' /\
    g_is_weighted p' = g_is_weighted p /\
    forall idx, in_box (upd (ph_npts p) d (n + 1)) idx ->
      (forall c, 0 <= c < ph_dim p -> g_pcoord p' idx c = g_newC p d sc first last idx c) /\
      (g_is_weighted p = true -> g_pweight p' idx = g_newW p d sc first last idx).
Proof.
  intros (Hp & Hs) Hd En Hf Hl Hsc. unfold adjust_control_points, npts_at.
  rewrite (dget_nth _ d 0) by auto. rewrite En. cbn [bind].
  set (lens := upd (ph_npts p) d (n + 1)).
  assert (Hn : 1 <= n) by (rewrite <- En; now apply pos_lens_nth).
  assert (HpL : pos_lens lens) by (apply pos_lens_upd; auto; lia).
  assert (HT : total (ph_npts p) = n * total (remove_at d (ph_npts p))).
  { rewrite <- En. symmetry. now apply total_remove_at. }
  assert (HTL : total lens = (n + 1) * total (remove_at d (ph_npts p))) by (now apply total_upd).
  set (m := total (remove_at d (ph_npts p))) in *.
  pose proof (total_pos _ Hp) as HTp.
  assert (Hm : 1 <= m) by nia.
  pose proof Hs as (Hdim & Hcps & Hwts).
  assert (EN : num_control_points p = Ok (total (ph_npts p))).
  { unfold num_control_points, idiv. destruct (Z.eqb_spec (ph_dim p) 0); [lia|].
    f_equal.  rewrite Hcps, Z.mul_comm. apply Z.quot_mul. lia. }
  rewrite EN. cbn [bind].
  assert (EM : idiv (total (ph_npts p)) n = Ok m).
  { unfold idiv. destruct (Z.eqb_spec n 0); [lia|]. f_equal. rewrite HT, Z.mul_comm. apply Z.quot_mul. lia. }
  rewrite EM. cbn [bind].
  set (p1 := add_control_points p m).
  assert (Hs1 : g_sized p1 (total lens)).
  { split; [exact Hdim|]. split.
    - change (zlen (ph_cps p ++ repeat n0 (Z.to_nat m * Z.to_nat (ph_dim p))) = ph_dim p * total lens).
      unfold zlen in *. rewrite app_length, repeat_length.  nia.
    - cbn [p1 add_control_points ph_wts]. intros w E. destruct (ph_wts p) as [w0|]; [|discriminate]. inversion E; subst.
      specialize (Hwts w0 eq_refl). unfold zlen in *. rewrite app_length, repeat_length.  nia. }
  assert (Hw1 : g_is_weighted p1 = g_is_weighted p) by (unfold p1, g_is_weighted; cbn; destruct (ph_wts p); reflexivity).
  assert (Ha1 : g_agree p1 p (total (ph_npts p))).
  { intros q Hq. split.
    - unfold g_wat, p1; cbn [add_control_points ph_wts]. destruct (ph_wts p) as [w|]; auto. cbn [option_map].
      specialize (Hwts w eq_refl). apply app_nth1. unfold zlen in *.  lia.
    - intros c Hc. unfold g_cpat, p1; cbn [add_control_points ph_cps ph_dim]. apply app_nth1. unfold zlen in *.  nia. }
  (* reads *)
  assert (Hreads : forall idx, in_box lens idx ->
            g_reads_ok p d sc first last (Z.min (total (ph_npts p)) (get1d lens idx + 1)) idx).
  { intros idx Hb. pose proof (in_box_length _ _ Hb) as HlenI. unfold lens in HlenI. rewrite upd_length in HlenI.
    assert (Hnn := in_box_nonneg _ _ Hb).
    assert (Hle : get1d (ph_npts p) idx <= get1d lens idx).
    { apply get1d_mono; auto. apply Forall2_upd_le; [|lia]. intros E. rewrite E in Hd. cbn in Hd. lia. }
    assert (Hself : nth d idx 0 <= last -> 0 <= get1d (ph_npts p) idx < total (ph_npts p)).
    { intros Hc. apply get1d_range; auto. apply (in_box_self _ _ d (n + 1)); auto. lia. }
    assert (Hlo : 1 <= nth d idx 0 -> 0 <= get1d (ph_npts p) (below d idx) < Z.min (total (ph_npts p)) (get1d lens idx + 1)).
    { intros Hc. pose proof (below_box _ _ _ _ Hb En Hc Hd) as Hbb.
      pose proof (get1d_range _ _ Hbb).
      assert (get1d (ph_npts p) (below d idx) <= get1d (ph_npts p) idx).
      { apply get1d_idx_mono; auto; [apply below_le|]. unfold below. rewrite upd_length. congruence. }
      lia. }
    split; [lia|]. split; [|split].
    - intros Hc. apply Hlo. lia.
    - intros Hc. specialize (Hself Hc). lia.
    - intros Hc. split; [apply Hlo; lia | lia]. }
  (* the loop *)
  set (Inv := fun (k : nat) (st : phys F) =>
    g_sized st (total lens) /\ ph_dim st = ph_dim p /\ ph_npts st = ph_npts p /\ g_is_weighted st = g_is_weighted p /\
    g_agree st p (Z.min (total (ph_npts p)) (Z.of_nat k)) /\
    forall idx, in_box lens idx -> Z.of_nat k <= get1d lens idx ->
      (forall c, 0 <= c < ph_dim p -> g_cpat st (get1d lens idx) c = g_newC p d sc first last idx c) /\
      (g_is_weighted p = true -> g_wat st (get1d lens idx) = g_newW p d sc first last idx)).
  assert (Etop : mkMih lens (upd (map (fun n0 => n0 - 1) (ph_npts p)) d n) = mkMih lens (nth_index lens (Z.to_nat (total lens) - 1))).
  { rewrite nth_index_top by auto. unfold lens. now rewrite upd_map_pred. }
  rewrite Etop.
  match goal with |- context [mih_for_down ?nn ?h ?body ?s0] =>
    destruct (mih_for_down_inv lens Inv body) with (n := nn) (st := s0) as (st' & Est & Hinv) end; auto.
  - (* step *)
    intros k st Hk (I1 & I2 & I3 & I4 & I5 & I6).
    set (idx := nth_index lens k).
    pose proof (nth_index_box lens k HpL) as Hb. fold idx in Hb.
    assert (Eq : get1d lens idx = Z.of_nat k) by (apply nth_index_get1d; auto).
    pose proof (in_box_length _ _ Hb) as HlenI. unfold lens in HlenI. rewrite upd_length in HlenI.
    cbn [mcur]. rewrite (dget_nth idx d 0) by lia. cbn [bind].
    pose proof (Hreads idx Hb) as Hr. rewrite Eq in Hr.
    assert (Hr' : g_reads_ok st d sc first last (total lens) idx).
    { destruct Hr as (R1 & R2 & R3 & R4). unfold g_reads_ok. rewrite I3. split; [auto|].
      assert (total (ph_npts p) <= total lens) by nia.
      repeat split; intros; try (specialize (R2 ltac:(lia))); try (specialize (R3 ltac:(lia)));
       try (destruct (R4 ltac:(lia))); lia. }
    assert (I5' : g_agree st p (Z.min (total (ph_npts p)) (Z.of_nat k + 1))) by (replace (Z.of_nat k + 1) with (Z.of_nat (S k)) by lia; auto).
    destruct (g_new_cp_ok st d sc first last (total lens) idx I1 Hr') as (tl & Ecp). rewrite Ecp. cbn [bind].
    set (cp := map (g_newC st d sc first last idx) (zseq 0 (Z.to_nat (ph_dim st))) ++ tl).
    assert (Hcp : forall c, 0 <= c < ph_dim p -> nth (Z.to_nat c) cp n0 = g_newC p d sc first last idx c).
    { intros c Hc. unfold cp. rewrite g_zseq_map_nth by (rewrite I2; lia).
      apply (g_agree_newC st p (Z.min (total (ph_npts p)) (Z.of_nat k + 1))); auto. }
    assert (Hcl : ph_dim st <= zlen cp).
    { unfold cp, zlen. rewrite app_length, map_length, zseq_length. lia. }
    rewrite (g_new_weight_ok st d sc first last (total lens)) by auto.
    rewrite (g_agree_newW st p _ d sc first last idx I3 I5' Hr).
    destruct (g_set_cp_at st (total lens) lens idx cp I1 ltac:(rewrite Eq; lia) Hcl) as (st1 & E1 & J1 & J2 & J3 & J4 & J5).
    assert (Jw : g_is_weighted st1 = g_is_weighted st) by (unfold g_is_weighted; now rewrite J4).
    assert (Jwat : forall q, g_wat st1 q = g_wat st q) by (intros; unfold g_wat; now rewrite J4).
    destruct (ph_wts st) as [wst|] eqn:Ew.
    + cbn [bind]. rewrite E1. cbn [bind].
      assert (Wp : g_is_weighted p = true) by (rewrite <- I4; unfold g_is_weighted; now rewrite Ew).
      destruct (g_set_w_at st1 (total lens) lens idx (g_newW p d sc first last idx) J1 ltac:(rewrite Eq; lia) ltac:(congruence))
        as (st2 & E2 & K1 & K2 & K3 & K4 & K5 & K6).
      exists st2. split; [exact E2|].
      assert (Hc2 : forall q c, g_cpat st2 q c = g_cpat st1 q c) by (intros; unfold g_cpat; now rewrite K2, K5).
      split; [auto|]. split; [congruence|]. split; [congruence|]. split; [congruence|]. split.
      * intros q Hq. rewrite K6 by lia. destruct (Z.eqb_spec q (get1d lens idx)); [lia|]. split.
        -- rewrite Jwat. apply I5. lia.
        -- intros c Hc. rewrite Hc2, J5 by (try lia; rewrite I2; auto).
           destruct (Z.eqb_spec q (get1d lens idx)); [lia|]. apply I5; auto. lia.
      * intros idx' Hb' Hk'. rewrite K6 by lia. destruct (Z.eqb_spec (get1d lens idx') (get1d lens idx)) as [Ee|Ee].
        -- assert (idx' = idx) by (apply (get1d_inj lens); auto). subst idx'. split; auto.
           intros c Hc. rewrite Hc2, J5 by (try lia; rewrite I2; auto). rewrite Z.eqb_refl. now apply Hcp.
        -- destruct (I6 idx' Hb' ltac:(lia)) as [I7 I8]. split.
           ++ intros c Hc. rewrite Hc2, J5 by (try lia; rewrite I2; auto).
              destruct (Z.eqb_spec (get1d lens idx') (get1d lens idx)); [lia|]. now apply I7.
           ++ intros _. rewrite <- I8 by auto. apply Jwat.
    + exists st1. split; [exact E1|].
      split; [auto|]. split; [congruence|]. split; [congruence|]. split; [congruence|]. split.
      * intros q Hq. split.
        -- rewrite Jwat. apply I5. lia.
        -- intros c Hc. rewrite J5 by (try lia; rewrite I2; auto).
           destruct (Z.eqb_spec q (get1d lens idx)); [lia|]. apply I5; auto. lia.
      * intros idx' Hb' Hk'.
        assert (Wp : g_is_weighted p = false) by (rewrite <- I4; unfold g_is_weighted; now rewrite Ew).
        split; [|congruence]. intros c Hc. rewrite J5 by (try lia; rewrite I2; auto).
        destruct (Z.eqb_spec (get1d lens idx') (get1d lens idx)) as [Ee|Ee].
        -- assert (idx' = idx) by (apply (get1d_inj lens); auto). subst idx'. now apply Hcp.
        -- apply (I6 idx' Hb' ltac:(lia)); auto.
  - rewrite Z2Nat.id by nia. lia.
  - (* start *)
    split; [auto|]. split; [reflexivity|]. split; [reflexivity|]. split; [auto|]. split.
    + intros q Hq. apply Ha1. lia.
    + intros idx Hb Hk. pose proof (get1d_range _ _ Hb). lia.
  - (* result *)
    rewrite Est. cbn [bind]. exists (set_npts st' lens).
    destruct Hinv as (I1 & I2 & I3 & I4 & I5 & I6).
    split; [reflexivity|]. split; [exact I2|]. split; [reflexivity|]. split; [split; [exact HpL | exact I1]|].
    split; [exact I4|]. intros idx Hb. pose proof (get1d_range _ _ Hb) as Hg.
    destruct (I6 idx Hb ltac:(lia)) as [I7 I8]. split; [exact I7 | exact I8].
Qed.
End Any.
