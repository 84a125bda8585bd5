(* SudivideSpline in doubles: splitting at a knot of full multiplicity copies knots, control points and weights. *)
From Coq Require Import ZArith List Bool Lia Reals Floats Lra Permutation.
From Verif Require Import Base BaseFacts RSum MultiIndex MultiIndexSpec MultiIndexFacts TensorSum
  KnotVec KnotVecSpec KnotVecFacts Boehm Basis BasisSpec BSplineTheory BasisFacts VecUtils
  Spaces SpacesSpec SpacesFacts SplineEval SplineEdit SplineSpec EvalFacts RationalDeriv EvalDeriv EvalThms SplineNew
  PhysFacts AdjustFacts InsertKnots InsertFacts InsertThms EditSpec AdjustAny SubdivideFacts SubdividePieces SubdivideThms
  DoubleSpec DoubleRationalSpec DoubleFacts DoubleError DoubleKnots DoubleBasis DoubleSum DoubleEval DoubleThms DoubleRationalEval DoubleRationalThms
  DoubleMix DoubleMixRational DoubleInsert DoubleInsertThms DoubleInsertRational DoubleInsertRationalThms DoubleNurbsInsert.
Import ListNotations.
Open Scope Z_scope.

(* ---- the net of a piece, over any arithmetic ---- *)
Lemma g_divided {F : NumOps} (ph : phys F) first len d : g_phys_ok ph -> (d < length (ph_npts ph))%nat ->
  0 <= first -> 1 <= len -> first + len <= nth d (ph_npts ph) 0 ->
  divided_control_points ph first len d =
    Ok (map (fun idx => map (g_pcoord ph (moved d first idx)) (zseq 0 (Z.to_nat (ph_dim ph)))) (visited (upd (ph_npts ph) d len))) /\
  divided_weights ph first len d =
    Ok (map (fun idx => g_pweight ph (moved d first idx)) (visited (upd (ph_npts ph) d len))).
Proof.
  intros (Hp & Hs) Hd Hf Hl Hfl.
  destruct (nth_error (ph_npts ph) d) as [m|] eqn:Em; [|apply nth_error_None in Em; lia].
  assert (En : npts_at ph d (fun _ => len) = Ok (upd (ph_npts ph) d len)).
  { unfold npts_at, dget. now rewrite Em. }
  assert (Hpl : pos_lens (upd (ph_npts ph) d len)) by now apply pos_lens_upd.
  assert (Hidx : forall idx, In idx (visited (upd (ph_npts ph) d len)) -> in_box (upd (ph_npts ph) d len) idx).
  { intros idx H. now apply visited_In. }
  assert (Hdg : forall idx, in_box (upd (ph_npts ph) d len) idx -> dget idx d = Ok (nth d idx 0)).
  { intros idx H. apply in_box_length in H. rewrite upd_length in H. unfold dget.
    destruct (nth_error idx d) eqn:E; [f_equal; symmetry; now apply nth_error_nth | apply nth_error_None in E; lia]. }
  split.
  - unfold divided_control_points. rewrite En. cbn [bind]. rewrite mih_loop_visited. cbn [mcur].
    rewrite <- (app_nil_l (map _ (visited _))).
    rewrite <- (foldM_collect (fun idx => i <- dget idx d ;; get_control_point ph (upd idx d (i + first)))).
    + apply foldM_fuse.
    + intros idx H. specialize (Hidx idx H). rewrite Hdg by auto. cbn [bind]. fold (moved d first idx).
      apply (g_get_cp_at ph (total (ph_npts ph))); auto. apply get1d_range. now apply (moved_box _ _ _ len).
  - unfold divided_weights. rewrite En. cbn [bind]. rewrite mih_loop_visited. cbn [mcur].
    rewrite <- (app_nil_l (map _ (visited _))).
    rewrite <- (foldM_collect (fun idx => i <- dget idx d ;; get_weight ph (upd idx d (i + first)))).
    + apply foldM_fuse.
    + intros idx H. specialize (Hidx idx H). rewrite Hdg by auto. cbn [bind]. fold (moved d first idx).
      apply (g_get_weight_at ph (total (ph_npts ph))); auto. apply get1d_range. now apply (moved_box _ _ _ len).
Qed.

(* the piece as a record *)
Definition piece_net (ph : phys Fops) (first len : Z) (d : nat) : phys Fops :=
  let lens := upd (ph_npts ph) d len in
  mkPhys (F := Fops) (ph_dim ph) lens
    (concat (map (fun idx => map (g_pcoord ph (moved d first idx)) (zseq 0 (Z.to_nat (ph_dim ph)))) (visited lens)))
    (match ph_wts ph with None => None | Some _ => Some (map (fun idx => g_pweight ph (moved d first idx)) (visited lens)) end).

Lemma fbases_ok (knots : list (list float)) degs : Forall2 double_direction knots degs ->
  create_bases (F := Fops) knots degs = Ok (map2 dbfs knots degs).
Proof.
  intros Hg. unfold create_bases. induction Hg as [|k q ks qs Hd _ IH]; cbn [combine mapM map2]; auto.
  destruct (double_finite k q Hd) as (A & B & C & D). cbn [fst snd]. rewrite dcreate_all by lia. cbn [bind].
  change (num Fops) with float in *. rewrite IH. reflexivity.
Qed.

Lemma skipn_twice {A} (l : list A) a b : skipn a (skipn b l) = skipn (a + b) l.
Proof.
  revert l. induction b as [|b IH]; intros l; [now rewrite Nat.add_0_r|]. rewrite Nat.add_succ_r. destruct l as [|x l]; [now destruct a | apply IH].
Qed.

Section Split.
Variables (knots : list (list float)) (degs : list Z) (d : nat) (kv : list float) (p : Z) (u : float) (n : nat) (ph : phys Fops).
Hypothesis Hg : Forall2 double_direction knots degs.
Hypothesis Ek : nth_error knots d = Some kv.
Hypothesis Ed : nth_error degs d = Some p.
Hypothesis Mu : moderate u.
Hypothesis Hin : inner (map dval kv) p (dval u) n.
Hypothesis Hfull : Z.of_nat (occurrences (map dval kv) (dval u)) = p + 1.
Hypothesis Hph : g_phys_ok ph.
Hypothesis En : ph_npts ph = point_counts knots degs.
Hypothesis Ht : total (ph_npts ph) < 2 ^ 64.

Definition fleft : list float := firstn n kv.
Definition fright : list float := skipn (n - 1 - Z.to_nat p) kv.

Lemma map_fleft : map dval fleft = left_part (map dval kv) n.
Proof. unfold fleft, left_part. symmetry. apply firstn_map. Qed.
Lemma map_fright : map dval fright = right_part (map dval kv) p n.
Proof. unfold fright, right_part. symmetry. apply skipn_map. Qed.

Lemma split_kv : double_direction kv p.
Proof. eapply Forall2_nth_error; eauto. Qed.
Lemma split_sizes : 0 <= p /\ 2 * p + 2 <= Z.of_nat n /\ Z.of_nat n + p + 1 <= zlen kv.
Proof. pose proof (part_sizes _ _ _ _ Hin Hfull) as H. rewrite zlen_map in H. exact H. Qed.
Lemma fleft_zlen : zlen fleft = Z.of_nat n.
Proof. pose proof split_sizes. unfold fleft, zlen in *. rewrite firstn_length. lia. Qed.
Lemma fright_zlen : zlen fright = zlen kv - (Z.of_nat n - 1 - p).
Proof. pose proof split_sizes. unfold fright, zlen in *. rewrite skipn_length. lia. Qed.
Lemma fleft_dir : double_direction fleft p.
Proof.
  destruct split_kv as [Mk _]. split.
  - unfold fleft. apply Forall_forall. intros x Hx. rewrite Forall_forall in Mk. apply Mk. rewrite <- (firstn_skipn n kv). apply in_or_app. auto.
  - rewrite map_fleft. now apply (left_good _ _ (dval u)).
Qed.
Lemma fright_dir : double_direction fright p.
Proof.
  destruct split_kv as [Mk _]. split.
  - unfold fright. apply Forall_forall. intros x Hx. rewrite Forall_forall in Mk. apply Mk. rewrite <- (firstn_skipn (n - 1 - Z.to_nat p) kv). apply in_or_app. auto.
  - rewrite map_fright. now apply (right_good _ _ (dval u)).
Qed.
Lemma fleft_ends : first_knot (map dval fleft) = first_knot (map dval kv) /\ final_knot (map dval fleft) = dval u.
Proof. rewrite map_fleft. now apply (left_ends _ p). Qed.
Lemma fright_ends : first_knot (map dval fright) = dval u /\ final_knot (map dval fright) = final_knot (map dval kv).
Proof. rewrite map_fright. now apply right_ends. Qed.
Lemma parts_join : fleft ++ skipn (Z.to_nat (p + 1)) fright = kv.
Proof.
  pose proof split_sizes as (H1 & H2 & H3). unfold fleft, fright. rewrite skipn_twice.
  replace (Z.to_nat (p + 1) + (n - 1 - Z.to_nat p))%nat with n by lia. apply firstn_skipn.
Qed.

Lemma fknots_range lo m : 0 <= lo -> lo + Z.of_nat m <= zlen kv ->
  mapM (get_knot (F := Fops) kv) (zseq lo m) = Ok (firstn m (skipn (Z.to_nat lo) kv)).
Proof.
  intros Hlo Hm. rewrite (mapM_ok _ (fun i => nth (Z.to_nat i) kv 0%float)).
  2:{ intros i Hi. apply zseq_In in Hi. exact (vget_nth (A := float) kv i 0%float ltac:(lia)). }
  f_equal. apply nth_ext with 0%float 0%float.
  { rewrite map_length, zseq_length, firstn_length, skipn_length. unfold zlen in *. change (num Fops) with float. lia. }
  intros k Hk. rewrite map_length, zseq_length in Hk.
  rewrite (nth_map_in _ _ _ 0) by (rewrite zseq_length; lia). rewrite zseq_nth by lia.
  transitivity (nth k (skipn (Z.to_nat lo) kv) 0%float).
  - clear - Hlo. replace (Z.to_nat (lo + Z.of_nat k)) with (Z.to_nat lo + k)%nat by lia. generalize (Z.to_nat lo) as a. intros a. revert kv. induction a as [|a IH]; intros kv; cbn [Nat.add skipn]; auto.
    destruct kv; cbn [nth]; [destruct k; reflexivity | apply IH].
  - generalize (skipn (Z.to_nat lo) kv) as l. clear - Hk. revert k Hk. induction m as [|m IH]; intros k Hk l; [lia|].
    destruct l as [|x l]; [destruct k; reflexivity|]. destruct k; cbn; auto. apply IH. lia.
Qed.

Lemma fdivided_knots : divided_knot_vectors (fmkps knots degs) u d = Ok (upd knots d fleft, upd knots d fright).
Proof.
  destruct split_sizes as (H1 & H2 & H3). destruct split_kv as [Mk _].
  unfold divided_knot_vectors, dget. cbn [ps_knots ps_degs fmkps]. change (num Fops) with float. rewrite Ek. cbn [bind]. rewrite Ed. cbn [bind].
  rewrite (f_span kv p u n Mk Mu Hin). cbn [bind].
  rewrite fknots_range by (unfold zlen in *; lia). cbn [bind].
  rewrite fknots_range by (unfold zlen in *; lia). cbn [bind].
  match goal with |- Ok (upd _ _ ?a, upd _ _ ?b) = _ =>
    replace a with fleft; [replace b with fright; [reflexivity|]|] end; unfold fleft, fright.
  - replace (Z.to_nat (Z.of_nat n - 1 - p)) with (n - 1 - Z.to_nat p)%nat by lia. symmetry.
    apply firstn_all2. rewrite skipn_length. unfold zlen in *. lia.
  - cbn [Z.to_nat skipn]. f_equal. lia.
Qed.

(* one piece *)
Variables (kv' : list float) (first : Z).
Hypothesis Hkv' : double_direction kv' p.
Hypothesis Hfirst : 0 <= first.
Hypothesis Hroom : first + (zlen kv' - p - 1) <= zlen kv - p - 1.
Let len := zlen kv' - p - 1.
Let ph1 := piece_net ph first len d.

Lemma piece_len : 1 <= len.
Proof. destruct (double_finite kv' p Hkv') as (_ & _ & ? & ?). unfold len. lia. Qed.
Lemma piece_dirs : Forall2 double_direction (upd knots d kv') degs.
Proof. apply Forall2_upd; auto. intros q Eq. replace q with p by congruence. exact Hkv'. Qed.
Lemma piece_counts : ph_npts ph1 = point_counts (upd knots d kv') degs.
Proof. cbn [ph1 piece_net ph_npts]. rewrite (counts_upd knots degs d p Ed), En. reflexivity. Qed.
Lemma net_d : (d < length (ph_npts ph))%nat /\ nth d (ph_npts ph) 0 = zlen kv - p - 1.
Proof. rewrite En. now apply counts_nth. Qed.
Lemma piece_pos : pos_lens (upd (ph_npts ph) d len).
Proof. apply pos_lens_upd; [apply Hph | apply piece_len]. Qed.

Let pts : list (list float) := map (fun idx => map (fun c => g_pcoord ph (moved d first idx) c : float) (zseq 0 (Z.to_nat (ph_dim ph)))) (visited (upd (ph_npts ph) d len)).
Lemma pts_rows : Forall (fun cp => zlen cp = ph_dim ph) pts.
Proof.
  apply Forall_forall. intros cp Hcp. unfold pts in Hcp. apply in_map_iff in Hcp as (idx & <- & _).
  unfold zlen. rewrite map_length, zseq_length. pose proof Hph as (_ & ? & _). lia.
Qed.
Lemma pts_zlen : zlen pts = total (upd (ph_npts ph) d len).
Proof. unfold pts, zlen. rewrite map_length, visited_length. pose proof (total_pos _ piece_pos). lia. Qed.

Lemma piece_phys : g_phys_ok ph1.
Proof.
  split; [exact piece_pos|]. split; [apply Hph|]. split.
  - cbn [ph1 piece_net ph_cps ph_dim ph_npts]. fold pts. etransitivity; [exact (fconcat_zlen pts (ph_dim ph) pts_rows)|]. f_equal. exact pts_zlen.
  - cbn [ph1 piece_net ph_wts ph_npts]. intros w E. destruct (ph_wts ph); [|discriminate]. injection E as <-.
    unfold zlen. rewrite map_length, visited_length. pose proof (total_pos _ piece_pos). lia.
Qed.

Lemma piece_in idx : in_box (ph_npts ph1) idx -> in_box (ph_npts ph) (moved d first idx).
Proof. intros Hb. destruct net_d as [A B]. apply (moved_box _ _ _ len); auto. unfold len. lia. Qed.

Lemma piece_coord idx c : in_box (ph_npts ph1) idx -> 0 <= c < ph_dim ph -> g_pcoord ph1 idx c = g_pcoord ph (moved d first idx) c.
Proof.
  intros Hb Hc. unfold g_pcoord at 1, g_cpat. cbn [ph1 piece_net ph_cps ph_dim]. fold pts. fold ph1.
  pose proof (get1d_range _ _ Hb) as Hr. cbn [ph1 piece_net ph_npts] in Hb, Hr.
  change (num Fops) with float. change (@n0 Fops) with 0%float. cbn [ph1 piece_net ph_npts].
  rewrite (fconcat_nth pts (ph_dim ph)); [| exact pts_rows | rewrite pts_zlen; exact Hr | exact Hc].
  unfold pts. rewrite (visited_nth _ _ _ [] Hb).
  rewrite (nth_map_in _ _ _ 0) by (rewrite zseq_length; lia). rewrite zseq_nth by lia. f_equal. lia.
Qed.

Lemma piece_weighted : g_is_weighted ph1 = g_is_weighted ph.
Proof. unfold g_is_weighted. cbn [ph1 piece_net ph_wts]. destruct (ph_wts ph); reflexivity. Qed.

Lemma piece_weight idx : in_box (ph_npts ph1) idx -> g_pweight ph1 idx = g_pweight ph (moved d first idx).
Proof.
  intros Hb. unfold g_pweight at 1, g_wat. cbn [ph1 piece_net ph_wts].
  destruct (ph_wts ph) as [w|] eqn:Ew; [|unfold g_pweight, g_wat; now rewrite Ew].
  cbn [ph1 piece_net ph_npts] in *. now rewrite (visited_nth _ _ _ n0 Hb).
Qed.

Lemma piece_bounded M : bounded ph M -> bounded ph1 M.
Proof.
  intros Hb. unfold bounded. cbn [ph1 piece_net ph_cps]. apply Forall_forall. intros x Hx. apply in_concat in Hx as (row & Hrow & Hx).
  apply in_map_iff in Hrow as (idx & <- & Hidx). apply in_map_iff in Hx as (c & <- & Hc). apply zseq_In in Hc.
  apply visited_In in Hidx; [|exact piece_pos].
  pose proof Hph as (_ & Hs). apply (bounded_at ph M _ c _ Hs Hb); [|pose proof Hs as (? & _); lia].
  apply get1d_range. now apply piece_in.
Qed.
Lemma piece_wbounded M m W : wbounded ph M m W -> wbounded ph1 M m W.
Proof.
  intros Hb. split; [apply piece_bounded; apply Hb|]. destruct Hb as (Hb & w & Ew & Hw). cbn [ph1 piece_net ph_wts]. rewrite Ew.
  eexists. split; [reflexivity|]. apply Forall_forall. intros x Hx. apply in_map_iff in Hx as (idx & <- & Hidx).
  apply visited_In in Hidx; [|exact piece_pos]. pose proof Hph as (_ & Hs).
  apply (wbounded_at ph M m W _ _ Hs); [split; eauto|]. apply get1d_range. now apply piece_in.
Qed.

Lemma piece_total : total (ph_npts ph1) < 2 ^ 64.
Proof.
  destruct net_d as [A B]. cbn [ph1 piece_net ph_npts]. eapply Z.le_lt_trans; [|exact Ht].
  apply total_upd_le; auto; [apply Hph|]. pose proof piece_len. unfold len in *. lia.
Qed.

Lemma piece_made : make_piece (mkSpline (F := Fops) (fmkps knots degs) ph) (upd knots d kv') first d =
  Ok (len, mkSpline (F := Fops) (fmkps (upd knots d kv') degs) ph1).
Proof.
  destruct net_d as [A B]. pose proof piece_len as Hl. pose proof piece_total as Htt.
  destruct (g_divided (F := Fops) ph first len d Hph A Hfirst Hl ltac:(unfold len; lia)) as [E1 E2].
  assert (Hsp : spline_new (F := Fops) (upd knots d kv') degs pts (ph_wts ph1) = Ok (mkSpline (F := Fops) (fmkps (upd knots d kv') degs) ph1)).
  { assert (Z1 : zlen pts = total (point_counts (upd knots d kv') degs)) by (rewrite <- piece_counts; exact pts_zlen).
    assert (Z2 : zlen pts < 2 ^ 64) by (rewrite pts_zlen; exact Htt).
    assert (Eph : ph1 = mkPhys (F := Fops) (ph_dim ph) (point_counts (upd knots d kv') degs) (concat pts) (ph_wts ph1)).
    { rewrite <- piece_counts. reflexivity. }
    destruct (ph_wts ph1) as [w|] eqn:Ew; rewrite Eph.
    - apply fspline_new_w; auto using piece_dirs, pts_rows.
      pose proof piece_phys as (_ & _ & _ & Q). specialize (Q w Ew). change (num Fops) with float in Q. rewrite pts_zlen. exact Q.
    - apply fspline_new_ok; auto using piece_dirs, pts_rows. }
  unfold make_piece, dget, sp_deg. cbn [sp_ps ps_degs fmkps sp_ph]. change (num Fops) with float.
  rewrite (nth_error_upd_same _ _ _ kv) by auto. cbn [bind]. unfold dget. rewrite Ed. cbn [bind]. change (num Fops) with float. fold len.
  change (num Fops) with float in E1, E2. rewrite E1. cbn [bind]. fold pts.
  assert (Ew : match ph_wts ph with Some _ => w <- divided_weights ph first len d;; Ok (Some w) | None => Ok None end = Ok (ph_wts ph1)).
  { cbn [ph1 piece_net ph_wts]. destruct (ph_wts ph); auto. change (num Fops) with float. rewrite E2. reflexivity. }
  match goal with |- bind ?m _ = _ => replace m with (Ok (ph_wts ph1)) by (symmetry; exact Ew) end. cbn [bind].
  match goal with |- bind ?m _ = _ => replace m with (Ok (mkSpline (F := Fops) (fmkps (upd knots d kv') degs) ph1)) by (symmetry; exact Hsp) end. cbn [bind].
  unfold spline_copy, ps_copy. cbn [sp_ps ps_knots ps_degs fmkps].
  pose proof (fbases_ok (upd knots d kv') degs piece_dirs) as Eb. change (num Fops) with float in Eb. rewrite Eb. reflexivity.
Qed.
End Split.
