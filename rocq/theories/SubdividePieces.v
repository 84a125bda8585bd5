(* SudivideSpline: the two pieces and their nets. *)
From Coq Require Import ZArith List Bool Lia Reals Lra.
From Verif Require Import Base BaseFacts RSum MultiIndex MultiIndexSpec MultiIndexFacts TensorSum
  KnotVec KnotVecSpec KnotVecFacts BSplineTheory Boehm BasisSpec Basis BasisFacts VecUtils Spaces SpacesSpec SpacesFacts
  SplineEval SplineEdit SplineSpec EvalFacts RationalDeriv EvalDeriv SplineNew EvalThms PhysFacts AdjustFacts InsertKnots
  InsertFacts EditSpec InsertThms SubdivideFacts.
Import ListNotations.
Open Scope Z_scope.

Section Pieces.
Variable dz : R -> R.
Local Notation F := (Rops dz).
Implicit Types s : spline F.

(* two splines that differ in one direction have equal sums when the sums along that direction agree *)
Lemma dir_sums s s' d kv kv' p (c c' : list Z -> R) us :
  well_formed s -> well_formed s' ->
  nth_error (knots_of s) d = Some kv -> nth_error (degs_of s) d = Some p ->
  knots_of s' = upd (knots_of s) d kv' -> degs_of s' = degs_of s ->
  in_domain s us -> in_domain s' us ->
  (forall k k' r v, nth_error us d = Some v -> in_span kv k v -> in_span kv' k' v ->
     (d <= length r)%nat ->
     (forall i, 0 <= i < zlen kv - p - 1 -> in_box (npts_of s) (insat d i r)) ->
     (forall i, 0 <= i < zlen kv' - p - 1 -> in_box (npts_of s') (insat d i r)) ->
     lsum (fun i => c (insat d i r) * B (tk kv) k (Z.to_nat p) i v)%R (zseq 0 (Z.to_nat (zlen kv - p - 1))) =
     lsum (fun i => c' (insat d i r) * B (tk kv') k' (Z.to_nat p) i v)%R (zseq 0 (Z.to_nat (zlen kv' - p - 1)))) ->
  lsum (fun idx => basis_product (knots_of s') (degs_of s') us idx * c' idx)%R (all_indices (npts_of s')) =
  lsum (fun idx => basis_product (knots_of s) (degs_of s) us idx * c idx)%R (all_indices (npts_of s)).
Proof.
  intros Hwf Hwf' Ek Ed Ek' Ed' Hdom Hdom' Hline.
  destruct (wf_dirs dz s us Hwf Hdom) as (L & HL & Eu & H0).
  destruct (wf_dirs dz s' us Hwf' Hdom') as (L' & HL' & Eu' & H0').
  assert (Euu : map du L' = map du L) by congruence.
  destruct (dirs_differ dz s s' L L' d kv kv' p HL HL' H0 H0' Euu Ek Ed Ek' Ed')
    as (x & x' & Ex & EL & Gx & Gx' & Kx & Kx' & Px & Px' & Ux & Mx & Mx').
  assert (Ev : nth_error us d = Some (du x)) by (rewrite Eu, nth_error_map, Ex; reflexivity).
  rewrite Eu. rewrite (full_sum dz s L c) by auto. rewrite <- Euu. rewrite (full_sum dz s' L' c') by auto.
  symmetry. rewrite EL, !map_upd.
  assert (Hd : (d < length L)%nat) by (apply nth_error_Some; congruence).
  assert (Enx : nth d (map dfactor L) (fun _ => 0%R) = dfactor x).
  { rewrite (nth_map_in dfactor L d x) by auto. f_equal. now apply nth_error_nth. }
  assert (Enr : nth d (map drange L) [] = drange x).
  { rewrite (nth_map_in drange L d x) by auto. f_equal. now apply nth_error_nth. }
  apply tsum_dir; [now rewrite map_length | now rewrite !map_length|].
  intros r Hr. rewrite Enx, Enr.
  assert (Hlr : length r = (length L - 1)%nat).
  { apply boxl_length in Hr. rewrite Hr, remove_at_length; rewrite map_length; lia. }
  assert (Hrb : in_box (remove_at d (map dlen L)) r).
  { apply all_indices_box. rewrite all_indices_boxl.
    replace (map (fun n => zseq 0 (Z.to_nat n)) (remove_at d (map dlen L))) with (remove_at d (map drange L)); auto.
    rewrite <- (lensL_ranges L). unfold lensL. clear. revert d; induction L as [|x L IH]; intros [|d]; cbn; auto. now rewrite IH. }
  pose proof Gx as (_ & Sx & _). pose proof Gx' as (_ & Sx' & _).
  rewrite Kx in Sx. rewrite Kx', Ux in Sx'.
  destruct (wfL_of dz s L HL) as (_ & _ & En). destruct (wfL_of dz s' L' HL') as (_ & _ & En').
  unfold lensL in En, En'. rewrite EL, map_upd in En'.
  assert (Ndx : nth d (map dlen L) 0 = zlen kv - p - 1).
  { rewrite (nth_map_in dlen L d x) by auto. erewrite nth_error_nth by eauto. unfold dlen. now rewrite Kx, Px. }
  specialize (Hline (dsp x) (dsp x') r (du x) Ev Sx Sx' ltac:(lia)).
  etransitivity; [|etransitivity; [apply Hline|]].
  - unfold drange, dlen. rewrite Kx, Px. apply lsum_ext. intros i _. rewrite dfactor_0 by auto. rewrite Kx, Px. ring.
  - intros i Hi. rewrite En. apply in_box_insat_range; auto; [now rewrite map_length | now rewrite Ndx].
  - intros i Hi. rewrite En'. apply in_box_insat_range; [now rewrite upd_length, map_length| |now rewrite remove_at_upd].
    rewrite nth_upd_same by (now rewrite map_length). unfold dlen. now rewrite Kx', Px'.
  - unfold drange, dlen. rewrite Kx', Px'. apply lsum_ext. intros i _. rewrite dfactor_0 by auto. rewrite Kx', Px', Ux. ring.
Qed.

(* ---- slices of the control net ---- *)
Definition moved (d : nat) (first : Z) (idx : list Z) : list Z := upd idx d (nth d idx 0 + first).

Lemma foldM_collect {A C} (f : A -> Res C) (g : A -> C) l acc : (forall a, In a l -> f a = Ok (g a)) ->
  foldM (fun acc a => x <- f a ;; Ok (acc ++ [x])) l acc = Ok (acc ++ map g l).
Proof.
  revert acc; induction l as [|a l IH]; intros acc H; cbn [foldM map].
  - now rewrite app_nil_r.
  - rewrite H by now left. cbn [bind]. rewrite IH by (intros; apply H; now right). now rewrite <- app_assoc.
Qed.

Lemma foldM_fuse {A C D} (f : A -> Res C) (g : A -> C -> Res D) l : forall acc,
  foldM (fun acc a => i <- f a ;; y <- g a i ;; Ok (acc ++ [y])) l acc =
  foldM (fun acc a => x <- (i <- f a ;; g a i) ;; Ok (acc ++ [x])) l acc.
Proof.
  induction l as [|a l IH]; intros acc; cbn [foldM]; auto.
  destruct (f a); cbn [bind]; auto. destruct (g a a0); cbn [bind]; auto.
Qed.

Lemma moved_box npts d first len idx : in_box (upd npts d len) idx -> (d < length npts)%nat ->
  0 <= first -> first + len <= nth d npts 0 -> in_box npts (moved d first idx).
Proof.
  intros Hb Hd Hf Hl. pose proof (in_box_nth _ _ d Hb ltac:(now rewrite upd_length)) as Hj. rewrite nth_upd_same in Hj by auto.
  apply (in_box_upd npts idx d _ len); auto. lia.
Qed.

Lemma divided_ok (ph : phys F) first len d : phys_ok dz ph -> (d < length (ph_npts ph))%nat ->
  0 <= first -> 1 <= len -> first + len <= nth d (ph_npts ph) 0 ->
  divided_control_points ph first len d =
    Ok (map (fun idx => map (pcoord dz ph (moved d first idx)) (zseq 0 (Z.to_nat (ph_dim ph)))) (visited (upd (ph_npts ph) d len))) /\
  divided_weights ph first len d =
    Ok (map (fun idx => pweight dz ph (moved d first idx)) (visited (upd (ph_npts ph) d len))).
Proof.
  intros (Hp & Hs) Hd Hf Hl Hfl.
  destruct (nth_error (ph_npts ph) d) as [m|] eqn:Em; [|apply nth_error_None in Em; lia].
  assert (En : npts_at ph d (fun _ => len) = Ok (upd (ph_npts ph) d len)).
  { unfold npts_at, dget. now rewrite Em. }
  assert (Hpl : pos_lens (upd (ph_npts ph) d len)) by now apply pos_lens_upd.
  assert (Hidx : forall idx, In idx (visited (upd (ph_npts ph) d len)) -> in_box (upd (ph_npts ph) d len) idx).
  { intros idx H. now apply visited_In. }
  assert (Hdg : forall idx, in_box (upd (ph_npts ph) d len) idx -> dget idx d = Ok (nth d idx 0)).
  { intros idx H. apply in_box_length in H. rewrite upd_length in H. unfold dget.
    destruct (nth_error idx d) eqn:E; [f_equal; symmetry; now apply nth_error_nth | apply nth_error_None in E; lia]. }
  split.
  - unfold divided_control_points. rewrite En. cbn [bind]. rewrite mih_loop_visited. cbn [mcur].
    rewrite <- (app_nil_l (map _ (visited _))).
    rewrite <- (foldM_collect (fun idx => i <- dget idx d ;; get_control_point ph (upd idx d (i + first)))).
    + apply foldM_fuse.
    + intros idx H. specialize (Hidx idx H). rewrite Hdg by auto. cbn [bind]. fold (moved d first idx).
      apply (get_cp_at dz ph (total (ph_npts ph))); auto. apply get1d_range. now apply (moved_box _ _ _ len).
  - unfold divided_weights. rewrite En. cbn [bind]. rewrite mih_loop_visited. cbn [mcur].
    rewrite <- (app_nil_l (map _ (visited _))).
    rewrite <- (foldM_collect (fun idx => i <- dget idx d ;; get_weight ph (upd idx d (i + first)))).
    + apply foldM_fuse.
    + intros idx H. specialize (Hidx idx H). rewrite Hdg by auto. cbn [bind]. fold (moved d first idx).
      apply (get_weight_at dz ph (total (ph_npts ph))); auto. apply get1d_range. now apply (moved_box _ _ _ len).
Qed.

Lemma visited_length lens : length (visited lens) = Z.to_nat (total lens).
Proof. unfold visited. now rewrite map_length, seq_length. Qed.

Lemma visited_nth {A} (f : list Z -> A) lens idx a : in_box lens idx ->
  nth (Z.to_nat (get1d lens idx)) (map f (visited lens)) a = f idx.
Proof.
  intros H. pose proof (get1d_range _ _ H) as Hr.
  rewrite (nth_map_in f (visited lens) _ (origin lens)) by (rewrite visited_length; lia). f_equal.
  unfold visited. rewrite (nth_map_in (nth_index lens) _ _ 0%nat) by (rewrite seq_length; lia).
  rewrite seq_nth by lia. cbn [Nat.add]. now apply nth_index_of_get1d.
Qed.

Lemma total_upd_le lens d n : pos_lens lens -> (d < length lens)%nat -> 0 <= n <= nth d lens 0 -> total (upd lens d n) <= total lens.
Proof.
  intros Hp Hd Hn. rewrite total_upd by auto. rewrite <- (total_remove_at lens d) by auto.
  assert (0 <= total (remove_at d lens)).
  { assert (pos_lens (remove_at d lens)) by (unfold pos_lens in *; clear - Hp; revert d; induction Hp; intros [|d]; cbn; auto; constructor; auto).
    pose proof (total_pos _ H). lia. }
  nia.
Qed.

Lemma piece_ok s d kv p kv' first : well_formed s ->
  nth_error (knots_of s) d = Some kv -> nth_error (degs_of s) d = Some p -> good_direction kv' p ->
  0 <= first -> first + (zlen kv' - p - 1) <= zlen kv - p - 1 -> total (npts_of s) < 2 ^ 64 ->
  exists s', make_piece s (upd (knots_of s) d kv') first d = Ok (zlen kv' - p - 1, s') /\ well_formed s' /\
    knots_of s' = upd (knots_of s) d kv' /\ degs_of s' = degs_of s /\ ph_dim (sp_ph s') = ph_dim (sp_ph s) /\
    is_weighted dz (sp_ph s') = is_weighted dz (sp_ph s) /\
    npts_of s' = upd (npts_of s) d (zlen kv' - p - 1) /\
    forall idx, in_box (npts_of s') idx -> in_box (npts_of s) (moved d first idx) /\ weight s' idx = weight s (moved d first idx) /\
      forall c, 0 <= c < ph_dim (sp_ph s) -> coordinate s' idx c = coordinate s (moved d first idx) c.
Proof.
  intros Hwf Ek Ed Hg Hf Hfl Ht.
  destruct (wf_direction dz s d kv p Hwf Ek Ed) as (_ & Hd & Hn).
  pose proof (wf_phys dz s Hwf) as Hph. pose proof Hph as (Hpl & Hsz). pose proof Hsz as (Hdim & _).
  set (len := zlen kv' - p - 1) in *.
  assert (Hlen : 1 <= len) by (destruct Hg as (Hp & (Hc & _) & _); unfold len, zlen; lia).
  destruct (divided_ok (sp_ph s) first len d Hph Hd Hf Hlen ltac:(unfold npts_of in Hn; lia)) as [E1 E2].
  set (pts := map (fun idx => map (pcoord dz (sp_ph s) (moved d first idx)) (zseq 0 (Z.to_nat (ph_dim (sp_ph s))))) (visited (upd (ph_npts (sp_ph s)) d len))) in *.
  set (ws := map (fun idx => pweight dz (sp_ph s) (moved d first idx)) (visited (upd (ph_npts (sp_ph s)) d len))) in *.
  assert (Hgood : Forall2 good_direction (upd (knots_of s) d kv') (degs_of s)).
  { apply Forall2_upd; [apply (wf_directions s Hwf)|]. intros q Eq. assert (q = p) by congruence. now subst q. }
  assert (Hnp : map2 (fun kv p => zlen kv - p - 1) (upd (knots_of s) d kv') (degs_of s) = upd (npts_of s) d len).
  { rewrite (map2_upd_l _ _ _ d _ p Ed). now rewrite <- (wf_npts s Hwf). }
  assert (Hpl' : pos_lens (upd (npts_of s) d len)) by now apply pos_lens_upd.
  assert (Hzl : zlen pts = total (upd (npts_of s) d len)).
  { unfold pts, zlen. rewrite map_length, visited_length. fold (npts_of s). pose proof (total_pos _ Hpl'). lia. }
  assert (Hzw : zlen ws = total (upd (npts_of s) d len)).
  { unfold ws, zlen. rewrite map_length, visited_length. fold (npts_of s). pose proof (total_pos _ Hpl'). lia. }
  assert (Hlt : zlen pts < 2 ^ 64).
  { rewrite Hzl. eapply Z.le_lt_trans; [apply total_upd_le; auto; lia | auto]. }
  set (wts := match ph_wts (sp_ph s) with None => None | Some _ => Some ws end).
  destruct (spline_new_ok dz (upd (knots_of s) d kv') (degs_of s) pts wts (ph_dim (sp_ph s))) as [EN WN]; auto.
  { apply Forall_forall. intros cp Hcp. unfold pts in Hcp. apply in_map_iff in Hcp as (idx & <- & _).
    unfold zlen. rewrite map_length, zseq_length. lia. }
  { now rewrite Hnp. }
  { intros w Ew. unfold wts in Ew. destruct (ph_wts (sp_ph s)); [injection Ew as <-; lia | discriminate]. }
  match type of WN with well_formed ?a => set (s' := a) in * end.
  exists s'. split; [|split; [auto|]].
  - unfold make_piece, dget, sp_deg. rewrite (nth_error_upd_same _ _ _ kv) by auto. cbn [bind].
    unfold dget. fold (degs_of s). rewrite Ed. cbn [bind]. rnorm. fold len. rewrite E1. cbn [bind].
    assert (Ew : match ph_wts (sp_ph s) with
         | Some _ => w <- divided_weights (sp_ph s) first len d;; Ok (Some w)
         | None => Ok None
         end = Ok wts).
    { unfold wts. destruct (ph_wts (sp_ph s)); auto. rewrite E2. reflexivity. }
    match goal with |- bind ?m _ = _ => replace m with (Ok wts) by (symmetry; exact Ew) end. cbn [bind].
    rnorm. rewrite EN. cbn [bind].
    unfold spline_copy, ps_copy. pose proof (wf_bases s' WN) as Eb. unfold knots_of, degs_of in Eb. rewrite Eb. cbn [bind]. reflexivity.
  - split; [reflexivity|]. split; [reflexivity|]. split; [reflexivity|]. split.
    { unfold is_weighted. cbn. unfold wts. destruct (ph_wts (sp_ph s)); reflexivity. }
    split; [exact Hnp|].
    intros idx Hb. assert (En : npts_of s' = upd (npts_of s) d len) by exact Hnp. rewrite En in Hb.
    assert (Hmb : in_box (npts_of s) (moved d first idx)) by (apply (moved_box _ _ _ len); auto; lia).
    split; [auto|]. split.
    + unfold weight. rewrite En. cbn [s' sp_ph ph_wts]. unfold wts. destruct (ph_wts (sp_ph s)) as [w|] eqn:Ew; auto.
      rewrite !position_get1d. unfold ws. fold (npts_of s). rewrite (visited_nth _ _ _ 0%R Hb). unfold pweight, wat. now rewrite Ew.
    + intros c Hc. unfold coordinate. rewrite En. cbn [s' sp_ph ph_dim ph_cps].
      rewrite !position_get1d. pose proof (get1d_range _ _ Hb) as Hr.
      rewrite concat_nth.
      * unfold pts. fold (npts_of s). rewrite (visited_nth _ _ _ [] Hb).
        rewrite (nth_map_in _ _ _ 0) by (rewrite zseq_length; lia). rewrite zseq_nth by lia. unfold pcoord, cpat.
        f_equal. fold (npts_of s). lia.
      * apply Forall_forall. intros cp Hcp. unfold pts in Hcp. apply in_map_iff in Hcp as (jdx & <- & _).
        unfold zlen. rewrite map_length, zseq_length. lia.
      * lia.
      * auto.
Qed.

(* ---- the last inserted copy duplicates a control point ---- *)
Lemma insert_dup s d kv p u n r s' : well_formed s -> nth_error (knots_of s) d = Some kv -> nth_error (degs_of s) d = Some p ->
  inner kv p u n -> Z.of_nat (S r + occurrences kv u) = p + 1 -> zlen kv < 2 ^ 31 ->
  insert_knot s u d (Z.of_nat (S r)) = Ok s' -> all_positive dz (sp_ph s') ->
  forall rest, (d <= length rest)%nat ->
  let i := Z.of_nat (n + S r) - p - 2 in
  in_box (npts_of s') (insat d i rest) -> in_box (npts_of s') (insat d (i + 1) rest) ->
  weight s' (insat d (i + 1) rest) = weight s' (insat d i rest) /\
  forall c, 0 <= c < ph_dim (sp_ph s) ->
    (weight s' (insat d (i + 1) rest) * coordinate s' (insat d (i + 1) rest) c =
     weight s' (insat d i rest) * coordinate s' (insat d i rest) c)%R.
Proof.
  intros Hwf Ek Ed Hin Hr Hz Hrun Hpos rest Hd i Hb Hb1.
  destruct (insert_passes dz s d kv p u n Hwf Ek Ed Hin Hz r ltac:(lia)) as (s0 & F1 & F2 & W & K & G & Dm & Wt & _).
  assert (Ek0 : nth_error (knots_of s0) d = Some (insm kv n u r)) by (rewrite K; now apply (nth_error_upd_same _ _ _ kv)).
  assert (Ed0 : nth_error (degs_of s0) d = Some p) by (now rewrite G).
  destruct (wf_direction dz s0 d _ p W Ek0 Ed0) as (_ & Hd0 & Hn0).
  assert (Hn1 : (1 <= n < length kv)%nat) by (destruct Hin as (_ & _ & (H & _) & _); exact H).
  assert (HlenM : zlen (insm kv n u r) = zlen kv + Z.of_nat r) by (unfold zlen; rewrite insm_length by lia; lia).
  rewrite HlenM in Hn0.
  destruct (insert_pass_ok dz kv p u n r d (sp_ph s0) Hin ltac:(lia) Hz (wf_phys dz s0 W) Hd0 Hn0) as (ph' & E & D1 & D2 & D3 & D4 & D5).
  assert (Eph : sp_ph s' = ph').
  { revert Hrun. unfold insert_knot, sp_knots, sp_deg, dget. fold (knots_of s) (degs_of s). rnorm. rewrite Ek. cbn [bind].
    rewrite (inner_span dz kv p u n Hin). cbn [bind]. rewrite Ed. cbn [bind]. rewrite !for_up_foldM.
    replace (Z.to_nat (Z.of_nat (S r) + 1 - 1)) with (r + 1)%nat by lia. rewrite zseq_app, foldM_app. rewrite F1. cbn [bind zseq foldM].
    replace (1 + Z.of_nat r) with (Z.of_nat r + 1) by lia. rewrite E. cbn [bind].
    match goal with |- bind ?m _ = _ -> _ => destruct m as [ps| |] end; cbn [bind]; try discriminate. now intros [= <-]. }
  unfold npts_of in Hb, Hb1. rewrite Eph in *.
  assert (Hoc : 0 <= p) by (destruct Hin as ((H & _) & _); exact H).
  pose proof (inner_ends kv p u n Hin) as [I1 I2].
  pose proof Hin as ((_ & _ & Hnn & _) & _ & Hat & _). destruct (occurrences_below kv u n Hnn Hat) as (Ho1 & _ & Heq).
  assert (A1 : alpha (tk (insm kv n u r)) (Z.of_nat (n + r) - 1) u (Z.to_nat p) i = 1%R).
  { unfold alpha. destruct (Z_le_dec (i + Z.of_nat (Z.to_nat p)) (Z.of_nat (n + r) - 1)); auto. unfold i in *. lia. }
  assert (A0 : alpha (tk (insm kv n u r)) (Z.of_nat (n + r) - 1) u (Z.to_nat p) (i + 1) = 0%R).
  { unfold alpha. destruct (Z_le_dec (i + 1 + Z.of_nat (Z.to_nat p)) (Z.of_nat (n + r) - 1)); [unfold i in *; lia|].
    destruct (Z_le_dec (i + 1) (Z.of_nat (n + r) - 1)) as [Q|Q]; auto.
    assert (Eu : tk (insm kv n u r) (i + 1) = u).
    { rewrite tk_insm by auto. destruct (Z_lt_dec (i + 1) (Z.of_nat n)).
      - rewrite tk_knot' by (unfold zlen, i in *; lia). apply Heq. unfold i in *. lia.
      - destruct (Z_lt_dec (i + 1) (Z.of_nat n + Z.of_nat r)); [reflexivity | unfold i in *; lia]. }
    rewrite Eu. unfold Rdiv. rewrite Rminus_diag_eq by reflexivity. apply Rmult_0_l. }
  destruct (D5 _ Hb) as [W1 C1]. destruct (D5 _ Hb1) as [W0 C0]. cbv zeta in W1, C1, W0, C0.
  rewrite insat_nth in W1, C1, W0, C0 by lia. rewrite A1 in W1, C1. rewrite A0 in W0, C0.
  unfold below in W0, C0. rewrite insat_nth, insat_upd in W0, C0 by lia. replace (i + 1 - 1) with i in W0, C0 by lia.
  split.
  - rewrite !weight_p, !Eph, W0, W1. ring.
  - intros c Hc. rewrite !weight_p, !coordinate_p, !Eph.
    change (hval dz ph' (insat d (i + 1) rest) c = hval dz ph' (insat d i rest) c).
    rewrite C0, C1; [ring | lia | apply Rgt_not_eq; now apply Hpos | lia | apply Rgt_not_eq; now apply Hpos].
Qed.
End Pieces.
