(* Closing lemmas about the boundary splines (C57). *)
From Coq Require Import ZArith List Bool Reals Lra Lia.
From Verif Require Import Base BaseFacts RSum MultiIndex MultiIndexSpec MultiIndexFacts TensorSum KnotVecSpec KnotVecFacts BasisSpec BasisFacts
  Spaces SpacesSpec SpacesFacts SplineEval SplineSpec SplineNew EvalFacts EvalThms ConstructSpec ConstructThms
  IgaSpec Iga IgaSystem IgaSystemSpec Scatter IgaSystemFacts IgaBoundaryFacts IgaFaceFacts.
Import ListNotations.
Open Scope Z_scope.

Lemma connectivity : forall npts d n, pos_lens npts -> nth_error npts d = Some n -> exists lo hi,
  boundary_connectivity npts d = Ok (lo, hi) /\
  zlen lo = total (remove_at d npts) /\ zlen hi = total (remove_at d npts) /\
  forall js, in_box (remove_at d npts) js ->
    nth_error lo (Z.to_nat (position (remove_at d npts) js)) = Some (position npts (put_at d 0 js)) /\
    nth_error hi (Z.to_nat (position (remove_at d npts) js)) = Some (position npts (put_at d (n - 1) js)).
Proof.
  intros npts d n Hp Hn. eexists _, _. split; [exact (connectivity_ok npts d n Hp Hn)|]. split; [now apply face_numbers_length|]. split; [now apply face_numbers_length|].
  intros js Hj. split; now apply face_numbers_nth.
Qed.

Lemma mapM_throw {A B} (f : A -> Res B) e l : (forall a, In a l -> (exists b, f a = Ok b) \/ f a = Throw e) -> (exists a, In a l /\ f a = Throw e) ->
  mapM f l = Throw e.
Proof.
  induction l as [|a l IH]; intros H (x & Hx & E); [destruct Hx|]. cbn [mapM].
  destruct (H a (or_introl eq_refl)) as [(b & Eb)|Eb]; rewrite Eb; cbn [bind]; [|reflexivity].
  destruct Hx as [->|Hx]; [congruence|]. rewrite IH; [reflexivity | intros; apply H; now right | eauto].
Qed.

Lemma firstn_map2 {A B C} (f : A -> B -> C) k l1 l2 : firstn k (map2 f l1 l2) = map2 f (firstn k l1) (firstn k l2).
Proof. revert l1 l2. induction k as [|k IH]; intros [|a l1] [|b l2]; cbn [firstn map2]; auto. f_equal. apply IH. Qed.
Lemma remove_map2 {A B C} (f : A -> B -> C) d l1 l2 : length l1 = length l2 -> remove_at d (map2 f l1 l2) = map2 f (remove_at d l1) (remove_at d l2).
Proof.
  revert l1 l2. induction d as [|d IH]; intros [|a l1] [|b l2] H; cbn [map2 remove_at length] in *; auto; try discriminate. f_equal. apply IH. lia.
Qed.
Lemma Forall2_firstn {A B} (P : A -> B -> Prop) k l1 l2 : Forall2 P l1 l2 -> Forall2 P (firstn k l1) (firstn k l2).
Proof. intros H. revert k. induction H; intros [|k]; cbn [firstn]; constructor; auto. Qed.
Lemma Forall2_remove {A B} (P : A -> B -> Prop) k l1 l2 : Forall2 P l1 l2 -> Forall2 P (remove_at k l1) (remove_at k l2).
Proof. intros H. revert k. induction H; intros [|k]; cbn [remove_at]; auto; constructor; auto. Qed.
Lemma Forall2_put {A B} (P : A -> B -> Prop) d a b l1 l2 : nth_error l1 d = Some a -> P a b -> Forall2 P (remove_at d l1) l2 -> Forall2 P l1 (put_at d b l2).
Proof.
  revert l1 l2. induction d as [|d IH]; intros [|x l1] l2 E Hab H; cbn [nth_error remove_at] in *; try discriminate.
  - injection E as ->. constructor; auto.
  - inversion H as [|? y ? l2' H1 H2]; subst. rewrite put_at_S. constructor; auto.
Qed.
Lemma firstn_removelast {A} (l : list A) a d : (d < length l)%nat -> Forall (eq a) l -> remove_at d l = firstn (pred (length l)) l.
Proof.
  intros Hd H. assert (E : forall m, Forall (eq a) m -> m = repeat a (length m)) by (clear; induction 1; cbn; congruence).
  rewrite (E (remove_at d l)), (E (firstn (pred (length l)) l)).
  - rewrite remove_at_length, firstn_length by auto. f_equal. lia.
  - clear - H. generalize (pred (length l)). intros n. revert n. induction H; intros [|n]; cbn; constructor; auto.
  - clear - H. revert d. induction H; intros [|d]; cbn [remove_at]; auto; constructor; auto.
Qed.
Lemma total_firstn l : l <> [] -> total l = total (firstn (pred (length l)) l) * last l 0.
Proof.
  induction l as [|a l IH]; intros H; [contradiction|]. destruct l as [|b l]; [cbn [length pred firstn last]; rewrite total_cons; change (total []) with 1; ring|].
  change (firstn (pred (length (a :: b :: l))) (a :: b :: l)) with (a :: firstn (pred (length (b :: l))) (b :: l)).
  change (last (a :: b :: l) 0) with (last (b :: l) 0). rewrite (total_cons a (b :: l)), (total_cons a (firstn _ _)), IH by discriminate. ring.
Qed.

Section Thms.
Context {dz : R -> R}.
Local Notation F := (Rops dz).
Implicit Types s : spline F.

Lemma wf_lengths s : well_formed s -> length (knots_of s) = length (degs_of s) /\ length (npts_of s) = length (degs_of s).
Proof.
  intros Hwf. pose proof (wf_directions s Hwf) as H. rewrite (wf_npts s Hwf). clear - H.
  induction H as [|a b l1 l2 _ _ (E1 & E2)]; cbn; auto.
Qed.

Lemma face_points_length s d c : well_formed s -> zlen (face_points s d c) = total (remove_at d (npts_of s)) /\ zlen (face_weights s d c) = total (remove_at d (npts_of s)).
Proof.
  intros Hwf. unfold face_points, face_weights, zlen, visited. rewrite !map_length, seq_length.
  pose proof (total_pos _ (remove_pos d _ (npts_pos s Hwf))). lia.
Qed.
Lemma face_points_dim s d c : 1 <= ph_dim (sp_ph s) -> Forall (fun cp => zlen cp = ph_dim (sp_ph s)) (face_points s d c).
Proof.
  intros H. unfold face_points. apply Forall_forall. intros cp Hc. apply in_map_iff in Hc. destruct Hc as (js & <- & _).
  unfold zlen. rewrite map_length, zseq_length. lia.
Qed.

(* both splines of direction d, when the numbers of control points fit *)
Lemma face_built s d e : well_formed s -> total (npts_of s) < 2 ^ 64 -> (d < length (degs_of s))%nat ->
  let K := firstn (pred (length (degs_of s))) (knots_of s) in let P := firstn (pred (length (degs_of s))) (degs_of s) in
  firstn (pred (length (degs_of s))) (npts_of s) = remove_at d (npts_of s) -> exists a,
  boundary_spline s (K, P) (face_numbers (npts_of s) d (end_index (nth d (npts_of s) 0) e)) = Ok a /\
  well_formed a /\ knots_of a = K /\ degs_of a = P /\ face_points_of s d e a.
Proof.
  intros Hwf Hb Hd K P En. destruct (wf_lengths s Hwf) as (L1 & L2). pose proof (npts_pos s Hwf) as Hp.
  set (n := nth d (npts_of s) 0). assert (Hn : nth_error (npts_of s) d = Some n) by (apply nth_error_nth'; lia).
  assert (Hn1 : 1 <= n) by (apply nth_error_In in Hn; unfold pos_lens in Hp; rewrite Forall_forall in Hp; now apply Hp).
  set (c := end_index n e). assert (Hc : 0 <= c < n) by (unfold c; destruct e; cbn [end_index]; lia).
  rewrite (boundary_spline_new s d c n (K, P) Hwf Hn Hc). cbn [fst snd].
  assert (Hg : Forall2 good_direction K P) by (apply Forall2_firstn, (wf_directions s Hwf)).
  assert (Hs : sizes K P = remove_at d (npts_of s)).
  { unfold sizes, K, P. rewrite <- firstn_map2, <- (wf_npts s Hwf). exact En. }
  destruct (face_points_length s d c Hwf) as (Lc & Lw). pose proof (total_pos _ (remove_pos d _ Hp)) as Ht.
  assert (Hle : total (remove_at d (npts_of s)) <= total (npts_of s)).
  { rewrite <- (total_remove_at (npts_of s) d) by lia. fold n. nia. }
  assert (Hdim := wf_dim s Hwf).
  destruct (spline_new_ok dz K P (face_points s d c) (Some (face_weights s d c)) (ph_dim (sp_ph s)) Hg Hdim (face_points_dim s d c Hdim)) as (E & Hwa).
  { unfold sizes in Hs. rewrite Lc. symmetry. f_equal. exact Hs. }
  { lia. }
  { intros w Ew. injection Ew as <-. lia. }
  destruct (construct_ok dz K P (face_points s d c) (Some (face_weights s d c)) (ph_dim (sp_ph s))) as (a & Ea & Ka & Pa & Na & Da & _ & Ha).
  { now apply good_checked. }
  { intros C. rewrite C in Lc. change (zlen (@nil (list R))) with 0 in Lc. lia. }
  { now apply face_points_dim. }
  { rewrite Lc, Hs. reflexivity. }
  { lia. }
  { intros w Ew. injection Ew as <-. lia. }
  assert (Eq : Ok a = Ok (mkSpline (F := F) (mkps dz K P) (mkPhys (F := F) (ph_dim (sp_ph s)) (map2 (fun kv p => zlen kv - p - 1) K P) (concat (face_points s d c)) (Some (face_weights s d c))))) by (rewrite <- Ea; exact E).
  exists a. split; [exact Ea|]. split; [injection Eq as ->; exact Hwa|]. split; auto. split; auto.
  rewrite Hs in Na, Ha. split; [exact Na|]. split; [exact Da|]. intros js Hj idx.
  destruct (Ha js) as (Hcoord & Hw); [now apply all_indices_box|]. pose proof (position_range _ _ Hj) as Hr.
  assert (Nth : forall A (f : list Z -> A) x, nth (Z.to_nat (position (remove_at d (npts_of s)) js)) (map f (visited (remove_at d (npts_of s)))) x = f js).
  { intros A f x. unfold visited. rewrite map_map, (nth_indep _ x ((fun k => f (nth_index (remove_at d (npts_of s)) k)) 0%nat)).
    - rewrite (map_nth (fun k => f (nth_index (remove_at d (npts_of s)) k))). rewrite seq_nth by lia. cbn [Nat.add]. now rewrite number_box by auto.
    - rewrite map_length, seq_length. lia. }
  split.
  - rewrite Hw. unfold face_weights. rewrite Nth. reflexivity.
  - intros k Hk. rewrite Hcoord by auto. unfold face_points. rewrite Nth.
    rewrite (nth_map_in _ _ _ 0) by (rewrite zseq_length; lia). rewrite zseq_nth by lia. unfold idx, c, n. f_equal. lia.
Qed.

Lemma face_follows s d e a : well_formed s -> Forall2 exact_ends (knots_of s) (degs_of s) -> (d < length (degs_of s))%nat ->
  well_formed a -> knots_of a = remove_at d (knots_of s) -> degs_of a = remove_at d (degs_of s) -> face_points_of s d e a -> face_of s d e a.
Proof.
  intros Hwf He Hd Hwa Ka Pa (Na & Da & Ha). destruct (wf_lengths s Hwf) as (L1 & L2).
  split; auto. split; auto. intros us Hu us'.
  set (kv := nth d (knots_of s) []) in *. set (p := nth d (degs_of s) 0) in *.
  assert (Ek : nth_error (knots_of s) d = Some kv) by (apply nth_error_nth'; lia).
  assert (Ep : nth_error (degs_of s) d = Some p) by (apply nth_error_nth'; lia).
  assert (Hex : exact_ends kv p /\ good_direction kv p).
  { pose proof (wf_directions s Hwf) as Hg. clearbody kv p. clear - He Hg Ek Ep. revert d Ek Ep Hg. induction He as [|k q K Q H He IH]; intros [|d] Ek Ep Hg; cbn [nth_error] in *; try discriminate; inversion Hg; subst.
    - injection Ek as <-. now injection Ep as <-.
    - eapply IH; eauto. }
  destruct Hex as (Hex & (_ & _ & _ & _ & Hlt)).
  assert (Hlu : length us = pred (length (knots_of s))).
  { unfold in_domain in Hu. rewrite Ka in Hu. rewrite <- (remove_at_length _ d) by lia. clear - Hu. induction Hu; cbn; congruence. }
  assert (En : nth d (npts_of s) 0 = zlen kv - p - 1).
  { rewrite (wf_npts s Hwf). clearbody kv p. clear - Ek Ep. revert Ek Ep. generalize (knots_of s) (degs_of s). intros K P. revert P d.
    induction K as [|k K IH]; intros [|q Q] [|d] Ek Ep; cbn [nth_error map2 nth] in *; try discriminate; [injection Ek as <-; now injection Ep as <-|].
    now apply IH. }
  assert (Sum : forall f : list Z -> R, lsum (fun idx => basis_product (knots_of s) (degs_of s) us' idx * f idx)%R (all_indices (npts_of s)) =
    lsum (fun js => basis_product (knots_of a) (degs_of a) us js * f (put_at d (end_index (nth d (npts_of s) 0%Z) e) js))%R (all_indices (npts_of a))).
  { intros f. rewrite Ka, Pa, Na, En. apply (face_sum (dz := dz)); auto; [exact (wf_directions s Hwf) | exact (wf_npts s Hwf)]. }
  assert (W : weight_function a us = weight_function s us').
  { unfold weight_function. rewrite Sum. apply lsum_ext. intros js Hj. rewrite Na in Hj. apply all_indices_box in Hj. now rewrite (proj1 (Ha js Hj)). }
  split; [|split; auto].
  - unfold in_domain. apply (Forall2_put _ d kv); auto.
    + destruct e; cbn [end_value]; lra.
    + rewrite <- Ka. exact Hu.
  - intros c Hc. unfold geometry. rewrite W. f_equal. unfold weighted_sum. rewrite (Sum (fun idx => weight s idx * coordinate s idx c)%R).
    apply lsum_ext. intros js Hj. rewrite Na in Hj. apply all_indices_box in Hj. destruct (Ha js Hj) as (-> & G). now rewrite (G c Hc).
Qed.

Lemma boundary_faces : forall s n, well_formed s -> Forall2 exact_ends (knots_of s) (degs_of s) -> total (npts_of s) < 2 ^ 64 ->
  Forall (eq n) (npts_of s) -> exists bs,
  boundary_splines s = Ok bs /\ length bs = length (degs_of s) /\
  forall d a b, nth_error bs d = Some (a, b) ->
  well_formed a /\ well_formed b /\ face_points_of s d false a /\ face_points_of s d true b /\
  knots_of a = firstn (pred (length (degs_of s))) (knots_of s) /\ knots_of b = firstn (pred (length (degs_of s))) (knots_of s) /\
  (remove_at d (knots_of s) = firstn (pred (length (degs_of s))) (knots_of s) ->
   remove_at d (degs_of s) = firstn (pred (length (degs_of s))) (degs_of s) -> face_of s d false a /\ face_of s d true b).
Proof.
  intros s n Hwf He Hb Hall. destruct (wf_lengths s Hwf) as (L1 & L2). pose proof (npts_pos s Hwf) as Hp.
  assert (G : forall l, (forall d, In d l -> (d < length (degs_of s))%nat) -> exists bs,
    mapM (fun i => members <- boundary_connectivity (npts_of s) i ;; dirs <- boundary_directions s i ;;
      a <- boundary_spline s dirs (fst members) ;; b <- boundary_spline s dirs (snd members) ;; Ok (a, b)) l = Ok bs /\ length bs = length l /\
    forall k d a b, nth_error l k = Some d -> nth_error bs k = Some (a, b) ->
      well_formed a /\ well_formed b /\ face_points_of s d false a /\ face_points_of s d true b /\
      knots_of a = firstn (pred (length (degs_of s))) (knots_of s) /\ knots_of b = firstn (pred (length (degs_of s))) (knots_of s) /\
      degs_of a = firstn (pred (length (degs_of s))) (degs_of s) /\ degs_of b = firstn (pred (length (degs_of s))) (degs_of s)).
  { induction l as [|i l IH]; intros Hl.
    - exists []. split; [reflexivity|]. split; [reflexivity|]. intros [|k] d a b E; discriminate E.
    - destruct IH as (bs & E & Lb & Hbs); [intros d Hd; apply Hl; now right|]. pose proof (Hl i (or_introl eq_refl)) as Hi.
      assert (Hn : nth_error (npts_of s) i = Some (nth i (npts_of s) 0)) by (apply nth_error_nth'; lia).
      assert (Er : firstn (pred (length (degs_of s))) (npts_of s) = remove_at i (npts_of s)).
      { rewrite <- L2. symmetry. apply (firstn_removelast _ n); auto. lia. }
      destruct (face_built s i false Hwf Hb Hi Er) as (a & Ea & Wa & Ka & Pa & Fa). destruct (face_built s i true Hwf Hb Hi Er) as (b & Eb & Wb & Kb & Pb & Fb).
      cbn [end_index] in Ea, Eb.
      exists ((a, b) :: bs). cbn [mapM]. rewrite (connectivity_ok _ i _ Hp Hn). cbn [bind]. rewrite directions_ok by auto. cbn [bind fst snd].
      rewrite Ea. cbn [bind]. rewrite Eb. cbn [bind]. rewrite E. split; [reflexivity|]. split; [cbn [length]; lia|].
      intros [|k] d a' b' E1 E2; cbn [nth_error] in E1, E2.
      + injection E1 as <-. injection E2 as <- <-. repeat (split; [assumption|]). assumption.
      + exact (Hbs k d a' b' E1 E2). }
  destruct (G (seq 0 (length (degs_of s)))) as (bs & E & Lb & Hbs); [intros d Hd; apply in_seq in Hd; lia|].
  exists bs. split; [exact E|]. rewrite seq_length in Lb. split; [exact Lb|]. intros d a b Ed.
  assert (Hd : (d < length (degs_of s))%nat) by (rewrite <- Lb; apply nth_error_Some; congruence).
  destruct (Hbs d d a b) as (Wa & Wb & Fa & Fb & Ka & Kb & Pa & Pb); auto.
  { rewrite (nth_error_nth' _ 0%nat) by (rewrite seq_length; lia). now rewrite seq_nth by lia. }
  repeat (split; [assumption|]). intros Rk Rp. split; apply face_follows; auto; congruence.
Qed.

Lemma boundary_rejected : forall s d, well_formed s -> total (npts_of s) < 2 ^ 64 ->
  (d < length (npts_of s))%nat -> nth d (npts_of s) 0 <> last (npts_of s) 0 ->
  boundary_splines s = Throw RuntimeError /\
  forall mdet rl v neumann, right_side_neumann (F := F) mdet s rl v neumann = Throw RuntimeError.
Proof.
  intros s d Hwf Hb Hd Hne. destruct (wf_lengths s Hwf) as (L1 & L2). pose proof (npts_pos s Hwf) as Hp.
  assert (Hnil : npts_of s <> []) by (intros C; rewrite C in Hd; cbn in Hd; lia).
  set (K := firstn (pred (length (degs_of s))) (knots_of s)). set (P := firstn (pred (length (degs_of s))) (degs_of s)).
  assert (Hs : sizes K P = firstn (pred (length (npts_of s))) (npts_of s)).
  { unfold sizes, K, P. rewrite <- firstn_map2, <- (wf_npts s Hwf). now rewrite L2. }
  assert (Hg : Forall2 good_direction K P) by (apply Forall2_firstn, (wf_directions s Hwf)).
  assert (Ht := total_pos _ Hp). pose proof (total_firstn _ Hnil) as Tf. rewrite <- Hs in Tf.
  assert (Pl : 1 <= last (npts_of s) 0).
  { assert (In (last (npts_of s) 0) (npts_of s)) as Hin. { clear - Hnil. induction (npts_of s) as [|a [|b l] IH]; [contradiction|now left|]. right. apply IH. discriminate. }
    unfold pos_lens in Hp. rewrite Forall_forall in Hp. now apply Hp. }
  assert (Ts : 1 <= total (sizes K P)) by nia.
  assert (Each : forall i e, (i < length (degs_of s))%nat ->
    (exists a, boundary_spline s (K, P) (face_numbers (npts_of s) i (end_index (nth i (npts_of s) 0) e)) = Ok a) \/
    boundary_spline s (K, P) (face_numbers (npts_of s) i (end_index (nth i (npts_of s) 0) e)) = Throw RuntimeError).
  { intros i e Hi. set (n := nth i (npts_of s) 0). assert (Hn : nth_error (npts_of s) i = Some n) by (apply nth_error_nth'; lia).
    assert (Hn1 : 1 <= n) by (apply nth_error_In in Hn; unfold pos_lens in Hp; rewrite Forall_forall in Hp; now apply Hp).
    assert (Hc : 0 <= end_index n e < n) by (destruct e; cbn [end_index]; lia).
    rewrite (boundary_spline_new s i _ n (K, P) Hwf Hn Hc). cbn [fst snd].
    destruct (face_points_length s i (end_index n e) Hwf) as (Lc & Lw). pose proof (total_pos _ (remove_pos i _ Hp)) as Hti.
    pose proof (total_remove_at (npts_of s) i ltac:(lia)) as Tr. fold n in Tr.
    assert (Hle : total (remove_at i (npts_of s)) <= total (npts_of s)) by (rewrite <- Tr; nia).
    assert (Hle' : total (sizes K P) <= total (npts_of s)) by (rewrite Tf; nia).
    destruct (Z.eq_dec (zlen (face_points s i (end_index n e))) (total (sizes K P))) as [Eq|Nq].
    - left. destruct (spline_new_ok dz K P (face_points s i (end_index n e)) (Some (face_weights s i (end_index n e))) (ph_dim (sp_ph s)) Hg (wf_dim s Hwf)
        (face_points_dim s i _ (wf_dim s Hwf)) Eq) as (E & _); [lia | intros w Ew; injection Ew as <-; lia|]. eauto.
    - right. destruct (construct_bad dz K P (face_points s i (end_index n e)) (Some (face_weights s i (end_index n e)))) as (_ & Bad).
      + unfold K, P. rewrite !firstn_length. lia.
      + clear - Hg. induction Hg as [|k q l1 l2 (Hq & (Hl & _) & _) _ IH]; constructor; auto. intros ->. unfold zlen in Hl. cbn [length] in Hl. lia.
      + lia.
      + destruct (Bad (good_checked K P Hg)) as (_ & Bad2). apply Bad2; [|left; exact Nq].
        intros C. rewrite C in Lc. change (zlen (@nil (list R))) with 0 in Lc. lia. }
  assert (Main : boundary_splines s = Throw RuntimeError).
  { unfold boundary_splines. fold (npts_of s). apply mapM_throw.
    - intros i Hi. apply in_seq in Hi. fold (degs_of s) in Hi.
      assert (Hn : nth_error (npts_of s) i = Some (nth i (npts_of s) 0)) by (apply nth_error_nth'; lia).
      rewrite (connectivity_ok _ i _ Hp Hn). cbn [bind]. rewrite directions_ok by (auto; lia). cbn [bind fst snd]. fold K P.
      destruct (Each i false ltac:(lia)) as [(a & Ea)|Ea]; cbn [end_index] in Ea; rewrite Ea; cbn [bind]; auto.
      destruct (Each i true ltac:(lia)) as [(b & Eb)|Eb]; cbn [end_index] in Eb; rewrite Eb; cbn [bind]; eauto.
    - exists d. split; [apply in_seq; fold (degs_of s); lia|].
      set (n := nth d (npts_of s) 0) in *. assert (Hn : nth_error (npts_of s) d = Some n) by (apply nth_error_nth'; lia).
      assert (Hn1 : 1 <= n) by (apply nth_error_In in Hn; unfold pos_lens in Hp; rewrite Forall_forall in Hp; now apply Hp).
      rewrite (connectivity_ok _ d _ Hp Hn). cbn [bind]. rewrite directions_ok by (auto; lia). cbn [bind fst snd]. fold K P.
      rewrite (boundary_spline_new s d 0 n (K, P) Hwf Hn ltac:(lia)). cbn [fst snd].
      destruct (face_points_length s d 0 Hwf) as (Lc & Lw). pose proof (total_pos _ (remove_pos d _ Hp)) as Htd.
      pose proof (total_remove_at (npts_of s) d ltac:(lia)) as Tr. fold n in Tr.
      assert (Hle' : total (sizes K P) <= total (npts_of s)) by (rewrite Tf; nia).
      destruct (construct_bad dz K P (face_points s d 0) (Some (face_weights s d 0))) as (_ & Bad).
      + unfold K, P. rewrite !firstn_length. lia.
      + clear - Hg. induction Hg as [|k q l1 l2 (Hq & (Hl & _) & _) _ IH]; constructor; auto. intros ->. unfold zlen in Hl. cbn [length] in Hl. lia.
      + lia.
      + destruct (Bad (good_checked K P Hg)) as (_ & Bad2). rewrite Bad2; [reflexivity | |left; rewrite Lc; intros C; rewrite C in Tr; nia].
        intros C. rewrite C in Lc. change (zlen (@nil (list R))) with 0 in Lc. lia. }
  split; auto. intros mdet rl v neumann. unfold right_side_neumann. rewrite Main. now destruct (_ =? 1).
Qed.
End Thms.
