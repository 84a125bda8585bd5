(* Closing lemmas about the boundary integrals of Neumann conditions (C57). *)
From Coq Require Import ZArith List Bool Permutation Reals Lra Lia.
From Verif Require Import Base BaseFacts RSum MultiIndex MultiIndexSpec MultiIndexFacts TensorSum KnotVecSpec BasisSpec
  Spaces SpacesSpec SplineEval SplineSpec EvalFacts
  IgaSpec Iga IgaFacts IgaThms IgaSystem IgaSystemSpec Scatter IgaSystemFacts IgaAssembly IgaSystemThms IgaBoundaryFacts IgaFaceFacts IgaFaceThms.
Import ListNotations.
Open Scope Z_scope.

Section Neumann.
Context {dz : R -> R}.
Local Notation F := (Rops dz).
Implicit Types s : spline F.

(* contributions of the local basis functions are added at the numbers mem *)
Lemma scatter_mapped s es us ks (X : list Z -> R) (mem : list Z -> Z) N (body : Z -> list R -> Res (list R)) :
  well_formed s -> located s es us ks -> vanishing s ks X -> (forall a, in_box (npts_of s) a -> 0 <= mem a < N) ->
  (forall l v, 0 <= l < total (local_sizes (degs_of s)) -> vlen N v -> body l v = vec_add_at (F := F) v (mem (gpoint s ks l)) (X (gpoint s ks l))) ->
  adds (vlen N) (in_range N) component (for_up 0 (total (local_sizes (degs_of s))) body)
       (fun i => lsum (fun a => if (i =? mem a)%Z then X a else 0%R) (all_indices (npts_of s))).
Proof.
  intros Hwf Hl HX Hmem Hb. eapply adds_ext; [intros m _; reflexivity| |].
  2:{ apply adds_for_up with (c := fun l i => if i =? mem (gpoint s ks l) then X (gpoint s ks l) else 0%R). intros l Hll.
      eapply adds_ext; [intros m Hm; symmetry; apply Hb; auto | intros i _; reflexivity | apply vec_add_adds].
      apply Hmem. exact (proj1 (gpoint_box s es us ks Hwf Hl l Hll)). }
  intros i Hi. cbn. rewrite Z.sub_0_r.
  apply (local_sum s es us ks Hwf Hl (fun a => if i =? mem a then X a else 0%R)).
  intros a Ha Ha'. rewrite (HX a Ha Ha'). now destruct (_ =? _).
Qed.

Section Boundary.
Variables (mdet : list (list R) -> R) (b : spline F) (rl : list (R * R)) (g : list R) (members : list Z) (mem : list Z -> Z) (N : Z).
Hypothesis Hwf : well_formed b.
Hypothesis Hreg : regular b.
Hypothesis Hrl : inner_rule rl.
Hypothesis Hg : vlen (total (npts_of b)) g.
Hypothesis Hmem : forall a, in_box (npts_of b) a -> vget members (position (npts_of b) a) = Ok (mem a) /\ 0 <= mem a < N.

Lemma neumann_adds : adds (vlen N) (in_range N) component (neumann_boundary (F := F) mdet rl b g members)
  (fun i => quadrature (dlists (knots_of b) (degs_of b)) rl (fun u => lsum (fun a => if (i =? mem a)%Z then
      jac_at mdet b u * (nurbs_basis b u a * combination b g u) else 0) (all_indices (npts_of b))))%R.
Proof.
  unfold neumann_boundary. pose proof (dlists_pos _ _ (wf_directions b Hwf)) as Hp.
  eapply adds_ext; [intros m _; rewrite num_all_ok by auto; cbn [bind]; reflexivity | intros i _; exact (lsum_elements _ _ Hp) |].
  apply adds_for_up. intros n Hn. destruct (box_number _ n Hp Hn) as (Hes & Ep). set (es := nth_index _ (Z.to_nat n)) in *.
  clearbody es. rewrite <- Ep. clear Ep Hn n.
  rewrite (element_points_ok mdet b rl es Hwf Hrl Hes _ (nvals b) (jac_at mdet b)).
  2:{ intros us Hin. destruct (nvals_at b es Hwf Hreg Hes us Hin) as (ks & _ & H & _). exact H. }
  2:{ intros us Hin. now apply (jac_at_ok mdet b es). }
  cbn [bind]. eapply adds_ext; [intros m _; symmetry; apply foldM_map|intros i _; apply lsum_visited; exact (lens_pos b rl Hrl)|].
  apply adds_foldM. intros qs Hqs. apply visited_In in Hqs; [|exact (lens_pos b rl Hrl)].
  pose proof (qpoint_inside b rl es Hwf Hrl Hes qs Hqs) as Hin. set (us := qpoint b rl es qs) in *.
  destruct (nvals_at b es Hwf Hreg Hes us Hin) as (ks & Hl & _ & El & Hv).
  cbv beta iota. change (num F) with R in *.
  eapply adds_ext; [intros m _; rewrite (point_value_ok b es Hwf Hreg Hes us ks g Hl Hin Hg); cbn [bind]; rewrite El; reflexivity| |].
  2:{ apply (scatter_mapped b es us ks (fun a => nurbs_basis b us a * combination b g us * grid_weight rl qs * jac_at mdet b us)%R mem N); auto.
      - intros a Ha Ha'. rewrite (nurbs_basis_vanishing b es us ks Hl a Ha Ha'). ring.
      - intros a Ha. now apply Hmem.
      - intros l v H1 _. rewrite (Hv l H1). cbn [bind].
        destruct (gpoint_box b es us ks Hwf Hl l H1) as (B1 & G1). rewrite G1. cbn [bind]. rewrite Z.add_simpl_r.
        rewrite (proj1 (Hmem _ B1)). reflexivity. }
  intros i _. cbn beta. rewrite <- lsum_scal. apply lsum_ext. intros a _. unfold us, qpoint. destruct (i =? mem a); ring.
Qed.
End Boundary.

Lemma adds_seq {St Ix} (valid : St -> Prop) (rng : Ix -> Prop) (obs : St -> Ix -> R) f1 f2 c1 c2 :
  adds valid rng obs f1 c1 -> adds valid rng obs f2 c2 -> adds valid rng obs (fun m => x <- f1 m ;; f2 x) (fun i => c1 i + c2 i)%R.
Proof.
  intros H1 H2 m Hm. destruct (H1 m Hm) as (m1 & E1 & V1 & O1). destruct (H2 m1 V1) as (m2 & E2 & V2 & O2).
  exists m2. rewrite E1. cbn [bind]. split; auto. split; auto. intros i Hi. rewrite O2, O1 by auto. lra.
Qed.

(* what one face adds to the entry of control point idx *)
Definition face_term mdet rl (f : spline F) (g : list R) (js : list Z) : R :=
  quadrature (dlists (knots_of f) (degs_of f)) rl (fun u => jac_at mdet f u * (nurbs_basis f u js * combination f g u))%R.
Lemma face_term_load mdet rl f g js : well_formed f -> face_load mdet rl f g js (face_term mdet rl f g js).
Proof.
  intros Hwf. exists (dlists (knots_of f) (degs_of f)), (jac_at mdet f). split; [now apply element_lists_ok|]. split; [|reflexivity].
  intros es us He Hin. now apply (jac_at_ok mdet f es).
Qed.

Lemma position_inj npts a b : in_box npts a -> in_box npts b -> position npts a = position npts b -> a = b.
Proof. intros Ha Hb E. rewrite <- (number_box npts a), <- (number_box npts b) by auto. now rewrite E. Qed.
Lemma box_length npts a : in_box npts a -> length a = length npts.
Proof. unfold in_box. induction 1; cbn; congruence. Qed.

Lemma quadrature_ext lists rl (f h : list R -> R) : (forall u, f u = h u) -> quadrature lists rl f = quadrature lists rl h.
Proof. intros H. unfold quadrature. apply lsum_ext. intros es _. apply lsum_ext. intros qs _. now rewrite H. Qed.
Lemma quadrature_zero lists rl (f : list R -> R) : (forall u, f u = 0%R) -> quadrature lists rl f = 0%R.
Proof. intros H. unfold quadrature. apply lsum_zero. intros es _. apply lsum_zero. intros qs _. rewrite H. ring. Qed.

Lemma pick_face npts d n c f mdet rl g idx : pos_lens npts -> nth_error npts d = Some n -> 0 <= c < n -> npts_of f = remove_at d npts -> in_box npts idx ->
  quadrature (dlists (knots_of f) (degs_of f)) rl (fun u => lsum (fun a => if (position npts idx =? position npts (put_at d c a))%Z then
      jac_at mdet f u * (nurbs_basis f u a * combination f g u) else 0) (all_indices (npts_of f)))%R =
  if nth d idx 0 =? c then face_term mdet rl f g (remove_at d idx) else 0%R.
Proof.
  intros Hp Hn Hc Ef Hb. assert (Hd : (d < length npts)%nat) by (apply nth_error_Some; congruence). pose proof (box_length _ _ Hb) as Hl.
  destruct (Z.eqb_spec (nth d idx 0) c) as [E|E].
  - apply quadrature_ext. intros u. rewrite (lsum_single _ _ (remove_at d idx)).
    + rewrite (put_remove d c 0) by (auto; lia). now rewrite Z.eqb_refl.
    + rewrite Ef, all_indices_boxl. apply (Permutation_NoDup (visited_perm _ (remove_pos d _ Hp))). apply visited_NoDup. now apply remove_pos.
    + rewrite Ef. apply all_indices_box. now apply in_box_remove_at.
    + intros a Ha Hne. rewrite Ef in Ha. apply all_indices_box in Ha. destruct (Z.eqb_spec (position npts idx) (position npts (put_at d c a))) as [Eq|]; auto.
      exfalso. apply Hne. apply position_inj in Eq; auto; [|now apply (put_in_box d c npts n)]. rewrite Eq. symmetry. apply remove_put.
      pose proof (box_length _ _ Ha) as La. rewrite remove_at_length in La by lia. lia.
  - apply quadrature_zero. intros u. apply lsum_zero. intros a Ha. rewrite Ef in Ha. apply all_indices_box in Ha.
    destruct (Z.eqb_spec (position npts idx) (position npts (put_at d c a))) as [Eq|]; auto.
    exfalso. apply E. apply position_inj in Eq; auto; [|now apply (put_in_box d c npts n)]. rewrite Eq. apply nth_put.
    pose proof (box_length _ _ Ha) as La. rewrite remove_at_length in La by lia. lia.
Qed.

Lemma neumann_vector : forall (mdet : list (list R) -> R) s rl kv p,
  well_formed s -> regular s -> Forall2 exact_ends (knots_of s) (degs_of s) -> total (npts_of s) < 2 ^ 64 -> inner_rule rl ->
  (2 <= length (degs_of s))%nat -> Forall (eq kv) (knots_of s) -> Forall (eq p) (degs_of s) -> exists bs,
  boundary_splines s = Ok bs /\ length bs = length (degs_of s) /\
  (forall d a b, nth_error bs d = Some (a, b) -> face_of s d false a /\ face_of s d true b) /\
  forall neumann v, length neumann = length (degs_of s) ->
  (forall d g h, nth_error neumann d = Some (g, h) -> zlen g = total (remove_at d (npts_of s)) /\ zlen h = total (remove_at d (npts_of s))) ->
  zlen v = total (npts_of s) -> exists v' T,
  right_side_neumann (F := F) mdet s rl v neumann = Ok v' /\ zlen v' = total (npts_of s) /\
  (forall d a b g h js, nth_error bs d = Some (a, b) -> nth_error neumann d = Some (g, h) -> in_box (remove_at d (npts_of s)) js ->
     face_load mdet rl a g js (T d false js) /\ face_load mdet rl b h js (T d true js)) /\
  forall idx, in_box (npts_of s) idx ->
  component v' (position (npts_of s) idx) =
  (component v (position (npts_of s) idx) +
   lsum (fun d => (if (nth d idx 0 =? 0)%Z then T d false (remove_at d idx) else 0) +
                  (if (nth d idx 0 =? nth d (npts_of s) 0 - 1)%Z then T d true (remove_at d idx) else 0))
        (seq 0 (length (degs_of s))))%R.
Proof.
  intros mdet s rl kv p Hwf Hreg He Hb Hrl HD Hk Hdeg.
  destruct (wf_lengths s Hwf) as (L1 & L2). pose proof (npts_pos s Hwf) as Hp.
  assert (Hall : Forall (eq (zlen kv - p - 1)) (npts_of s)).
  { rewrite (wf_npts s Hwf). clear - Hk Hdeg. revert Hdeg. generalize (degs_of s). induction Hk as [|k K -> Hk IH]; intros Q HQ; cbn [map2]; [constructor|].
    destruct HQ as [|q Q -> HQ]; constructor; auto. }
  destruct (boundary_faces s _ Hwf He Hb Hall) as (bs & Ebs & Lbs & Hbs). exists bs. split; auto. split; auto.
  assert (Rk : forall d, (d < length (degs_of s))%nat -> remove_at d (knots_of s) = firstn (pred (length (degs_of s))) (knots_of s)).
  { intros d Hd. rewrite <- L1. apply (firstn_removelast _ kv); auto. lia. }
  assert (Rp : forall d, (d < length (degs_of s))%nat -> remove_at d (degs_of s) = firstn (pred (length (degs_of s))) (degs_of s)).
  { intros d Hd. now apply (firstn_removelast _ p). }
  assert (Faces : forall d a b, nth_error bs d = Some (a, b) -> face_of s d false a /\ face_of s d true b).
  { intros d a b E. assert (Hd : (d < length (degs_of s))%nat) by (rewrite <- Lbs; apply nth_error_Some; congruence). now apply (Hbs d a b E); auto. }
  split; auto. intros neumann v Ln Hne Hv.
  set (T := fun (d : nat) (e : bool) (js : list Z) => match nth_error bs d, nth_error neumann d with
    | Some (a, b), Some (g, h) => if e then face_term mdet rl b h js else face_term mdet rl a g js | _, _ => 0%R end).
  assert (Step : forall d, In d (seq 0 (length (degs_of s))) -> adds (vlen (total (npts_of s))) (in_range (total (npts_of s))) component
    (fun vecB => b <- dget bs d ;; members <- boundary_connectivity (npts_of s) d ;; nc <- dget neumann d ;;
       v <- neumann_boundary (F := F) mdet rl (fst b) (fst nc) (fst members) vecB ;;
       neumann_boundary (F := F) mdet rl (snd b) (snd nc) (snd members) v)
    (fun i => let idx := nth_index (npts_of s) (Z.to_nat i) in
       (if (nth d idx 0 =? 0)%Z then T d false (remove_at d idx) else 0) +
       (if (nth d idx 0 =? nth d (npts_of s) 0 - 1)%Z then T d true (remove_at d idx) else 0))%R).
  { intros d Hd. apply in_seq in Hd.
    destruct (nth_error bs d) as [[a b]|] eqn:Eb; [|apply nth_error_None in Eb; lia].
    destruct (nth_error neumann d) as [[g h]|] eqn:En; [|apply nth_error_None in En; lia].
    set (n := nth d (npts_of s) 0). assert (Hn : nth_error (npts_of s) d = Some n) by (apply nth_error_nth'; lia).
    assert (Hn1 : 1 <= n) by (apply nth_error_In in Hn; unfold pos_lens in Hp; rewrite Forall_forall in Hp; now apply Hp).
    destruct (Hbs d a b Eb) as (Wa & Wb & (Na & _) & (Nb & _) & _). destruct (Faces d a b Eb) as (Fa & Fb).
    assert (Ra : forall f e, face_of s d e f -> regular f).
    { intros f e (_ & _ & Hf) us Hu. destruct (Hf us Hu) as (Hu' & -> & _). now apply Hreg. }
    destruct (Hne d g h En) as (Lg & Lh).
    assert (Mem : forall (f : spline F) c, npts_of f = remove_at d (npts_of s) -> 0 <= c < n -> forall js, in_box (npts_of f) js ->
      vget (face_numbers (npts_of s) d c) (position (npts_of f) js) = Ok (position (npts_of s) (put_at d c js)) /\
      0 <= position (npts_of s) (put_at d c js) < total (npts_of s)).
    { intros f c -> Hc js Hj. split; [|apply position_range; now apply (put_in_box d c _ n)].
      pose proof (position_range _ _ Hj) as Hr. rewrite (vget_nth _ _ 0) by (unfold zlen; rewrite face_numbers_length; auto).
      f_equal. apply nth_error_nth. now apply face_numbers_nth. }
    assert (Za : 0 <= 0 < n) by lia. assert (Zb : 0 <= n - 1 < n) by lia.
    assert (Va : vlen (total (npts_of a)) g) by (unfold vlen; rewrite Na; exact Lg).
    assert (Vb : vlen (total (npts_of b)) h) by (unfold vlen; rewrite Nb; exact Lh).
    pose proof (neumann_adds mdet a rl g _ _ (total (npts_of s)) Wa (Ra a _ Fa) Hrl Va (Mem a 0 Na Za)) as A1.
    pose proof (neumann_adds mdet b rl h _ _ (total (npts_of s)) Wb (Ra b _ Fb) Hrl Vb (Mem b (n - 1) Nb Zb)) as A2.
    eapply adds_ext; [| |exact (adds_seq _ _ _ _ _ _ _ A1 A2)].
    - intros m _. rewrite (dget_nth bs d (a, b) (a, b) Eb). cbn [bind]. rewrite (connectivity_ok _ d n Hp Hn). cbn [bind].
      rewrite (dget_nth neumann d (g, h) (g, h) En). reflexivity.
    - intros i Hi. cbv beta. destruct (box_number (npts_of s) i Hp Hi) as (Hbx & Ep). cbv zeta. set (idx := nth_index _ _) in *. clearbody idx. rewrite <- Ep.
      rewrite (pick_face (npts_of s) d n 0 a) by (auto; lia). rewrite (pick_face (npts_of s) d n (n - 1) b) by (auto; lia).
      unfold T. rewrite Eb, En. reflexivity. }
  destruct (adds_foldM _ _ _ _ _ _ Step v Hv) as (v' & E & Hv' & Ov).
  exists v', T. split; [|split; [exact Hv'|split]].
  - unfold right_side_neumann. fold (degs_of s) (npts_of s). destruct (Z.eqb_spec (zlen (degs_of s)) 1) as [C|_]; [unfold zlen in C; lia|].
    rewrite Ebs. cbn [bind]. exact E.
  - intros d a b g h js Eb En Hj. destruct (Hbs d a b Eb) as (Wa & Wb & _). unfold T. rewrite Eb, En. split; now apply face_term_load.
  - intros idx Hi. rewrite Ov by (now apply position_range). f_equal. apply lsum_ext. intros d _. rewrite number_box by auto. reflexivity.
Qed.

Lemma neumann_curve : forall (mdet : list (list R) -> R) s rl v neumann, length (degs_of s) = 1%nat ->
  right_side_neumann (F := F) mdet s rl v neumann = Throw RuntimeError.
Proof. intros mdet s rl v neumann E. unfold right_side_neumann. fold (degs_of s). unfold zlen. now rewrite E. Qed.
End Neumann.
