(* Refinement does not make the control points vary more. *)
From Coq Require Import ZArith List Bool Lia Reals Lra Permutation.
From Verif Require Import Base BaseFacts RSum MultiIndex MultiIndexSpec MultiIndexFacts TensorSum
  KnotVec KnotVecSpec KnotVecFacts BSplineTheory Boehm BasisSpec Basis BasisFacts VecUtils Spaces SpacesSpec SpacesFacts
  SplineEval SplineEdit SplineSpec EvalFacts EvalThms PhysFacts AdjustFacts InsertKnots InsertFacts InsertThms InsertRepeat EditSpec
  MonotoneSpec Monotone SteepSpec Steep SmoothSpec Smooth VariesSpec Varies.
Import ListNotations.
Open Scope Z_scope.

Lemma row_way n (P : Z -> R) : 0 < n -> variation (map (fun i => P (Z.of_nat i)) (seq 0 (Z.to_nat n))) = way P (n - 1).
Proof. intros H. replace (Z.to_nat n) with (S (Z.to_nat (n - 1))) by lia. now rewrite variation_way. Qed.

Lemma way_mixed (a P P' : Z -> R) n : (forall i, (0 <= a i <= 1)%R) -> 1 <= n -> a 0 = 1%R -> a n = 0%R ->
  (forall i, 0 <= i <= n -> P' i = (a i * P i + (1 - a i) * P (i - 1)%Z)%R) -> (way P' n <= way P (n - 1))%R.
Proof.
  intros Ha Hn A0 An H.
  assert (X : forall k, Z.of_nat k + 1 <= n -> (way P' (Z.of_nat k + 1) <= way P (Z.of_nat k) + a (Z.of_nat k + 1)%Z * Rabs (P (Z.of_nat k + 1)%Z - P (Z.of_nat k)))%R).
  { induction k as [|k IH]; intros Hk.
    - rewrite way_step by lia. replace (Z.of_nat 0 + 1 - 1) with 0 by lia. change (Z.of_nat 0) with 0. change (0 + 1) with 1.
      rewrite (H 1), (H 0), A0 by lia. change (1 - 1) with 0.
      replace (a 1%Z * P 1%Z + (1 - a 1%Z) * P 0%Z - (1 * P 0%Z + (1 - 1) * P (0 - 1)%Z))%R with (a 1%Z * (P 1%Z - P 0%Z))%R by ring.
      rewrite Rabs_mult, (Rabs_pos_eq (a 1%Z)) by apply Ha. unfold way. cbn [Z.to_nat zseq lsum]. lra.
    - specialize (IH ltac:(lia)). rewrite way_step by lia. replace (Z.of_nat (S k) + 1 - 1) with (Z.of_nat k + 1) by lia. replace (Z.of_nat (S k)) with (Z.of_nat k + 1) by lia.
      set (m := Z.of_nat k + 1) in *. rewrite (way_step P m) by lia. replace (Z.of_nat k) with (m - 1) in IH by lia.
      rewrite (H (m + 1)), (H m) by lia. replace (m + 1 - 1) with m by lia.
      replace (a (m + 1)%Z * P (m + 1)%Z + (1 - a (m + 1)%Z) * P m - (a m * P m + (1 - a m) * P (m - 1)%Z))%R
        with (a (m + 1)%Z * (P (m + 1)%Z - P m) + (1 - a m) * (P m - P (m - 1)%Z))%R by ring.
      eapply Rle_trans; [apply Rplus_le_compat_l, Rabs_triang|]. rewrite !Rabs_mult, (Rabs_pos_eq (a (m + 1)%Z)), (Rabs_pos_eq (1 - a m)) by (pose proof (Ha (m + 1)); pose proof (Ha m); lra).
      lra. }
  specialize (X (Z.to_nat (n - 1)) ltac:(lia)). replace (Z.of_nat (Z.to_nat (n - 1))) with (n - 1) in X by lia. replace (n - 1 + 1) with n in X by lia. rewrite An in X. lra.
Qed.

Lemma way_mean b (P Q T : Z -> R) n : (0 <= b <= 1)%R -> (forall i, 0 <= i <= n -> T i = (b * P i + (1 - b) * Q i)%R) -> (way T n <= b * way P n + (1 - b) * way Q n)%R.
Proof.
  intros Hb H. unfold way. rewrite <- !lsum_scal, <- lsum_plus. apply lsum_le. intros i Hi. apply zseq_In in Hi. rewrite !H by lia.
  replace (b * P (i + 1)%Z + (1 - b) * Q (i + 1)%Z - (b * P i + (1 - b) * Q i))%R with (b * (P (i + 1)%Z - P i) + (1 - b) * (Q (i + 1)%Z - Q i))%R by ring.
  eapply Rle_trans; [apply Rabs_triang|]. rewrite !Rabs_mult, (Rabs_pos_eq b), (Rabs_pos_eq (1 - b)) by lra. lra.
Qed.

Lemma in_box_put lens idx d i : in_box lens idx -> 0 <= i < nth d lens 0 -> in_box lens (upd idx d i).
Proof.
  intros H. revert d. induction H as [|n j lens idx H1 H2 IH]; intros [|d] Hi; cbn in *; try lia; constructor; auto; now apply IH.
Qed.

Section Refine.
Variable dz : R -> R.
Implicit Types s : spline (Rops dz).

Lemma rows_way s e c K : (e < length (npts_of s))%nat ->
  rows_within s e c K <-> forall idx, in_box (npts_of s) idx -> (way (fun i => coordinate s (upd idx e i) c) (nth e (npts_of s) 0 - 1)%Z <= K)%R.
Proof.
  intros He. split; intros H idx Hb; specialize (H idx Hb); pose proof (in_box_nth _ _ e Hb He) as Hi;
    [unfold row_of in H; rewrite <- (row_way (nth e (npts_of s) 0) (fun i => coordinate s (upd idx e i) c)) by lia; exact H |
     unfold row_of; rewrite (row_way (nth e (npts_of s) 0) (fun i => coordinate s (upd idx e i) c)) by lia; exact H].
Qed.

Lemma step_varies s s' d e kv kv' p a c K : is_bspline s -> is_bspline s' -> mixed dz s s' d kv kv' p a -> 0 <= c < ph_dim (sp_ph s) -> (e < length (npts_of s))%nat ->
  pos_lens (npts_of s) -> rows_within s e c K -> rows_within s' e c K.
Proof.
  intros Hb Hb' M Hc He Hpl H. pose proof M as (Ha & En & Hd & A0 & An & _).
  rewrite rows_way in H by auto. apply rows_way; [now rewrite En, upd_length|]. intros idx Hi.
  assert (Hl : length idx = length (npts_of s)) by (pose proof (f2_len Hi) as X; rewrite En, upd_length in X; lia).
  destruct (Nat.eq_dec d e) as [<-|Hne].
  - assert (Hn : 0 < nth d (npts_of s) 0) by (unfold pos_lens in Hpl; rewrite Forall_forall in Hpl; pose proof (Hpl (nth d (npts_of s) 0) (nth_In _ _ Hd)); lia).
    rewrite En, nth_upd_same by auto. replace (nth d (npts_of s) 0 + 1 - 1) with (nth d (npts_of s) 0) by lia.
    assert (Hz : in_box (npts_of s) (upd idx d 0)).
    { rewrite En in Hi. apply (in_box_self _ _ d (nth d (npts_of s) 0 + 1)); [apply in_box_put; [exact Hi | rewrite nth_upd_same by auto; lia]|]. rewrite nth_upd_same by lia. lia. }
    eapply Rle_trans; [|apply (H (upd idx d 0) Hz)].
    apply (way_mixed a); auto; [lia|].
    intros i Hr. rewrite (mixed_plain dz s s' d kv kv' p a) by (first [assumption | apply in_box_put; [exact Hi | rewrite En, nth_upd_same by auto; lia]]).
    unfold below. rewrite nth_upd_same by lia. now rewrite !upd_upd.
  - assert (Ee : nth e (npts_of s') 0 = nth e (npts_of s) 0) by (rewrite En; apply nth_upd_ne; congruence). rewrite Ee.
    pose proof (in_box_nth _ _ e Hi ltac:(now rewrite En, upd_length)) as Hie. rewrite Ee in Hie.
    eapply Rle_trans; [apply (way_mean (a (nth d idx 0)) (fun i => coordinate s (upd idx e i) c) (fun i => coordinate s (upd (below d idx) e i) c)); [apply Ha|]|].
    + intros i Hr. rewrite (mixed_plain dz s s' d kv kv' p a) by (first [assumption | apply in_box_put; [exact Hi | rewrite Ee; lia]]).
      unfold below. rewrite nth_upd_ne by congruence. rewrite (upd_comm idx d e) by congruence. reflexivity.
    + apply mean_le; [apply Ha | |]; intros N; apply H.
      * exact (upper_in dz _ _ _ _ _ _ _ _ M Hi N).
      * exact (lower_in dz _ _ _ _ _ _ _ _ M Hi N).
Qed.

Theorem refine_varies s new d kv p c e K : well_formed s -> is_bspline s -> direction s d kv p -> all_insertable kv p new -> zlen kv + zlen new <= 2 ^ 31 ->
  0 <= c < ph_dim (sp_ph s) -> (e < length (npts_of s))%nat -> rows_within s e c K -> exists s', refine_knots s new d = Ok s' /\ rows_within s' e c K.
Proof.
  intros W B D A Hz Hc He H.
  destruct (refine_keeps dz (fun s => is_bspline s /\ 0 <= c < ph_dim (sp_ph s) /\ (e < length (npts_of s))%nat /\ rows_within s e c K) d p) with (new := new) (s := s) (kv := kv)
    as (s' & E & _ & _ & _ & X); auto; [|now left|].
  - intros s1 s2 kv1 kv2 a W1 R1 W2 R2 _ _ _ _ Dm Bs M (H0 & H1 & H2 & H3). split; [auto|]. split; [now rewrite Dm|].
    split; [destruct M as (_ & -> & _); now rewrite upd_length|].
    apply (step_varies s1 s2 d e kv1 kv2 p a); auto. pose proof (wf_phys dz s1 W1) as (Hpl & _). exact Hpl.
  - exists s'. auto.
Qed.
End Refine.
