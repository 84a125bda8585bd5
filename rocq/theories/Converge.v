(* Control points lie close to the spline, the closer the denser the knots. *)
From Coq Require Import ZArith List Bool Lia Reals Lra Permutation.
From Verif Require Import Base BaseFacts RSum MultiIndex MultiIndexSpec MultiIndexFacts TensorSum
  KnotVec KnotVecSpec KnotVecFacts BSplineTheory BasisSpec Basis BasisFacts Spaces SpacesSpec SpacesFacts
  SplineEval SplineEdit SplineSpec EvalFacts RationalDeriv EvalDeriv SplineNew EvalThms PhysFacts InsertFacts InsertThms EditSpec GrevilleSpec GrevilleFacts MonotoneSpec Monotone SteepSpec Steep SmoothSpec Smooth ConvergeSpec.
Import ListNotations.
Open Scope Z_scope.

(* ---- one direction ---- *)
Lemma lsum_same {A} (x : R) (l : list A) : lsum (fun _ => x) l = (INR (length l) * x)%R.
Proof. induction l as [|a l IH]; cbn [lsum length]; [cbn; ring|]. rewrite IH, S_INR. ring. Qed.

Lemma cox_support kv : nondecreasing kv -> forall p i u, (i + p + 1 < length kv)%nat -> cox_de_boor kv p i u <> 0%R -> (knot kv i <= u <= knot kv (i + p + 1))%R.
Proof.
  intros Hn. induction p as [|p IH]; intros i u Hl H; cbn [cox_de_boor] in H.
  - destruct (in_piece_dec kv i u) as [[X|X]|X]; [| | congruence]; replace (i + 0 + 1)%nat with (S i) by lia; lra.
  - destruct (Req_EM_T (cox_de_boor kv p i u) 0) as [E1|E1]; destruct (Req_EM_T (cox_de_boor kv p (i + 1) u) 0) as [E2|E2].
    + exfalso. apply H. rewrite E1, E2. lra.
    + destruct (IH (i + 1)%nat u ltac:(lia) E2) as [A B]. pose proof (Hn i (i + 1)%nat ltac:(lia) ltac:(lia)). replace (i + 1 + p + 1)%nat with (i + S p + 1)%nat in B by lia. lra.
    + destruct (IH i u ltac:(lia) E1) as [A B]. pose proof (Hn (i + p + 1)%nat (i + S p + 1)%nat ltac:(lia) ltac:(lia)). lra.
    + destruct (IH (i + 1)%nat u ltac:(lia) E2) as [A B]. pose proof (Hn i (i + 1)%nat ltac:(lia) ltac:(lia)). replace (i + 1 + p + 1)%nat with (i + S p + 1)%nat in B by lia. lra.
Qed.

Lemma gaps_sum kv h i : gaps_within kv h -> forall k, (i + k < length kv)%nat -> (knot kv (i + k) - knot kv i <= INR k * h)%R.
Proof.
  intros H. induction k as [|k IH]; intros Hl; [rewrite Nat.add_0_r; cbn; lra|].
  rewrite S_INR. specialize (IH ltac:(lia)). pose proof (H (i + k)%nat ltac:(lia)) as X. replace (i + S k)%nat with (S (i + k)) by lia. lra.
Qed.

Lemma greville_within kv p i : nondecreasing kv -> 1 <= p -> 0 <= i -> i + p < zlen kv -> (knot kv (Z.to_nat i + 1) <= greville kv p i <= knot kv (Z.to_nat i + Z.to_nat p))%R.
Proof.
  intros Hn Hp Hi Hl. unfold greville. assert (P : (0 < IZR p)%R) by (apply IZR_lt; lia).
  assert (E : forall x, lsum (fun _ : Z => x) (zseq 1 (Z.to_nat p)) = (IZR p * x)%R).
  { intros x. rewrite lsum_same, zseq_length, INR_IZR_INZ, Z2Nat.id by lia. reflexivity. }
  split; apply Rmult_le_reg_l with (IZR p); auto; unfold Rdiv; rewrite (Rmult_comm (lsum _ _)), <- ?Rmult_assoc, ?Rinv_r, ?Rmult_1_l by lra; rewrite <- E; apply lsum_le; intros j Hj; apply zseq_In in Hj;
    apply Hn; unfold zlen in *; lia.
Qed.

Lemma near_parameter kv p i u h : nondecreasing kv -> 1 <= p -> 0 <= i < zlen kv - p - 1 -> gaps_within kv h -> cox_de_boor kv (Z.to_nat p) (Z.to_nat i) u <> 0%R ->
  (Rabs (greville kv p i - u) <= IZR p * h)%R.
Proof.
  intros Hn Hp Hi Hg H. destruct (cox_support kv Hn (Z.to_nat p) (Z.to_nat i) u ltac:(unfold zlen in *; lia) H) as [A B].
  destruct (greville_within kv p i Hn Hp ltac:(lia) ltac:(lia)) as [C D]. unfold zlen in *.
  pose proof (gaps_sum kv h (Z.to_nat i) Hg (Z.to_nat p) ltac:(lia)) as X. pose proof (gaps_sum kv h (Z.to_nat i + 1) Hg (Z.to_nat p) ltac:(lia)) as Y.
  replace (Z.to_nat i + 1 + Z.to_nat p)%nat with (Z.to_nat i + Z.to_nat p + 1)%nat in Y by lia.
  rewrite INR_IZR_INZ, Z2Nat.id in X, Y by lia. apply Rabs_le. lra.
Qed.

Lemma chain (f g : Z -> R) K a : forall m : nat, (forall k, a <= k < a + Z.of_nat m -> (Rabs (f (k + 1)%Z - f k) <= K * (g (k + 1)%Z - g k))%R) ->
  (Rabs (f (a + Z.of_nat m)%Z - f a) <= K * (g (a + Z.of_nat m)%Z - g a))%R.
Proof.
  induction m as [|m IH]; intros H.
  - rewrite Z.add_0_r. unfold Rminus. rewrite !Rplus_opp_r, Rabs_R0. lra.
  - specialize (IH ltac:(intros k Hk; apply H; lia)). pose proof (H (a + Z.of_nat m) ltac:(lia)) as X. replace (a + Z.of_nat m + 1) with (a + Z.of_nat (S m)) in X by lia.
    apply Rabs_le_inv in IH. apply Rabs_le_inv in X. apply Rabs_le. lra.
Qed.

(* ---- all directions ---- *)
Section Converge.
Variable dz : R -> R.
Implicit Types s : spline (Rops dz).

Lemma row_difference s d c K kv p idx m : polygon_within s d c K -> (0 <= K)%R -> nth_error (knots_of s) d = Some kv -> nth_error (degs_of s) d = Some p ->
  in_box (npts_of s) idx -> in_box (npts_of s) (upd idx d m) -> (d < length idx)%nat ->
  (Rabs (coordinate s (upd idx d m) c - coordinate s idx c) <= K * Rabs (greville kv p m - greville kv p (nth d idx 0%Z)))%R.
Proof.
  intros H HK Ek Ep H1 H2 Hd. set (i := nth d idx 0).
  assert (Hl : (d < length (npts_of s))%nat) by (pose proof (f2_len H1); lia).
  pose proof (in_box_nth _ _ d H1 Hl) as R1. pose proof (in_box_nth _ _ d H2 Hl) as R2. rewrite nth_upd_same in R2 by auto. fold i in R1.
  assert (Hbx : forall k, 0 <= k < nth d (npts_of s) 0 -> in_box (npts_of s) (upd idx d k)).
  { intros k Hk. clear - H1 Hk Hl. unfold in_box in *. revert d Hk Hl. induction H1 as [|? ? ? ? A B IH]; intros [|d] Hk Hl; cbn in *; constructor; auto; try lia. apply IH; auto; lia. }
  assert (St : forall k, 0 <= k -> k + 1 < nth d (npts_of s) 0 -> (Rabs (coordinate s (upd idx d (k + 1)%Z) c - coordinate s (upd idx d k) c) <= K * (greville kv p (k + 1)%Z - greville kv p k))%R).
  { intros k Hk1 Hk2. pose proof (H kv p (upd idx d k) Ek Ep (Hbx k ltac:(lia))) as X. unfold next_in in X. rewrite nth_upd_same, upd_upd in X by auto. apply X. apply Hbx. lia. }
  assert (Ei : upd idx d i = idx) by (unfold i; now rewrite upd_nth_self).
  destruct (Z_le_dec i m) as [L|L].
  - pose proof (chain (fun k => coordinate s (upd idx d k) c) (greville kv p) K i (Z.to_nat (m - i)) ltac:(intros k Hk; apply St; lia)) as X. cbv beta in X.
    replace (i + Z.of_nat (Z.to_nat (m - i))) with m in X by lia. rewrite Ei in X. eapply Rle_trans; [exact X|]. apply Rmult_le_compat_l; [exact HK | apply Rle_abs].
  - pose proof (chain (fun k => coordinate s (upd idx d k) c) (greville kv p) K m (Z.to_nat (i - m)) ltac:(intros k Hk; apply St; lia)) as X. cbv beta in X.
    replace (m + Z.of_nat (Z.to_nat (i - m))) with i in X by lia. rewrite Ei in X. rewrite Rabs_minus_sym. eapply Rle_trans; [exact X|]. apply Rmult_le_compat_l; [exact HK|].
    rewrite Rabs_minus_sym. apply Rle_abs.
Qed.

Lemma zpath_step (us vs : list Z) k v : nth_error vs k = Some v -> length us = length vs -> upd (firstn k vs ++ skipn k us) k v = firstn (S k) vs ++ skipn (S k) us.
Proof.
  revert us vs; induction k as [|k IH]; intros [|u us] [|v' vs] E L; cbn in *; try discriminate.
  - now injection E as <-.
  - f_equal. apply IH; auto.
Qed.
Lemma zpath_nth (us vs : list Z) k : (k < length us)%nat -> length us = length vs -> nth k (firstn k vs ++ skipn k us) 0 = nth k us 0.
Proof. revert us vs; induction k as [|k IH]; intros [|u us] [|v' vs] E L; cbn in *; try lia; auto. apply IH; lia. Qed.
Lemma zpath_box l us vs k : in_box l us -> in_box l vs -> in_box l (firstn k vs ++ skipn k us).
Proof.
  intros H. revert vs k. unfold in_box. induction H as [|a u l us Ha H IH]; intros vs k H2; inversion H2 as [|? v ? vs' Hv H3]; subst.
  - destruct k; constructor.
  - destruct k as [|k]; cbn; [constructor; auto|]. constructor; auto.
Qed.

Definition mean_at s (d : nat) (i : Z) : R := greville (nth d (knots_of s) []) (nth d (degs_of s) 0) i.

Lemma net_difference s c Ks idx jdx : well_formed s -> Forall (fun K => 0 <= K)%R Ks -> (forall d, (d < length (knots_of s))%nat -> polygon_within s d c (nth d Ks 0%R)) ->
  in_box (npts_of s) idx -> in_box (npts_of s) jdx ->
  (Rabs (coordinate s jdx c - coordinate s idx c) <= lsum (fun d => nth d Ks 0 * Rabs (mean_at s d (nth d jdx 0%Z) - mean_at s d (nth d idx 0%Z))) (seq 0 (length (knots_of s))))%R.
Proof.
  intros W HK HP Hi Hj. pose proof (f2_len (wf_directions s W)) as L1. pose proof (f2_len Hi) as L2. pose proof (f2_len Hj) as L3.
  assert (L4 : length (npts_of s) = length (knots_of s)) by (rewrite (wf_npts s W); now apply map2_length).
  assert (G : forall k, (k <= length (knots_of s))%nat -> (Rabs (coordinate s (firstn k jdx ++ skipn k idx) c - coordinate s idx c) <=
    lsum (fun d => nth d Ks 0 * Rabs (mean_at s d (nth d jdx 0%Z) - mean_at s d (nth d idx 0%Z))) (seq 0 k))%R).
  { induction k as [|k IH]; intros Hk.
    - cbn [firstn skipn app seq lsum]. unfold Rminus. rewrite Rplus_opp_r, Rabs_R0. lra.
    - specialize (IH ltac:(lia)). rewrite seq_S, lsum_app. cbn [lsum plus].
      destruct (nth_error jdx k) as [v|] eqn:Ev; [|apply nth_error_None in Ev; lia].
      destruct (nth_error (knots_of s) k) as [kv|] eqn:Ek; [|apply nth_error_None in Ek; lia].
      destruct (nth_error (degs_of s) k) as [p|] eqn:Ep; [|apply nth_error_None in Ep; lia].
      assert (Kk : (0 <= nth k Ks 0)%R).
      { destruct (lt_dec k (length Ks)) as [Q|Q]; [rewrite Forall_forall in HK; apply HK; now apply nth_In | rewrite nth_overflow by lia; lra]. }
      pose proof (zpath_box _ idx jdx k Hi Hj) as B1. pose proof (zpath_box _ idx jdx (S k) Hi Hj) as B2. rewrite <- (zpath_step idx jdx k v Ev) in B2 |- * by lia.
      pose proof (row_difference s k c _ kv p _ v (HP k ltac:(lia)) Kk Ek Ep B1 B2 ltac:(pose proof (f2_len B1); lia)) as X.
      rewrite zpath_nth in X by lia. unfold mean_at at 3 4. rewrite (nth_error_nth _ _ _ Ek), (nth_error_nth _ _ _ Ep), (nth_error_nth _ _ _ Ev).
      apply Rabs_le_inv in IH. apply Rabs_le_inv in X. apply Rabs_le. lra. }
  specialize (G (length (knots_of s)) (le_n _)). rewrite firstn_all2, skipn_all2, app_nil_r in G by lia. exact G.
Qed.

(* the factors of a product that is not zero *)
Lemma product_factors : forall knots degs us idx, length degs = length knots -> length us = length knots -> length idx = length knots -> basis_product knots degs us idx <> 0%R ->
  forall d, (d < length knots)%nat -> cox_de_boor (nth d knots []) (Z.to_nat (nth d degs 0)) (Z.to_nat (nth d idx 0)) (nth d us 0%R) <> 0%R.
Proof.
  induction knots as [|kv knots IH]; intros [|p degs] [|u us] [|i idx] A B C H [|d] Hd; cbn in *; try lia.
  - intros X. apply H. rewrite X. lra.
  - apply IH; try lia. intros X. apply H. rewrite X. lra.
Qed.

Theorem points_near s us idx c Ks hs : well_formed s -> is_bspline s -> Forall (fun p => 1 <= p) (degs_of s) -> in_domain s us -> in_box (npts_of s) idx -> 0 <= c < ph_dim (sp_ph s) ->
  Forall (fun K => 0 <= K)%R Ks -> (forall d, (d < length us)%nat -> polygon_within s d c (nth d Ks 0%R)) ->
  (forall d, (d < length us)%nat -> gaps_within (nth d (knots_of s) []) (nth d hs 0%R)) ->
  exists x, evaluate s us [c] = Ok [x] /\
    (Rabs (coordinate s idx c - x) <= lsum (fun d => nth d Ks 0 * (Rabs (greville (nth d (knots_of s) []) (nth d (degs_of s) 0%Z) (nth d idx 0%Z) - nth d us 0) + IZR (nth d (degs_of s) 0%Z) * nth d hs 0)) (seq 0 (length us)))%R.
Proof.
  intros W Hb HD Hu Hi Hc HK HP Hh. pose proof (f2_len (wf_directions s W)) as L1. pose proof (f2_len Hu) as L2. pose proof (f2_len Hi) as L3.
  assert (L4 : length (npts_of s) = length (knots_of s)) by (rewrite (wf_npts s W); now apply map2_length).
  rewrite (bspline_full_sum dz) by (auto; repeat constructor; lia). cbn [map]. eexists. split; [reflexivity|].
  set (Bd := lsum (fun d => nth d Ks 0 * (Rabs (greville (nth d (knots_of s) []) (nth d (degs_of s) 0%Z) (nth d idx 0%Z) - nth d us 0) + IZR (nth d (degs_of s) 0%Z) * nth d hs 0))%R (seq 0 (length us))).
  set (lam := basis_product (knots_of s) (degs_of s) us).
  assert (One : lsum lam (all_indices (npts_of s)) = 1%R).
  { rewrite <- (weight_function_bspline dz s us W Hb Hu). unfold weight_function. apply lsum_ext. intros j _. unfold weight. rewrite Hb. unfold lam. ring. }
  assert (Pos : forall j, In j (all_indices (npts_of s)) -> (0 <= lam j)%R).
  { intros j Hj. apply all_indices_box in Hj. rewrite (wf_npts s W) in Hj. unfold lam. clear - W Hu Hj. pose proof (wf_directions s W) as HW. unfold in_domain in Hu. unfold in_box in Hj.
    revert us j Hu Hj. induction HW as [|kv p ks ds Hg HW IH]; intros us j Hu Hj; inversion Hu as [|? u ? us' U1 U2]; subst; cbn [map2] in Hj; inversion Hj as [|? i ? j' J1 J2]; subst; cbn [basis_product]; [lra|].
    apply Rmult_le_pos; [|now apply IH]. apply (cox_nonneg dz kv p Hg); auto. apply zseq_In. lia. }
  assert (Dist : forall j, In j (all_indices (npts_of s)) -> lam j <> 0%R -> (Rabs (coordinate s j c - coordinate s idx c) <= Bd)%R).
  { intros j Hj Hl. apply all_indices_box in Hj. pose proof (f2_len Hj) as L5.
    eapply Rle_trans; [apply (net_difference s c Ks idx j); auto; intros d Hd; apply HP; lia|]. unfold Bd. rewrite <- L2. apply lsum_le. intros d Hd. apply in_seq in Hd.
    apply Rmult_le_compat_l.
    { destruct (lt_dec d (length Ks)) as [Q|Q]; [rewrite Forall_forall in HK; apply HK; now apply nth_In | rewrite nth_overflow by lia; lra]. }
    pose proof (product_factors (knots_of s) (degs_of s) us j ltac:(lia) ltac:(lia) ltac:(lia) Hl d ltac:(lia)) as X.
    destruct (nth_error (knots_of s) d) as [kv|] eqn:Ek; [|apply nth_error_None in Ek; lia].
    destruct (nth_error (degs_of s) d) as [p|] eqn:Ep; [|apply nth_error_None in Ep; lia].
    destruct (wf_direction dz s d kv p W Ek Ep) as ((_ & _ & Hn & _) & Hdn & En). pose proof (in_box_nth _ _ d Hj Hdn) as Rj. rewrite En in Rj.
    pose proof (Hh d ltac:(lia)) as Hgap. unfold mean_at. rewrite (nth_error_nth _ _ _ Ek), (nth_error_nth _ _ _ Ep) in *.
    assert (Hp : 1 <= p) by (rewrite Forall_forall in HD; apply HD; now apply nth_error_In with d).
    pose proof (near_parameter kv p (nth d j 0) (nth d us 0%R) _ Hn Hp Rj Hgap X) as Y.
    replace (greville kv p (nth d j 0%Z) - greville kv p (nth d idx 0%Z))%R with ((greville kv p (nth d j 0%Z) - nth d us 0) - (greville kv p (nth d idx 0%Z) - nth d us 0))%R by ring.
    pose proof (Rabs_triang (greville kv p (nth d j 0%Z) - nth d us 0)%R (- (greville kv p (nth d idx 0%Z) - nth d us 0))%R) as T. rewrite Rabs_Ropp in T. unfold Rminus in *. lra. }
  replace (coordinate s idx c - lsum (fun j => lam j * coordinate s j c) (all_indices (npts_of s)))%R with (lsum (fun j => lam j * (coordinate s idx c - coordinate s j c))%R (all_indices (npts_of s))).
  2:{ rewrite (lsum_ext _ (fun j => coordinate s idx c * lam j - lam j * coordinate s j c)%R) by (intros; ring). rewrite lsum_minus, lsum_scal, One. ring. }
  eapply Rle_trans; [apply lsum_abs|]. rewrite <- (Rmult_1_r Bd), <- One, <- lsum_scal. apply lsum_le. intros j Hj.
  rewrite Rabs_mult, (Rabs_pos_eq (lam j)) by now apply Pos. rewrite (Rmult_comm Bd).
  destruct (Req_EM_T (lam j) 0) as [E|E]; [rewrite E; lra|]. apply Rmult_le_compat_l; [now apply Pos|]. rewrite Rabs_minus_sym. now apply Dist.
Qed.

Theorem refined_near s new d kv p c Ks : well_formed s -> is_bspline s -> Forall (fun p => 1 <= p) (degs_of s) -> direction s d kv p -> all_insertable kv p new -> zlen kv + zlen new <= 2 ^ 31 ->
  0 <= c < ph_dim (sp_ph s) -> Forall (fun K => 0 <= K)%R Ks -> (forall e, (e < length (knots_of s))%nat -> polygon_within s e c (nth e Ks 0%R)) ->
  exists s', refine_knots s new d = Ok s' /\ forall hs us idx, in_domain s us -> in_box (npts_of s') idx ->
    (forall e, (e < length us)%nat -> gaps_within (nth e (knots_of s') []) (nth e hs 0%R)) ->
    exists x, evaluate s us [c] = Ok [x] /\
      (Rabs (coordinate s' idx c - x) <= lsum (fun e => nth e Ks 0 * (Rabs (greville (nth e (knots_of s') []) (nth e (degs_of s') 0%Z) (nth e idx 0%Z) - nth e us 0) + IZR (nth e (degs_of s') 0%Z) * nth e hs 0)) (seq 0 (length us)))%R.
Proof.
  intros W B HD D A Hz Hc HK HP.
  destruct (refine_ok dz new s d kv p W (or_introl B) D A Hz) as (s' & kv' & E & W' & _ & Ek' & _ & _ & Ed' & _ & Ev).
  assert (Lk : length (knots_of s') = length (knots_of s)) by (rewrite Ek'; apply upd_length).
  destruct (refine_keeps dz (fun t => is_bspline t /\ Forall (fun p => 1 <= p) (degs_of t) /\ 0 <= c < ph_dim (sp_ph t) /\ forall e, (e < length (knots_of s))%nat -> polygon_within t e c (nth e Ks 0%R)) d p)
    with (new := new) (s := s) (kv := kv) as (s2 & E2 & B' & HD' & Hc' & HP'); auto; [|now left|].
  { intros s1 s2 kv1 kv2 a W1 R1 W2 R2 Da Db Ka Kb Dm Bs M (H0 & H1 & H2 & H3). split; [auto|]. split; [now rewrite Kb|]. split; [now rewrite Dm|].
    intros e He. now apply (step_polygon dz s1 s2 d e kv1 kv2 p a); auto. }
  rewrite E in E2. injection E2 as <-.
  exists s'. split; [exact E|]. intros hs us idx Hu Hi Hh. pose proof (f2_len Hu) as Lu.
  assert (Hv : valid_dims s [c]) by (repeat constructor; lia). assert (Hv' : valid_dims s' [c]) by (repeat constructor; lia).
  rewrite <- (Ev us [c]) by auto.
  apply points_near; auto; [|intros e He; apply HP'; lia].
  destruct (in_domain_dec dz s' us) as [Y|N]; [exact Y|]. exfalso.
  destruct (eval_safe dz s' us [c] (zeros (length (degs_of s'))) W' ltac:(lia) Hv' (zeros_length _) (zeros_nonneg _)) as [_ T].
  pose proof (proj1 (T N)) as X. rewrite (Ev us [c]) in X by auto. rewrite (bspline_full_sum dz) in X by auto. discriminate.
Qed.
End Converge.
