(* Splines with monotone coefficients are monotone: one direction. *)
From Coq Require Import ZArith List Bool Lia Reals Lra.
From Verif Require Import Base BaseFacts RSum KnotVec KnotVecSpec KnotVecFacts BSplineTheory Basis BasisSpec BasisFacts BasisThms SpacesSpec EvalFacts EvalThms SmoothThms RationalDeriv.
Open Scope R_scope.

Lemma abel (P D : Z -> R) m :
  lsum (fun i => P i * (D i - D (i + 1)%Z)) (zseq 0 (S m)) =
  P 0%Z * D 0%Z - P (Z.of_nat m) * D (Z.of_nat m + 1)%Z + lsum (fun i => (P i - P (i - 1)%Z) * D i) (zseq 1 m).
Proof.
  induction m as [|m IH]; [cbn; ring|].
  assert (E1 : zseq 0 (S (S m)) = zseq 0 (S m) ++ zseq (0 + Z.of_nat (S m)) 1) by (rewrite <- zseq_app; f_equal; lia).
  assert (E2 : zseq 1 (S m) = zseq 1 m ++ zseq (1 + Z.of_nat m) 1) by (rewrite <- zseq_app; f_equal; lia).
  rewrite E1, E2, !lsum_app, IH. clear. cbn [zseq lsum].
  replace (0 + Z.of_nat (S m))%Z with (Z.of_nat m + 1)%Z by lia. replace (1 + Z.of_nat m)%Z with (Z.of_nat m + 1)%Z by lia.
  replace (Z.of_nat (S m)) with (Z.of_nat m + 1)%Z by lia. replace (Z.of_nat m + 1 - 1)%Z with (Z.of_nat m) by lia. ring.
Qed.

Section Piece.
Variables (t : Z -> R) (p : nat) (n : nat) (P : Z -> R).
Hypothesis Hm : monotone t.

Definition piece_sum (k : Z) (u : R) : R := lsum (fun i => P i * B t k p i u) (zseq 0 n).
Definition piece_slope (k : Z) (u : R) : R := lsum (fun i => P i * DB t k 1 p i u) (zseq 0 n).
Definition span_ok (k : Z) : Prop := (Z.of_nat p <= k < Z.of_nat n)%Z /\ t k < t (k + 1)%Z.

Lemma piece_derivable k u : span_ok k -> derivable_pt_lim (piece_sum k) u (piece_slope k u).
Proof.
  intros (_ & Hk). apply (RationalDeriv.lsum_derivable (fun i v => P i * B t k p i v)). intros i _.
  apply (derivable_pt_lim_scal (B t k p i)). now apply B_derivable.
Qed.

(* the slope is a combination of the differences with non-negative factors *)
Lemma piece_slope_sum k u q : p = S q -> span_ok k ->
  piece_slope k u = INR p * lsum (fun i => (P i - P (i - 1)%Z) * (B t k q i u / (t (i + Z.of_nat p)%Z - t i))) (zseq 1 (pred n)).
Proof.
  intros Hp (Hr & Hk). unfold piece_slope. subst p. destruct n as [|m]; [lia|].
  set (D := fun i => B t k q i u / (t (i + Z.of_nat (S q))%Z - t i)).
  rewrite (lsum_ext _ (fun i => INR (S q) * (P i * (D i - D (i + 1)%Z)))).
  2:{ intros i _. rewrite DB_1 by auto. unfold D. ring. }
  rewrite lsum_scal, abel. cbn [pred].
  assert (D0 : D 0%Z = 0) by (unfold D; rewrite B_outside by (auto; lia); unfold Rdiv; ring).
  assert (D1 : D (Z.of_nat m + 1)%Z = 0) by (unfold D; rewrite B_outside by (auto; lia); unfold Rdiv; ring).
  rewrite D0, D1. unfold D. ring.
Qed.

Lemma factor_nonneg k q i u : span_ok k -> t k <= u <= t (k + 1)%Z -> (1 <= q)%nat -> 0 <= B t k (pred q) i u / (t (i + Z.of_nat q)%Z - t i).
Proof.
  intros (_ & Hk) Hu Hq. destruct (Z_le_gt_dec i k) as [L1|L1]; [destruct (Z_le_gt_dec k (i + Z.of_nat (pred q))) as [L2|L2]|].
  - apply Rmult_le_pos; [apply B_nonneg; auto; apply Hu|]. left. apply Rinv_0_lt_compat.
    pose proof (Hm i k L1). pose proof (Hm (k + 1)%Z (i + Z.of_nat q)%Z ltac:(lia)). lra.
  - rewrite B_outside by (auto; lia). unfold Rdiv. lra.
  - rewrite B_outside by (auto; lia). unfold Rdiv. lra.
Qed.

Lemma piece_slope_nonneg k u : span_ok k -> t k <= u <= t (k + 1)%Z -> (forall i, (1 <= i < Z.of_nat n)%Z -> P (i - 1)%Z <= P i) -> 0 <= piece_slope k u.
Proof.
  intros Hk Hu HP. destruct p as [|q] eqn:Ep.
  - unfold piece_slope. rewrite Ep. rewrite lsum_zero; [lra|]. intros i _. cbn. ring.
  - rewrite (piece_slope_sum k u q Ep Hk). apply Rmult_le_pos; [apply pos_INR|]. apply lsum_nonneg. intros i Hi. apply zseq_In in Hi.
    apply Rmult_le_pos; [pose proof (HP i ltac:(lia)); lra|]. rewrite Ep. apply (factor_nonneg k (S q)); auto; lia.
Qed.

Lemma piece_slope_pos k u : (1 <= p)%nat -> span_ok k -> t k <= u <= t (k + 1)%Z -> (forall i, (1 <= i < Z.of_nat n)%Z -> P (i - 1)%Z < P i) -> 0 < piece_slope k u.
Proof.
  intros Hp1 Hk Hu HP. destruct p as [|q] eqn:Ep; [lia|].
  rewrite (piece_slope_sum k u q Ep Hk). apply Rmult_lt_0_compat; [rewrite Ep; apply lt_0_INR; lia|]. rewrite Ep.
  pose proof Hk as (Hr & Hlt). rewrite Ep in Hr.
  apply lsum_pos.
  - intros i Hi. apply zseq_In in Hi. apply Rmult_le_pos; [pose proof (HP i ltac:(lia)); lra|]. apply (factor_nonneg k (S q)); auto; lia.
  - assert (S1 := B_sum t Hm k Hlt q u 1 (pred n) ltac:(lia) ltac:(lia)).
    assert (Ex : forall l, (forall i, In i l -> 0 <= B t k q i u) -> 0 < lsum (fun i => B t k q i u) l -> exists i, In i l /\ 0 < B t k q i u).
    { induction l as [|a l IH]; intros Hnn Hs; cbn [lsum] in Hs; [lra|].
      destruct (Rlt_dec 0 (B t k q a u)) as [L|L]; [exists a; split; [now left | exact L]|].
      destruct IH as (i & Hi & Hp); [intros; apply Hnn; now right | lra | exists i; split; [now right | exact Hp]]. }
    destruct (Ex (zseq 1 (pred n))) as (i & Hi & Hp); [intros; apply B_nonneg; auto; apply Hu | lra |].
    exists i. split; [exact Hi|]. apply zseq_In in Hi. apply Rmult_lt_0_compat; [pose proof (HP i ltac:(lia)); lra|].
    apply Rmult_lt_0_compat; [exact Hp|]. apply Rinv_0_lt_compat.
    destruct (Z_le_gt_dec i k) as [L1|L1]; [|rewrite B_outside in Hp by (auto; lia); lra].
    destruct (Z_le_gt_dec k (i + Z.of_nat q)) as [L2|L2]; [|rewrite B_outside in Hp by (auto; lia); lra].
    pose proof (Hm i k L1). pose proof (Hm (k + 1)%Z (i + Z.of_nat (S q))%Z ltac:(lia)). lra.
Qed.

Hypothesis HP : forall i, (1 <= i < Z.of_nat n)%Z -> P (i - 1)%Z <= P i.

Lemma coefficients_le i j : (0 <= i)%Z -> (i <= j)%Z -> (j < Z.of_nat n)%Z -> P i <= P j.
Proof.
  intros H0 Hij Hj. replace j with (i + Z.of_nat (Z.to_nat (j - i)))%Z in * by lia. clear Hij. induction (Z.to_nat (j - i)) as [|m IH].
  - replace (i + Z.of_nat 0)%Z with i by lia. lra.
  - pose proof (IH ltac:(lia)). pose proof (HP (i + Z.of_nat (S m))%Z ltac:(lia)) as X. replace (i + Z.of_nat (S m) - 1)%Z with (i + Z.of_nat m)%Z in X by lia. lra.
Qed.

Lemma within_piece k u v : span_ok k -> t k <= u -> u <= v -> v <= t (k + 1)%Z -> piece_sum k u <= piece_sum k v.
Proof.
  intros Hk Hu Huv Hv. destruct Huv as [Huv|<-]; [|lra].
  destruct (MVT_cor2 (piece_sum k) (piece_slope k) u v Huv) as (c & E & Hc); [intros c _; now apply piece_derivable|].
  pose proof (piece_slope_nonneg k c Hk ltac:(lra) HP). nra.
Qed.

Lemma hull_upper k u : span_ok k -> t k <= u <= t (k + 1)%Z -> piece_sum k u <= P k.
Proof.
  intros (Hr & Hk) Hu. rewrite <- (Rmult_1_r (P k)). rewrite <- (B_sum t Hm k Hk p u 0 n) by lia. rewrite <- lsum_scal. apply lsum_le. intros i Hi. apply zseq_In in Hi.
  destruct (Z_le_gt_dec i k); [|rewrite B_outside by (auto; lia); lra].
  apply Rmult_le_compat_r; [apply B_nonneg; auto; apply Hu|]. apply coefficients_le; lia.
Qed.
Lemma hull_lower k u : span_ok k -> t k <= u <= t (k + 1)%Z -> P (k - Z.of_nat p)%Z <= piece_sum k u.
Proof.
  intros (Hr & Hk) Hu. rewrite <- (Rmult_1_r (P (k - Z.of_nat p)%Z)). rewrite <- (B_sum t Hm k Hk p u 0 n) by lia. rewrite <- lsum_scal. apply lsum_le. intros i Hi. apply zseq_In in Hi.
  destruct (Z_le_gt_dec (k - Z.of_nat p) i); [|rewrite B_outside by (auto; lia); lra].
  apply Rmult_le_compat_r; [apply B_nonneg; auto; apply Hu|]. apply coefficients_le; lia.
Qed.

Lemma proper_between a m : t a < t (a + Z.of_nat m)%Z -> exists j, (a <= j < a + Z.of_nat m)%Z /\ t j < t (j + 1)%Z.
Proof.
  induction m as [|m IH]; intros H; [replace (a + Z.of_nat 0)%Z with a in H by lia; lra|].
  destruct (Rlt_dec (t a) (t (a + Z.of_nat m)%Z)) as [L|L].
  - destruct (IH L) as (j & Hj & E). exists j. split; [lia | exact E].
  - exists (a + Z.of_nat m)%Z. split; [lia|]. replace (a + Z.of_nat m + 1)%Z with (a + Z.of_nat (S m))%Z by lia. lra.
Qed.

Lemma between_pieces m : forall k k', (Z.to_nat (k' - k) <= m)%nat -> span_ok k -> span_ok k' -> (k < k')%Z ->
  piece_sum k (t (k + 1)%Z) <= piece_sum k' (t k').
Proof.
  induction m as [|m IH]; intros k k' Hmm Hk Hk' Hlt; [lia|]. pose proof Hk as (Hr & Ht). pose proof Hk' as (Hr' & Ht').
  pose proof (Hm (k + 1)%Z k' ltac:(lia)) as [L|E].
  - destruct (proper_between (k + 1) (Z.to_nat (k' - (k + 1)))) as (j & Hj & Ej); [replace (k + 1 + Z.of_nat (Z.to_nat (k' - (k + 1))))%Z with k' by lia; exact L|].
    assert (Hj' : span_ok j) by (split; [lia | exact Ej]).
    pose proof (IH k j ltac:(lia) Hk Hj' ltac:(lia)). pose proof (IH j k' ltac:(lia) Hj' Hk' ltac:(lia)).
    pose proof (within_piece j (t j) (t (j + 1)%Z) Hj' ltac:(lra) ltac:(lra) ltac:(lra)). lra.
  - assert (Mid : forall j, (k < j <= k')%Z -> t j = t k').
    { intros j Hj. pose proof (Hm (k + 1)%Z j ltac:(lia)). pose proof (Hm j k' ltac:(lia)). lra. }
    destruct (Z_le_gt_dec (k' - k) (Z.of_nat p)) as [Q|Q].
    + rewrite E. right. unfold piece_sum. apply lsum_ext. intros i _. f_equal.
      replace k' with (k + Z.of_nat (Z.to_nat (k' - k)))%Z at 2 by lia. apply B_cross; auto; try lia.
      * replace (k + Z.of_nat (Z.to_nat (k' - k)))%Z with k' by lia. exact Ht'.
      * intros j Hj. apply Mid. lia.
    + pose proof (hull_upper k (t (k + 1)%Z) Hk ltac:(lra)). pose proof (hull_lower k' (t k') Hk' ltac:(lra)).
      pose proof (coefficients_le k (k' - Z.of_nat p) ltac:(lia) ltac:(lia) ltac:(lia)). lra.
Qed.

Lemma pieces_monotone k k' u v : span_ok k -> span_ok k' -> t k <= u <= t (k + 1)%Z -> t k' <= v <= t (k' + 1)%Z -> u <= v -> (k <= k')%Z ->
  piece_sum k u <= piece_sum k' v.
Proof.
  intros Hk Hk' Hu Hv Huv Hle. destruct (Z.eq_dec k k') as [->|Hne]; [apply within_piece; auto; lra|].
  pose proof (within_piece k u (t (k + 1)%Z) Hk ltac:(lra) ltac:(lra) ltac:(lra)). pose proof (between_pieces _ k k' (le_n _) Hk Hk' ltac:(lia)).
  pose proof (within_piece k' (t k') v Hk' ltac:(lra) ltac:(lra) ltac:(lra)). lra.
Qed.
End Piece.

Section Strict.
Variables (t : Z -> R) (p : nat) (n : nat) (P : Z -> R).
Hypothesis Hm : monotone t.
Hypothesis Hp : (1 <= p)%nat.
Hypothesis HP : forall i, (1 <= i < Z.of_nat n)%Z -> P (i - 1)%Z < P i.

Lemma within_strict k u v : span_ok t p n k -> t k <= u -> u < v -> v <= t (k + 1)%Z -> piece_sum t p n P k u < piece_sum t p n P k v.
Proof.
  intros Hk Hu Huv Hv.
  destruct (MVT_cor2 (piece_sum t p n P k) (piece_slope t p n P k) u v Huv) as (c & E & Hc); [intros c _; now apply piece_derivable|].
  pose proof (piece_slope_pos t p n P Hm k c Hp Hk ltac:(lra) HP). nra.
Qed.

Lemma pieces_strict k k' u v : span_ok t p n k -> span_ok t p n k' -> t k <= u <= t (k + 1)%Z -> t k' <= v <= t (k' + 1)%Z -> u < v -> (k <= k')%Z ->
  piece_sum t p n P k u < piece_sum t p n P k' v.
Proof.
  intros Hk Hk' Hu Hv Huv Hle. destruct (Z.eq_dec k k') as [->|Hne]; [apply within_strict; auto; lra|].
  assert (HP' : forall i, (1 <= i < Z.of_nat n)%Z -> P (i - 1)%Z <= P i) by (intros i Hi; specialize (HP i Hi); lra).
  pose proof (within_piece t p n P Hm HP' k u (t (k + 1)%Z) Hk ltac:(lra) ltac:(lra) ltac:(lra)).
  pose proof (within_piece t p n P Hm HP' k' (t k') v Hk' ltac:(lra) ltac:(lra) ltac:(lra)).
  pose proof (Hm (k + 1)%Z k' ltac:(lia)) as [L|E].
  - destruct (proper_between t (k + 1) (Z.to_nat (k' - (k + 1)))) as (j & Hj & Ej); [replace (k + 1 + Z.of_nat (Z.to_nat (k' - (k + 1))))%Z with k' by lia; exact L|].
    pose proof Hk as (Hr & _). pose proof Hk' as (Hr' & _).
    assert (Hj' : span_ok t p n j) by (split; [lia | exact Ej]).
    pose proof (between_pieces t p n P Hm HP' _ k j (le_n _) Hk Hj' ltac:(lia)). pose proof (between_pieces t p n P Hm HP' _ j k' (le_n _) Hj' Hk' ltac:(lia)).
    pose proof (within_strict j (t j) (t (j + 1)%Z) Hj' ltac:(lra) Ej ltac:(lra)). lra.
  - pose proof (between_pieces t p n P Hm HP' _ k k' (le_n _) Hk Hk' ltac:(lia)).
    destruct (Rlt_dec u (t (k + 1)%Z)) as [L|L].
    + pose proof (within_strict k u (t (k + 1)%Z) Hk ltac:(lra) L ltac:(lra)). lra.
    + pose proof (within_strict k' (t k') v Hk' ltac:(lra) ltac:(lra) ltac:(lra)). lra.
Qed.
End Strict.
