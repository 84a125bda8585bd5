(* Splitting a knot vector at a knot of multiplicity p+1: the sums of both parts. *)
From Coq Require Import ZArith List Bool Lia Reals Lra.
From Verif Require Import Base BaseFacts RSum MultiIndex MultiIndexSpec MultiIndexFacts TensorSum
  KnotVec KnotVecSpec KnotVecFacts BSplineTheory Boehm BasisSpec Basis BasisFacts VecUtils Spaces SpacesSpec SpacesFacts
  SplineEval SplineEdit SplineSpec EvalFacts RationalDeriv EvalDeriv SplineNew EvalThms PhysFacts AdjustFacts InsertKnots
  InsertFacts EditSpec.
Import ListNotations.
Open Scope Z_scope.

(* a piece only sees the knots around its span *)
Lemma B_local (t t' : Z -> R) s k p u : forall i,
  (forall j, k - Z.of_nat p <= j <= k + Z.of_nat p + 1 -> t' (j - s) = t j) ->
  monotone t -> (t k < t (k + 1)%Z)%R -> monotone t' -> (t' (k - s)%Z < t' (k - s + 1)%Z)%R ->
  B t' (k - s) p (i - s) u = B t k p i u.
Proof.
  induction p as [|q IH]; intros i H Hm Hk Hm' Hk'.
  - cbn [B]. destruct (Z.eq_dec (i - s) (k - s)), (Z.eq_dec i k); auto; lia.
  - destruct (Z_le_dec i k) as [A|A].
    2:{ rewrite !B_outside by lia. reflexivity. }
    destruct (Z_le_dec k (i + Z.of_nat (S q))) as [A'|A'].
    2:{ rewrite !B_outside by lia. reflexivity. }
    cbn [B]. replace (i - s + 1) with (i + 1 - s) by lia.
    rewrite !IH by (auto; intros; apply H; lia).
    replace (i - s + Z.of_nat (S q)) with (i + Z.of_nat (S q) - s) by lia.
    replace (i + Z.of_nat (S q) - s + 1) with (i + Z.of_nat (S q) + 1 - s) by lia.
    rewrite (H i) by lia. rewrite (H (i + Z.of_nat (S q))) by lia.
    rewrite (H (i + Z.of_nat (S q) + 1)) by lia.
    destruct (Z.eq_dec i k) as [Eq|Eq].
    + rewrite (B_outside t k q (i + 1) u) by lia. ring.
    + rewrite (H (i + 1)) by lia. reflexivity.
Qed.


(* ---- the two parts of a knot vector ---- *)
Section Parts.
Variables (kv : list R) (p : Z) (u : R) (n : nat).
Hypothesis Hin : inner kv p u n.
Hypothesis Hfull : Z.of_nat (occurrences kv u) = p + 1.
Local Notation N := (Z.of_nat n).
Definition left_part : list R := firstn n kv.
Definition right_part : list R := skipn (n - 1 - Z.to_nat p) kv.

Lemma part_sizes : 0 <= p /\ 2 * p + 2 <= N /\ N + p + 1 <= zlen kv.
Proof.
  pose proof (inner_ends kv p u n Hin) as [E1 E2].
  destruct Hin as ((Hp & (Hc & Hcl) & Hnn & _) & _ & Hat & Hu).
  destruct (occurrences_below kv u n Hnn Hat) as (_ & _ & Heq).
  split; [auto|]. split; [|lia].
  destruct (Z_le_dec (2 * p + 2) N) as [|C]; auto. exfalso.
  destruct (Hcl (Z.to_nat p) ltac:(lia)) as [F _]. rewrite Heq in F by lia. lra.
Qed.

Lemma tk_at_u j : N - p - 1 <= j <= N - 1 -> tk kv j = u.
Proof.
  intros Hj. pose proof part_sizes as (H1 & H2 & H3).
  destruct Hin as ((_ & _ & Hnn & _) & _ & Hat & _).
  destruct (occurrences_below kv u n Hnn Hat) as (_ & _ & Heq).
  rewrite tk_knot' by lia. apply Heq. lia.
Qed.

Lemma left_length : zlen left_part = N.
Proof. pose proof part_sizes. unfold left_part, zlen in *. rewrite firstn_length. lia. Qed.
Lemma right_length : zlen right_part = zlen kv - (N - 1 - p).
Proof. pose proof part_sizes. unfold right_part, zlen in *. rewrite skipn_length. lia. Qed.

Lemma knot_left i : (i < n)%nat -> knot left_part i = knot kv i.
Proof.
  intros H. unfold knot, left_part. revert n H Hin Hfull. intros m H _ _. revert i m H.
  induction kv as [|x l IH]; intros [|i] [|m] H; cbn; auto; try lia. apply IH. lia.
Qed.
Lemma knot_right i : knot right_part i = knot kv (i + (n - 1 - Z.to_nat p)).
Proof.
  unfold knot, right_part. generalize (n - 1 - Z.to_nat p)%nat as m. intros m. clear.
  revert i m. induction kv as [|x l IH]; intros i [|m]; cbn [skipn]; auto.
  - now rewrite Nat.add_0_r.
  - destruct i, (0 + S m)%nat; reflexivity.
  - now rewrite Nat.add_0_r.
  - rewrite IH. now rewrite Nat.add_succ_r.
Qed.

Lemma left_ends : first_knot left_part = first_knot kv /\ final_knot left_part = u.
Proof.
  pose proof part_sizes as (H1 & H2 & H3). pose proof left_length as HL. unfold zlen in HL. split.
  - apply (knot_left 0). lia.
  - unfold final_knot. fold (knot left_part (length left_part - 1)). rewrite knot_left by lia.
    rewrite <- (tk_knot kv) by (unfold zlen in H3; lia). apply tk_at_u. lia.
Qed.
Lemma right_ends : first_knot right_part = u /\ final_knot right_part = final_knot kv.
Proof.
  pose proof part_sizes as (H1 & H2 & H3). pose proof right_length as HL. unfold zlen in *. split.
  - change (knot right_part 0 = u). rewrite knot_right.
    rewrite <- (tk_knot kv) by lia. apply tk_at_u. lia.
  - unfold final_knot. fold (knot right_part (length right_part - 1)). rewrite knot_right. unfold knot. f_equal. lia.
Qed.

Lemma left_good : good_direction left_part p.
Proof.
  pose proof part_sizes as (H1 & H2 & H3). pose proof left_length as HL. unfold zlen in *.
  destruct left_ends as [E1 E2].
  destruct Hin as ((_ & (Hc & Hcl) & Hnn & Hsep & _) & _ & _ & Hu).
  split; [auto|]. split; [split|split; [|split]].
  - lia.
  - intros j Hj. rewrite E1, E2. split.
    + rewrite knot_left by lia. apply Hcl. lia.
    + rewrite knot_left by lia. rewrite <- (tk_knot kv) by lia. apply tk_at_u. lia.
  - intros i j Hij Hj. rewrite !knot_left by lia. apply Hnn; lia.
  - apply (separated_incl _ kv); auto. intros x Hx. unfold left_part in Hx. rewrite <- (firstn_skipn n kv). apply in_app_iff. auto.
  - rewrite E1, E2. lra.
Qed.
Lemma right_good : good_direction right_part p.
Proof.
  pose proof part_sizes as (H1 & H2 & H3). pose proof right_length as HL. unfold zlen in *.
  destruct right_ends as [E1 E2].
  destruct Hin as ((_ & (Hc & Hcl) & Hnn & Hsep & _) & _ & _ & Hu).
  split; [auto|]. split; [split|split; [|split]].
  - lia.
  - intros j Hj. rewrite E1, E2. split.
    + rewrite knot_right. rewrite <- (tk_knot kv) by lia. apply tk_at_u. lia.
    + rewrite knot_right. destruct (Hcl j Hj) as [_ E]. rewrite <- E. f_equal. lia.
  - intros i j Hij Hj. rewrite !knot_right. apply Hnn; lia.
  - apply (separated_incl _ kv); auto. intros x Hx. unfold right_part in Hx. rewrite <- (firstn_skipn (n - 1 - Z.to_nat p) kv). apply in_app_iff. auto.
  - rewrite E1, E2. lra.
Qed.

Lemma tk_left j : j <= N - 1 -> tk left_part j = tk kv j.
Proof.
  intros Hj. pose proof part_sizes as (H1 & H2 & H3). pose proof left_length as HL.
  unfold tk. rewrite HL. fold (knot left_part (Z.to_nat (Z.min j (N - 1)))) (knot kv (Z.to_nat (Z.min j (zlen kv - 1)))).
  rewrite knot_left by lia. f_equal. lia.
Qed.
Lemma tk_right j : N - 1 - p <= j -> tk right_part (j - (N - 1 - p)) = tk kv j.
Proof.
  intros Hj. pose proof part_sizes as (H1 & H2 & H3). pose proof right_length as HL.
  unfold tk. rewrite HL.
  fold (knot right_part (Z.to_nat (Z.min (j - (N - 1 - p)) (zlen kv - (N - 1 - p) - 1)))) (knot kv (Z.to_nat (Z.min j (zlen kv - 1)))).
  rewrite knot_right. f_equal. lia.
Qed.

Lemma sum_left (g : Z -> R) k k' v : (first_knot kv <= v <= u)%R -> in_span kv k v -> in_span left_part k' v ->
  (v < u)%R \/ g (N - p - 2) = g (N - p - 1) ->
  lsum (fun i => g i * B (tk kv) k (Z.to_nat p) i v)%R (zseq 0 (Z.to_nat (zlen kv - p - 1))) =
  lsum (fun i => g i * B (tk left_part) k' (Z.to_nat p) i v)%R (zseq 0 (Z.to_nat (zlen left_part - p - 1))).
Proof.
  intros Hv Hk Hk' Hg. pose proof part_sizes as (H1 & H2 & H3). pose proof left_length as HL. rewrite HL.
  destruct left_ends as [E1 E2]. pose proof left_good as (_ & _ & HnL & _).
  pose proof Hin as ((_ & _ & Hnn & _) & _ & (_ & _ & Hhi) & Hu).
  pose proof (tk_monotone _ Hnn) as Hm. pose proof (tk_monotone _ HnL) as HmL.
  pose proof Hk as (A1 & A2 & A3 & A4 & A5). pose proof Hk' as (B1 & B2 & B3 & B4 & B5).
  destruct (Rle_lt_or_eq_dec v u (proj2 Hv)) as [Hlt|Heq].
  - assert (Hklt : k + 1 <= N - 1 - p).
    { destruct (Z_le_dec (k + 1) (N - 1 - p)); auto. exfalso.
      pose proof (Hm (N - 1 - p) k ltac:(lia)). rewrite (tk_at_u (N - 1 - p)) in H by lia. lra. }
    assert (k' = k).
    { apply (in_span_unique left_part k' k v); auto. split; [lia|]. split; [lia|]. rewrite !tk_left by lia.
      split; [auto|]. split; [auto|]. left. destruct A5 as [A5|[_ A5]]; [auto|]. rewrite <- A5 in Hu. lra. }
    subst k'.
    rewrite (lsum_zseq_extend _ 0 (Z.to_nat (N - p - 1)) 0 (Z.to_nat (zlen kv - p - 1))).
    + apply lsum_ext. intros i Hi. f_equal. symmetry.
      replace k with (k - 0) at 1 by lia. replace i with (i - 0) at 1 by lia. apply B_local; auto.
      * intros j Hj. replace (j - 0) with j by lia. apply tk_left. lia.
      * replace (k - 0) with k by lia. rewrite !tk_left by lia. auto.
    + lia.
    + lia.
    + intros i Hi Hi'. rewrite B_outside by lia. ring.
  - destruct Hg as [Hg|Hg]; [lra|]. subst v.
    assert (k = N - 1).
    { apply (in_span_unique kv k (N - 1) u); auto. split; [lia|]. split; [lia|].
      rewrite (tk_at_u (N - 1)) by lia. replace (N - 1 + 1) with N by lia.
      assert (u < tk kv N)%R by (rewrite tk_knot' by lia; apply Hhi; unfold zlen in *; lia). repeat split; auto; lra. }
    subst k.
    assert (k' = N - p - 2).
    { apply (in_span_unique left_part k' (N - p - 2) u); auto. split; [lia|]. split; [lia|].
      rewrite !tk_left by lia. rewrite (tk_at_u (N - p - 2 + 1)) by lia.
      assert (tk kv (N - p - 2) < u)%R.
      { destruct Hin as ((_ & _ & _ & _) & _ & Hat & _). destruct (occurrences_below kv u n Hnn Hat) as (_ & Hb & _).
        rewrite tk_knot' by lia. apply Hb. lia. }
      split; [auto|]. split; [lra|]. right. split; auto. }
    subst k'.
    rewrite (lsum_single _ _ (N - p - 1)).
    2:{ apply zseq_NoDup. }
    2:{ apply zseq_In. lia. }
    2:{ intros i _ Hi. destruct (Z_lt_dec i (N - p - 1)).
        - rewrite B_outside by lia. ring.
        - rewrite (B_at_left (tk kv) (N - 1) (Z.to_nat p) u); auto; try lia; [ring | | ].
          + symmetry. apply tk_at_u. lia.
          + intros j Hj. apply tk_at_u. lia. }
    rewrite (lsum_single _ _ (N - p - 2)).
    2:{ apply zseq_NoDup. }
    2:{ apply zseq_In. lia. }
    2:{ intros i _ Hi. destruct (Z_lt_dec (N - p - 2) i).
        - rewrite B_outside by lia. ring.
        - rewrite (B_at_right (tk left_part) (N - p - 2) (Z.to_nat p) u); auto; try lia; [ring|].
          intros j Hj. rewrite tk_left by lia. apply tk_at_u. lia. }
    rewrite Hg. f_equal.
    assert (S1 : lsum (fun i => B (tk kv) (N - 1) (Z.to_nat p) i u) (zseq (N - 1 - p) (Z.to_nat (p + 1))) = 1%R)
      by (apply B_sum; auto; lia).
    assert (S2 : lsum (fun i => B (tk left_part) (N - p - 2) (Z.to_nat p) i u) (zseq (N - p - 2 - p) (Z.to_nat (p + 1))) = 1%R)
      by (apply B_sum; auto; lia).
    rewrite (lsum_single _ _ (N - p - 1)) in S1.
    2:{ apply zseq_NoDup. }
    2:{ apply zseq_In. lia. }
    2:{ intros i Hi Hne. apply zseq_In in Hi. apply (B_at_left (tk kv) (N - 1) (Z.to_nat p) u); auto; try lia.
        - symmetry. apply tk_at_u. lia.
        - intros j Hj. apply tk_at_u. lia. }
    rewrite (lsum_single _ _ (N - p - 2)) in S2.
    2:{ apply zseq_NoDup. }
    2:{ apply zseq_In. lia. }
    2:{ intros i Hi Hne. apply zseq_In in Hi. apply (B_at_right (tk left_part) (N - p - 2) (Z.to_nat p) u); auto; try lia.
        intros j Hj. rewrite tk_left by lia. apply tk_at_u. lia. }
    etransitivity; [exact S1 | symmetry; exact S2].
Qed.

Lemma sum_right (g : Z -> R) k k' v : (u <= v <= final_knot kv)%R -> in_span kv k v -> in_span right_part k' v ->
  lsum (fun i => g i * B (tk kv) k (Z.to_nat p) i v)%R (zseq 0 (Z.to_nat (zlen kv - p - 1))) =
  lsum (fun i => g (i + (N - 1 - p))%Z * B (tk right_part) k' (Z.to_nat p) i v)%R (zseq 0 (Z.to_nat (zlen right_part - p - 1))).
Proof.
  intros Hv Hk Hk'. pose proof part_sizes as (H1 & H2 & H3). pose proof right_length as HL. rewrite HL.
  destruct right_ends as [E1 E2]. pose proof right_good as (_ & _ & HnL & _).
  pose proof Hin as ((_ & _ & Hnn & _) & _ & (_ & _ & Hhi) & Hu).
  pose proof (tk_monotone _ Hnn) as Hm. pose proof (tk_monotone _ HnL) as HmL.
  pose proof Hk as (A1 & A2 & A3 & A4 & A5). pose proof Hk' as (B1 & B2 & B3 & B4 & B5).
  assert (Hkge : N - 1 <= k).
  { destruct (Z_le_dec (N - 1) k); auto. exfalso.
    pose proof (Hm (k + 1) (N - 1) ltac:(lia)). rewrite (tk_at_u (N - 1)) in H by lia.
    destruct A5 as [A5|[A5 A6]]; [lra|]. rewrite A6 in A5. lra. }
  assert (k' = k - (N - 1 - p)).
  { apply (in_span_unique right_part k' (k - (N - 1 - p)) v); auto. split; [lia|]. split; [lia|].
    replace (k - (N - 1 - p) + 1) with (k + 1 - (N - 1 - p)) by lia. rewrite !tk_right by lia. rewrite E2. auto. }
  subst k'.
  rewrite (lsum_zseq_extend _ (0 + (N - 1 - p)) (Z.to_nat (zlen kv - (N - 1 - p) - p - 1)) 0 (Z.to_nat (zlen kv - p - 1))).
  - rewrite lsum_zseq_shift. apply lsum_ext. intros i Hi. f_equal. symmetry.
    replace i with (i + (N - 1 - p) - (N - 1 - p)) at 1 by lia. apply B_local; auto.
    intros j Hj. apply tk_right. lia.
  - lia.
  - lia.
  - intros i Hi Hi'. rewrite B_outside by lia. ring.
Qed.
End Parts.
