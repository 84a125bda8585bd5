(* Knot insertion in the theory of B-spline pieces: N_i = alpha_i N'_i + (1 - alpha_{i+1}) N'_{i+1}. *)
From Coq Require Import ZArith List Lia Reals Lra.
From Verif Require Import Base BaseFacts RSum BSplineTheory.
Import ListNotations.
Open Scope R_scope.

(* knot sequence after inserting ub behind position k *)
Definition ins (t : Z -> R) (k : Z) (ub : R) (i : Z) : R :=
  if Z_le_dec i k then t i else if Z.eq_dec i (k + 1) then ub else t (i - 1)%Z.

Definition alpha (t : Z -> R) (k : Z) (ub : R) (p : nat) (i : Z) : R :=
  if Z_le_dec (i + Z.of_nat p) k then 1
  else if Z_le_dec i k then (ub - t i) / (t (i + Z.of_nat p)%Z - t i) else 0.

(* span of the old sequence that contains span s of the new one *)
Definition old_span (k s : Z) : Z := if Z_le_dec s k then s else (s - 1)%Z.

Section Boehm.
Variable t : Z -> R.
Hypothesis Ht : monotone t.
Variables (k : Z) (ub : R).
Hypothesis Hlo : t k <= ub.
Hypothesis Hhi : ub <= t (k + 1)%Z.

Local Notation t' := (ins t k ub).
Local Notation al := (alpha t k ub).

Lemma ins_le i : (i <= k)%Z -> t' i = t i.
Proof. intros H; unfold ins. destruct (Z_le_dec i k); [reflexivity | lia]. Qed.
Lemma ins_eq i : i = (k + 1)%Z -> t' i = ub.
Proof. intros H; unfold ins. destruct (Z_le_dec i k); [lia|]. destruct (Z.eq_dec i (k + 1)); [reflexivity | lia]. Qed.
Lemma ins_gt i : (k + 1 < i)%Z -> t' i = t (i - 1)%Z.
Proof. intros H; unfold ins. destruct (Z_le_dec i k); [lia|]. destruct (Z.eq_dec i (k + 1)); [lia | reflexivity]. Qed.

Lemma ins_monotone : monotone t'.
Proof.
  intros i j H. unfold ins.
  destruct (Z_le_dec i k); destruct (Z_le_dec j k); try lia;
  destruct (Z.eq_dec j (k + 1)); try destruct (Z.eq_dec i (k + 1)); try lia; try (apply Ht; lia); try lra.
  all: try (apply Rle_trans with (t k); auto; apply Ht; lia).
  all: apply Rle_trans with (t (k + 1)%Z); auto; apply Ht; lia.
Qed.

Variable s : Z.
Hypothesis Hs : t' s < t' (s + 1)%Z.

Lemma old_span_nonempty : t (old_span k s) < t (old_span k s + 1)%Z.
Proof.
  unfold old_span. destruct (Z_le_dec s k) as [H|H].
  - rewrite ins_le in Hs by auto. destruct (Z.eq_dec s k) as [->|Hn].
    + rewrite ins_eq in Hs by auto. lra.
    + rewrite ins_le in Hs by lia. auto.
  - destruct (Z.eq_dec s (k + 1)) as [->|Hn].
    + rewrite ins_eq in Hs by auto. rewrite ins_gt in Hs by lia.
      replace (k + 1 - 1)%Z with k by lia. replace (k + 1 + 1 - 1)%Z with (k + 1)%Z in Hs by lia. lra.
    + rewrite !ins_gt in Hs by lia. replace (s + 1 - 1)%Z with (s - 1 + 1)%Z in Hs by lia. auto.
Qed.

(* evaluate alpha *)
Lemma al_1 p i : (i + Z.of_nat p <= k)%Z -> al p i = 1.
Proof. intros H; unfold alpha. destruct (Z_le_dec (i + Z.of_nat p) k); [reflexivity | lia]. Qed.
Lemma al_0 p i : (k < i)%Z -> al p i = 0.
Proof.
  intros H; unfold alpha. destruct (Z_le_dec (i + Z.of_nat p) k); [lia|]. destruct (Z_le_dec i k); [lia | reflexivity].
Qed.
Lemma al_m p i : (i <= k)%Z -> (k < i + Z.of_nat p)%Z -> al p i = (ub - t i) / (t (i + Z.of_nat p)%Z - t i).
Proof.
  intros H1 H2; unfold alpha. destruct (Z_le_dec (i + Z.of_nat p) k); [lia|]. destruct (Z_le_dec i k); [reflexivity | lia].
Qed.

Lemma active' i q : (i <= s)%Z -> (s <= i + Z.of_nat q)%Z -> t' i < t' (i + Z.of_nat (S q))%Z.
Proof. intros H1 H2. apply (active_den t' ins_monotone s Hs i (Z.of_nat (S q))); lia. Qed.

Lemma coef0 q i : t' i < t' (i + Z.of_nat (S q))%Z -> forall u,
  w t i (S q) u * al q i = al (S q) i * w t' i (S q) u.
Proof.
  intros Ha u.
  destruct (Z_le_dec (i + Z.of_nat (S q)) k) as [H1|H1].
  { rewrite !al_1 by lia. unfold w. rewrite !ins_le by lia. lra. }
  destruct (Z_le_dec i k) as [H2|H2]; [|rewrite !al_0 by lia; lra].
  rewrite (al_m (S q)) by lia. unfold w.
  rewrite (ins_le i) in * by lia.
  pose proof (Ht i k H2). 
  destruct (Z.eq_dec (i + Z.of_nat (S q)) (k + 1)) as [H3|H3].
  - rewrite al_1 by lia. rewrite (ins_eq (i + Z.of_nat (S q))) in * by lia.
    pose proof (Ht (k + 1)%Z (i + Z.of_nat (S q))%Z ltac:(lia)). field. lra.
  - rewrite (ins_gt (i + Z.of_nat (S q))) in * by lia. rewrite al_m by lia.
    replace (i + Z.of_nat (S q) - 1)%Z with (i + Z.of_nat q)%Z in * by lia.
    pose proof (Ht (i + Z.of_nat q)%Z (i + Z.of_nat (S q))%Z ltac:(lia)). field. lra.
Qed.

Lemma coef2 q i : t' (i + 1)%Z < t' (i + 1 + Z.of_nat (S q))%Z -> forall u,
  (1 - w t i (S q) u) * (1 - al q (i + 1)) = (1 - al (S q) i) * (1 - w t' (i + 1) (S q) u).
Proof.
  intros Ha u.
  destruct (Z_le_dec (i + Z.of_nat (S q)) k) as [H1|H1].
  { rewrite !al_1 by lia. lra. }
  destruct (Z_le_dec i k) as [H2|H2].
  - rewrite (al_m (S q)) by lia. unfold w.
    pose proof (Ht i k H2).
    rewrite (ins_gt (i + 1 + Z.of_nat (S q))) in * by lia.
    replace (i + 1 + Z.of_nat (S q) - 1)%Z with (i + Z.of_nat (S q))%Z in * by lia.
    destruct (Z.eq_dec i k) as [->|H3].
    + rewrite al_0 by lia. rewrite (ins_eq (k + 1)) in * by lia. field. lra.
    + rewrite (ins_le (i + 1)) in * by lia. rewrite al_m by lia.
      replace (i + 1 + Z.of_nat q)%Z with (i + Z.of_nat (S q))%Z by lia.
      pose proof (Ht i (i + 1)%Z ltac:(lia)). field. lra.
  - rewrite !al_0 by lia. unfold w. rewrite !ins_gt by lia.
    replace (i + 1 - 1)%Z with i by lia.
    replace (i + 1 + Z.of_nat (S q) - 1)%Z with (i + Z.of_nat (S q))%Z by lia. lra.
Qed.

Lemma coef1 q i : t' (i + 1)%Z < t' (i + 1 + Z.of_nat (S q))%Z -> forall u,
  w t i (S q) u * (1 - al q (i + 1)) + (1 - w t (i + 1) (S q) u) * al q (i + 1)
  = al (S q) i * (1 - w t' (i + 1) (S q) u) + (1 - al (S q) (i + 1)) * w t' (i + 1) (S q) u.
Proof.
  intros Ha u.
  destruct (Z_le_dec (i + 1 + Z.of_nat (S q)) k) as [H1|H1].
  { rewrite !al_1 by lia. unfold w. rewrite !ins_le by lia. lra. }
  destruct (Z.eq_dec (i + Z.of_nat (S q)) k) as [H3|H3].
  { rewrite (al_1 q), (al_1 (S q) i) by lia. rewrite al_m by lia.
    replace (1 - 1) with 0 by lra. rewrite Rmult_0_r. unfold w.
    rewrite (ins_le (i + 1)) in * by lia. rewrite (ins_eq (i + 1 + Z.of_nat (S q))) in * by lia.
    pose proof (Ht (k + 1)%Z (i + 1 + Z.of_nat (S q))%Z ltac:(lia)). field. lra. }
  destruct (Z_le_dec (i + 1) k) as [H2|H2].
  { rewrite !al_m by lia. unfold w.
    rewrite (ins_le (i + 1)) in * by lia. rewrite (ins_gt (i + 1 + Z.of_nat (S q))) in * by lia.
    replace (i + 1 + Z.of_nat (S q) - 1)%Z with (i + Z.of_nat (S q))%Z in * by lia.
    replace (i + 1 + Z.of_nat q)%Z with (i + Z.of_nat (S q))%Z by lia.
    pose proof (Ht i (i + 1)%Z ltac:(lia)).
    pose proof (Ht (i + Z.of_nat (S q))%Z (i + 1 + Z.of_nat (S q))%Z ltac:(lia)). field. lra. }
  destruct (Z.eq_dec i k) as [->|H4].
  { rewrite !(al_0 _ (k + 1)) by lia. rewrite al_m by lia. rewrite Rmult_0_r. unfold w.
    rewrite (ins_eq (k + 1)) in * by lia. rewrite (ins_gt (k + 1 + Z.of_nat (S q))) in * by lia.
    replace (k + 1 + Z.of_nat (S q) - 1)%Z with (k + Z.of_nat (S q))%Z in * by lia. field. lra. }
  rewrite !al_0 by lia. unfold w. rewrite !ins_gt in * by lia.
  replace (i + 1 - 1)%Z with i by lia.
  replace (i + 1 + Z.of_nat (S q) - 1)%Z with (i + Z.of_nat (S q))%Z by lia. lra.
Qed.

Theorem boehm p i u :
  B t (old_span k s) p i u = al p i * B t' s p i u + (1 - al p (i + 1)) * B t' s p (i + 1)%Z u.
Proof.
  revert i; induction p as [|q IH]; intros i.
  - cbn [B]. unfold old_span.
    destruct (Z_le_dec s k) as [H|H].
    + destruct (Z.eq_dec i s) as [->|Hi].
      * rewrite al_1 by lia. destruct (Z.eq_dec (s + 1) s); [lia | lra].
      * destruct (Z.eq_dec (i + 1) s) as [E|E]; [|lra]. rewrite (al_1 0 (i + 1)) by lia. lra.
    + destruct (Z.eq_dec i s) as [->|Hi].
      * rewrite al_0 by lia. destruct (Z.eq_dec s (s - 1)); [lia|]. destruct (Z.eq_dec (s + 1) s); [lia | lra].
      * destruct (Z.eq_dec i (s - 1)) as [->|E].
        -- rewrite (al_0 0 (s - 1 + 1)) by lia. destruct (Z.eq_dec (s - 1 + 1) s); [lra | lia].
        -- destruct (Z.eq_dec (i + 1) s); [lia | lra].
  - rewrite (B_S t Ht (old_span k s) old_span_nonempty).
    rewrite !(B_S t' ins_monotone s Hs). rewrite !IH.
    set (b0 := B t' s q i u). set (b1 := B t' s q (i + 1)%Z u). set (b2 := B t' s q (i + 1 + 1)%Z u).
    assert (E0 : w t i (S q) u * al q i * b0 = al (S q) i * w t' i (S q) u * b0).
    { destruct (Z_le_dec i s) as [H1|H1]; [|unfold b0; rewrite !B_outside by lia; lra].
      destruct (Z_le_dec s (i + Z.of_nat q)) as [H2|H2]; [|unfold b0; rewrite !B_outside by lia; lra].
      rewrite coef0 by (apply active'; auto). reflexivity. }
    assert (E1 : (w t i (S q) u * (1 - al q (i + 1)) + (1 - w t (i + 1) (S q) u) * al q (i + 1)) * b1
                 = (al (S q) i * (1 - w t' (i + 1) (S q) u) + (1 - al (S q) (i + 1)) * w t' (i + 1) (S q) u) * b1).
    { destruct (Z_le_dec (i + 1) s) as [H1|H1]; [|unfold b1; rewrite !B_outside by lia; lra].
      destruct (Z_le_dec s (i + 1 + Z.of_nat q)) as [H2|H2]; [|unfold b1; rewrite !B_outside by lia; lra].
      rewrite coef1 by (apply active'; auto). reflexivity. }
    assert (E2 : (1 - w t (i + 1) (S q) u) * (1 - al q (i + 1 + 1)) * b2
                 = (1 - al (S q) (i + 1)) * (1 - w t' (i + 1 + 1) (S q) u) * b2).
    { destruct (Z_le_dec (i + 1 + 1) s) as [H1|H1]; [|unfold b2; rewrite !B_outside by lia; lra].
      destruct (Z_le_dec s (i + 1 + 1 + Z.of_nat q)) as [H2|H2]; [|unfold b2; rewrite !B_outside by lia; lra].
      rewrite coef2 by (apply active'; auto). reflexivity. }
    transitivity (w t i (S q) u * al q i * b0
      + (w t i (S q) u * (1 - al q (i + 1)) + (1 - w t (i + 1) (S q) u) * al q (i + 1)) * b1
      + (1 - w t (i + 1) (S q) u) * (1 - al q (i + 1 + 1)) * b2); [ring|].
    rewrite E0, E1, E2. ring.
Qed.

(* control points of the refined curve *)
Definition refined (p : nat) (P : Z -> R) (j : Z) : R := al p j * P j + (1 - al p j) * P (j - 1)%Z.

Lemma boehm_curve p (P : Z -> R) u n :
  (0 <= k - Z.of_nat p)%Z -> (k < Z.of_nat n)%Z ->
  lsum (fun i => P i * B t (old_span k s) p i u) (zseq 0 n)
  = lsum (fun j => refined p P j * B t' s p j u) (zseq 0 (S n)).
Proof.
  intros Hk0 Hkn.
  rewrite (lsum_ext _ (fun i => al p i * P i * B t' s p i u + (1 - al p (i + 1)) * P i * B t' s p (i + 1)%Z u)).
  2:{ intros i _. rewrite boehm. ring. }
  rewrite lsum_plus.
  rewrite (lsum_ext (fun j => refined p P j * B t' s p j u)
            (fun j => al p j * P j * B t' s p j u + (1 - al p j) * P (j - 1)%Z * B t' s p j u)).
  2:{ intros j _. unfold refined. ring. }
  rewrite lsum_plus. f_equal.
  - rewrite lsum_zseq_S. rewrite (al_0 p (0 + Z.of_nat n)) by lia. lra.
  - rewrite (lsum_ext _ (fun i => (fun j => (1 - al p j) * P (j - 1)%Z * B t' s p j u) (i + 1)%Z)).
    2:{ intros i _. cbv beta. replace (i + 1 - 1)%Z with i by lia. reflexivity. }
    rewrite <- (lsum_zseq_shift (fun j => (1 - al p j) * P (j - 1)%Z * B t' s p j u) 0 n 1).
    cbn [zseq lsum]. rewrite (al_1 p 0) by lia. rewrite Z.add_0_l. change (0 + 1)%Z with 1%Z. lra.
Qed.

End Boehm.
