(* Mathematics of B-spline pieces: for a monotone bi-infinite knot sequence t and a non-empty
   span k, [B k p i u] is the polynomial that the basis function N_{i,p} agrees with on that span. *)
From Coq Require Import ZArith List Lia Reals Lra Permutation.
From Verif Require Import Base BaseFacts RSum.
Import ListNotations.
Open Scope R_scope.

Definition quot0 (x y : R) : R := if Req_EM_T y 0 then 0 else x / y.

Definition monotone (t : Z -> R) : Prop := forall i j, (i <= j)%Z -> t i <= t j.

Fixpoint B (t : Z -> R) (k : Z) (p : nat) (i : Z) (u : R) : R :=
  match p with
  | O => if Z.eq_dec i k then 1 else 0
  | S q => quot0 (u - t i) (t (i + Z.of_nat p)%Z - t i) * B t k q i u
           + quot0 (t (i + Z.of_nat p + 1)%Z - u) (t (i + Z.of_nat p + 1)%Z - t (i + 1)%Z) * B t k q (i + 1)%Z u
  end.

(* the m-th derivative *)
Fixpoint DB (t : Z -> R) (k : Z) (m p : nat) (i : Z) (u : R) : R :=
  match m with
  | O => B t k p i u
  | S m' => match p with
            | O => 0
            | S q => INR p * (quot0 (DB t k m' q i u) (t (i + Z.of_nat p)%Z - t i)
                              - quot0 (DB t k m' q (i + 1)%Z u) (t (i + Z.of_nat p + 1)%Z - t (i + 1)%Z))
            end
  end.

Lemma quot0_0 y : quot0 0 y = 0.
Proof. unfold quot0; destruct (Req_EM_T y 0); [reflexivity | unfold Rdiv; lra]. Qed.
Lemma quot0_den x y : y <> 0 -> quot0 x y = x / y.
Proof. intros H; unfold quot0; destruct (Req_EM_T y 0); [contradiction | reflexivity]. Qed.

(* derivatives only depend on the values near the point *)
Lemma derivable_local (f g : R -> R) u l d : 0 < d -> (forall v, Rabs (v - u) < d -> f v = g v) ->
  derivable_pt_lim f u l -> derivable_pt_lim g u l.
Proof.
  intros Hd Hfg Hf eps Heps. destruct (Hf eps Heps) as [delta H].
  exists (mkposreal (Rmin delta d) (Rmin_pos _ _ (cond_pos delta) Hd)). intros h Hh Hlt. cbn in Hlt.
  rewrite <- !Hfg.
  - apply H; auto. eapply Rlt_le_trans; [exact Hlt | apply Rmin_l].
  - rewrite Rminus_diag_eq by reflexivity. now rewrite Rabs_R0.
  - replace (u + h - u) with h by lra. eapply Rlt_le_trans; [exact Hlt | apply Rmin_r].
Qed.

Section Pieces.
Variable t : Z -> R.
Hypothesis Ht : monotone t.
Variable k : Z.
Hypothesis Hk : t k < t (k + 1)%Z.

Lemma B_outside p i u : ~ (i <= k <= i + Z.of_nat p)%Z -> B t k p i u = 0.
Proof.
  revert i; induction p as [|p IH]; intros i H.
  - cbn. destruct (Z.eq_dec i k); [lia | reflexivity].
  - cbn [B]. rewrite !IH by lia. lra.
Qed.

Lemma active_den i p : (i <= k)%Z -> (k < i + p)%Z -> t i < t (i + p)%Z.
Proof.
  intros H1 H2. apply Rle_lt_trans with (t k); [now apply Ht|].
  apply Rlt_le_trans with (t (k + 1)%Z); [exact Hk | apply Ht; lia].
Qed.

(* the recursion with the complementary weight in the second term *)
Definition w (i : Z) (p : nat) (u : R) : R := (u - t i) / (t (i + Z.of_nat p)%Z - t i).

Lemma B_S q i u :
  B t k (S q) i u = w i (S q) u * B t k q i u + (1 - w (i + 1) (S q) u) * B t k q (i + 1)%Z u.
Proof.
  cbn [B]. f_equal.
  - destruct (Z_le_dec i k) as [H1|H1]; [|rewrite !B_outside by lia; lra].
    destruct (Z_le_dec k (i + Z.of_nat q)) as [H2|H2]; [|rewrite !B_outside by lia; lra].
    unfold w. rewrite quot0_den; [reflexivity|].
    pose proof (active_den i (Z.of_nat (S q)) ltac:(lia) ltac:(lia)). lra.
  - destruct (Z_le_dec (i + 1) k) as [H1|H1]; [|rewrite !B_outside by lia; lra].
    destruct (Z_le_dec k (i + 1 + Z.of_nat q)) as [H2|H2]; [|rewrite !B_outside by lia; lra].
    pose proof (active_den (i + 1) (Z.of_nat (S q)) ltac:(lia) ltac:(lia)) as Hd.
    f_equal. unfold w. replace (i + Z.of_nat (S q) + 1)%Z with (i + 1 + Z.of_nat (S q))%Z by lia.
    rewrite quot0_den by lra. field. lra.
Qed.

Lemma B_nonneg p i u : t k <= u -> u <= t (k + 1)%Z -> 0 <= B t k p i u.
Proof.
  intros Hu1 Hu2. revert i; induction p as [|p IH]; intros i.
  - cbn. destruct (Z.eq_dec i k); lra.
  - rewrite B_S.
    assert (H0 : forall j, (j <= k)%Z -> (k < j + Z.of_nat (S p))%Z -> 0 <= w j (S p) u <= 1).
    { intros j Hj1 Hj2. pose proof (active_den j (Z.of_nat (S p)) Hj1 Hj2) as Hd.
      pose proof (Ht j k Hj1). pose proof (Ht (k + 1)%Z (j + Z.of_nat (S p))%Z ltac:(lia)). unfold w.
      assert (0 < / (t (j + Z.of_nat (S p))%Z - t j)) by (apply Rinv_0_lt_compat; lra).
      split; [unfold Rdiv; apply Rmult_le_pos; lra|].
      apply Rmult_le_reg_r with (t (j + Z.of_nat (S p))%Z - t j); [lra|].
      unfold Rdiv. rewrite Rmult_assoc, Rinv_l by lra. lra. }
    apply Rplus_le_le_0_compat.
    + destruct (Z_le_dec i k) as [H1|H1]; [|rewrite B_outside by lia; lra].
      destruct (Z_le_dec k (i + Z.of_nat p)) as [H2|H2]; [|rewrite B_outside by lia; lra].
      apply Rmult_le_pos; auto. apply H0; lia.
    + destruct (Z_le_dec (i + 1) k) as [H1|H1]; [|rewrite B_outside by lia; lra].
      destruct (Z_le_dec k (i + 1 + Z.of_nat p)) as [H2|H2]; [|rewrite B_outside by lia; lra].
      apply Rmult_le_pos; auto. pose proof (H0 (i + 1)%Z ltac:(lia) ltac:(lia)). lra.
Qed.

(* sums over a range that contains all active indices *)
Lemma B_sum p u lo n : (lo <= k - Z.of_nat p)%Z -> (k < lo + Z.of_nat n)%Z ->
  lsum (fun i => B t k p i u) (zseq lo n) = 1.
Proof.
  revert lo n; induction p as [|p IH]; intros lo n H1 H2.
  - rewrite (lsum_single _ _ k).
    + cbn. destruct (Z.eq_dec k k); [reflexivity | contradiction].
    + apply zseq_NoDup.
    + apply zseq_In; lia.
    + intros b _ Hb. cbn. destruct (Z.eq_dec b k); [contradiction | reflexivity].
  - rewrite (lsum_ext _ (fun i => w i (S p) u * B t k p i u + (1 - w (i + 1) (S p) u) * B t k p (i + 1)%Z u))
      by (intros; apply B_S).
    rewrite lsum_plus.
    rewrite <- (lsum_zseq_shift (fun i => (1 - w i (S p) u) * B t k p i u) lo n 1).
    rewrite (lsum_zseq_extend _ (k - Z.of_nat p) (S p) lo n); try lia.
    2:{ intros i Hi Hn. rewrite B_outside by lia. lra. }
    rewrite (lsum_zseq_extend (fun i => (1 - w i (S p) u) * B t k p i u) (k - Z.of_nat p) (S p)); try lia.
    2:{ intros i Hi Hn. rewrite B_outside by lia. lra. }
    rewrite <- lsum_plus. transitivity (lsum (fun i => B t k p i u) (zseq (k - Z.of_nat p) (S p))).
    + apply lsum_ext. intros; lra.
    + apply IH; lia.
Qed.

(* ---- derivatives ---- *)
Lemma DB_outside m p i u : ~ (i <= k <= i + Z.of_nat p)%Z -> DB t k m p i u = 0.
Proof.
  revert p i; induction m as [|m IH]; intros p i H; [now apply B_outside|].
  destruct p as [|p]; [reflexivity|]. cbn [DB]. rewrite !IH by lia. rewrite !quot0_0. lra.
Qed.

(* coefficient-wise form: 1/d with a harmless value when inactive *)
Lemma DB_1 q i u :
  DB t k 1 (S q) i u = INR (S q) * (B t k q i u / (t (i + Z.of_nat (S q))%Z - t i)
     - B t k q (i + 1)%Z u / (t (i + 1 + Z.of_nat (S q))%Z - t (i + 1)%Z)).
Proof.
  cbn [DB]. replace (i + Z.of_nat (S q) + 1)%Z with (i + 1 + Z.of_nat (S q))%Z by lia.
  assert (H : forall j, quot0 (B t k q j u) (t (j + Z.of_nat (S q))%Z - t j)
                        = B t k q j u / (t (j + Z.of_nat (S q))%Z - t j)).
  { intros j. unfold quot0. destruct (Req_EM_T (t (j + Z.of_nat (S q))%Z - t j) 0) as [E|E]; auto.
    rewrite B_outside; [unfold Rdiv; lra|]. intros H.
    pose proof (active_den j (Z.of_nat (S q)) ltac:(lia) ltac:(lia)). lra. }
  rewrite !H. reflexivity.
Qed.

Lemma B_derivable p i u : derivable_pt_lim (B t k p i) u (DB t k 1 p i u).
Proof.
  revert i; induction p as [|p IH]; intros i.
  - cbn. destruct (Z.eq_dec i k); apply derivable_pt_lim_const.
  - assert (Hw : forall j, derivable_pt_lim (w j (S p)) u (1 / (t (j + Z.of_nat (S p))%Z - t j))).
    { intros j. unfold w, Rdiv.
      replace (1 * / (t (j + Z.of_nat (S p))%Z - t j)) with
        ((1 - 0) * / (t (j + Z.of_nat (S p))%Z - t j) + (u - t j) * 0) by lra.
      apply (derivable_pt_lim_mult (fun v => v - t j) (fun _ => / (t (j + Z.of_nat (S p))%Z - t j))).
      - apply (derivable_pt_lim_minus (fun v => v) (fun _ => t j)).
        + apply derivable_pt_lim_id.
        + apply derivable_pt_lim_const.
      - apply derivable_pt_lim_const. }
    assert (Hd : derivable_pt_lim (B t k (S p) i) u
       ((1 / (t (i + Z.of_nat (S p))%Z - t i) * B t k p i u + w i (S p) u * DB t k 1 p i u)
        + ((0 - 1 / (t (i + 1 + Z.of_nat (S p))%Z - t (i + 1)%Z)) * B t k p (i + 1) u
           + (1 - w (i + 1) (S p) u) * DB t k 1 p (i + 1) u))).
    { apply (derivable_local (fun v => w i (S p) v * B t k p i v + (1 - w (i + 1) (S p) v) * B t k p (i + 1) v)
               _ u _ 1); [lra | intros; symmetry; apply B_S |].
      apply (derivable_pt_lim_plus (fun v => w i (S p) v * B t k p i v)
               (fun v => (1 - w (i + 1) (S p) v) * B t k p (i + 1) v)).
      - apply (derivable_pt_lim_mult (w i (S p)) (B t k p i)); auto.
      - apply (derivable_pt_lim_mult (fun v => 1 - w (i + 1) (S p) v) (B t k p (i + 1))); auto.
        apply (derivable_pt_lim_minus (fun _ => 1) (w (i + 1) (S p))); auto. apply derivable_pt_lim_const. }
    match type of Hd with derivable_pt_lim _ _ ?x => replace (DB t k 1 (S p) i u) with x; auto end.
    rewrite DB_1. rewrite S_INR.
    destruct p as [|q].
    { cbn [DB]. cbn [INR]. lra. }
    rewrite !DB_1. rewrite (B_S q i u), (B_S q (i + 1) u).
    set (b0 := B t k q i u). set (b1 := B t k q (i + 1) u). set (b2 := B t k q (i + 1 + 1) u).
    (* compare the coefficients of b0, b1, b2 *)
    assert (E0 : w i (S (S q)) u * (b0 / (t (i + Z.of_nat (S q))%Z - t i))
                 = w i (S q) u * b0 / (t (i + Z.of_nat (S (S q)))%Z - t i)).
    { destruct (Z_le_dec i k) as [H1|H1]; [|unfold b0; rewrite !B_outside by lia; lra].
      destruct (Z_le_dec k (i + Z.of_nat q)) as [H2|H2]; [|unfold b0; rewrite !B_outside by lia; lra].
      pose proof (active_den i (Z.of_nat (S q)) ltac:(lia) ltac:(lia)).
      pose proof (active_den i (Z.of_nat (S (S q))) ltac:(lia) ltac:(lia)).
      unfold w. field. lra. }
    assert (E2 : (1 - w (i + 1) (S (S q)) u) * (b2 / (t (i + 1 + 1 + Z.of_nat (S q))%Z - t (i + 1 + 1)%Z))
                 = (1 - w (i + 1 + 1) (S q) u) * b2 / (t (i + 1 + Z.of_nat (S (S q)))%Z - t (i + 1)%Z)).
    { destruct (Z_le_dec (i + 1 + 1) k) as [H1|H1]; [|unfold b2; rewrite !B_outside by lia; lra].
      destruct (Z_le_dec k (i + 1 + 1 + Z.of_nat q)) as [H2|H2]; [|unfold b2; rewrite !B_outside by lia; lra].
      pose proof (active_den (i + 1 + 1) (Z.of_nat (S q)) ltac:(lia) ltac:(lia)).
      pose proof (active_den (i + 1) (Z.of_nat (S (S q))) ltac:(lia) ltac:(lia)).
      unfold w. replace (i + 1 + Z.of_nat (S (S q)))%Z with (i + 1 + 1 + Z.of_nat (S q))%Z in * by lia.
      field. lra. }
    assert (E1 : (1 - w (i + 1) (S (S q)) u - w i (S (S q)) u) * (b1 / (t (i + 1 + Z.of_nat (S q))%Z - t (i + 1)%Z))
                 = (1 - w (i + 1) (S q) u) * b1 / (t (i + Z.of_nat (S (S q)))%Z - t i)
                   - w (i + 1) (S q) u * b1 / (t (i + 1 + Z.of_nat (S (S q)))%Z - t (i + 1)%Z)).
    { destruct (Z_le_dec (i + 1) k) as [H1|H1]; [|unfold b1; rewrite !B_outside by lia; lra].
      destruct (Z_le_dec k (i + 1 + Z.of_nat q)) as [H2|H2]; [|unfold b1; rewrite !B_outside by lia; lra].
      pose proof (active_den (i + 1) (Z.of_nat (S q)) ltac:(lia) ltac:(lia)).
      pose proof (active_den (i + 1) (Z.of_nat (S (S q))) ltac:(lia) ltac:(lia)).
      pose proof (active_den i (Z.of_nat (S (S q))) ltac:(lia) ltac:(lia)).
      unfold w. replace (i + 1 + Z.of_nat (S q))%Z with (i + Z.of_nat (S (S q)))%Z in * by lia.
      field. lra. }
    transitivity (1 / (t (i + Z.of_nat (S (S q)))%Z - t i) * (w i (S q) u * b0 + (1 - w (i + 1) (S q) u) * b1)
      - 1 / (t (i + 1 + Z.of_nat (S (S q)))%Z - t (i + 1)%Z) * (w (i + 1) (S q) u * b1 + (1 - w (i + 1 + 1) (S q) u) * b2)
      + INR (S q) * (w i (S (S q)) u * (b0 / (t (i + Z.of_nat (S q))%Z - t i))
         + (1 - w (i + 1) (S (S q)) u - w i (S (S q)) u) * (b1 / (t (i + 1 + Z.of_nat (S q))%Z - t (i + 1)%Z))
         - (1 - w (i + 1) (S (S q)) u) * (b2 / (t (i + 1 + 1 + Z.of_nat (S q))%Z - t (i + 1 + 1)%Z)))).
    { unfold Rdiv. lra. }
    rewrite E0, E1, E2. unfold Rdiv. lra.
Qed.

(* every higher derivative *)
Lemma DB_derivable m p i u : derivable_pt_lim (DB t k m p i) u (DB t k (S m) p i u).
Proof.
  revert p i; induction m as [|m IH]; intros p i.
  - apply B_derivable.
  - destruct p as [|q].
    + cbn. apply derivable_pt_lim_const.
    + assert (Hq : forall j c, derivable_pt_lim (fun v => quot0 (DB t k m q j v) c) u (quot0 (DB t k (S m) q j u) c)).
      { intros j c. unfold quot0. destruct (Req_EM_T c 0).
        - apply derivable_pt_lim_const.
        - unfold Rdiv. replace (DB t k (S m) q j u * / c) with (DB t k (S m) q j u * / c + DB t k m q j u * 0) by lra.
          apply (derivable_pt_lim_mult (DB t k m q j) (fun _ => / c)); auto. apply derivable_pt_lim_const. }
      change (derivable_pt_lim (fun v => INR (S q) *
         (quot0 (DB t k m q i v) (t (i + Z.of_nat (S q))%Z - t i)
          - quot0 (DB t k m q (i + 1) v) (t (i + Z.of_nat (S q) + 1)%Z - t (i + 1)%Z))) u
        (INR (S q) *
         (quot0 (DB t k (S m) q i u) (t (i + Z.of_nat (S q))%Z - t i)
          - quot0 (DB t k (S m) q (i + 1) u) (t (i + Z.of_nat (S q) + 1)%Z - t (i + 1)%Z)))).
      apply (derivable_pt_lim_scal (fun v => quot0 (DB t k m q i v) (t (i + Z.of_nat (S q))%Z - t i)
          - quot0 (DB t k m q (i + 1) v) (t (i + Z.of_nat (S q) + 1)%Z - t (i + 1)%Z)) (INR (S q))).
      apply (derivable_pt_lim_minus (fun v => quot0 (DB t k m q i v) (t (i + Z.of_nat (S q))%Z - t i))
         (fun v => quot0 (DB t k m q (i + 1) v) (t (i + Z.of_nat (S q) + 1)%Z - t (i + 1)%Z))); auto.
Qed.

Lemma DB_high m p i u : (p < m)%nat -> DB t k m p i u = 0.
Proof.
  revert p i; induction m as [|m IH]; intros p i H; [lia|].
  destruct p as [|q]; [reflexivity|]. cbn [DB]. rewrite !IH by lia. rewrite !quot0_0. lra.
Qed.

End Pieces.
