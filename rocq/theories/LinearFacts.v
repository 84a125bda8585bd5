(* Linear systems with as many equations as unknowns: solvable if only zero solves the homogeneous system. *)
From Coq Require Import ZArith List Lia Reals Lra.
From Verif Require Import Base BaseFacts RSum.
Import ListNotations.
Open Scope R_scope.

(* n equations with n + 1 unknowns have a solution that is not zero *)
Lemma kernel n : forall A : Z -> Z -> R, exists x : Z -> R, (exists j, (0 <= j <= Z.of_nat n)%Z /\ x j <> 0) /\
  forall i, (0 <= i < Z.of_nat n)%Z -> lsum (fun j => A i j * x j) (zseq 0 (S n)) = 0.
Proof.
  induction n as [|n IH]; intros A.
  - exists (fun _ => 1). split; [exists 0%Z; split; [lia | lra]|]. intros i Hi. lia.
  - set (N := Z.of_nat (S n)).
    destruct (Forall_dec (fun i => A i N = 0) (fun i => Req_EM_T (A i N) 0) (zseq 0 (S n))) as [C|C].
    + rewrite Forall_forall in C. exists (fun j => if (j =? N)%Z then 1 else 0). split; [exists N; rewrite Z.eqb_refl; split; [unfold N; lia | lra]|].
      intros i Hi. apply lsum_zero. intros j _. destruct (Z.eqb_spec j N) as [->|]; [|ring]. rewrite C; [ring|]. apply zseq_In. unfold N in Hi. lia.
    + apply neg_Forall_Exists_neg in C; [|intros; apply Req_EM_T]. apply Exists_exists in C. destruct C as (r & Hr & Hpiv). apply zseq_In in Hr.
      set (sk := fun i => if (i <? r)%Z then i else (i + 1)%Z).
      destruct (IH (fun i j => A (sk i) j - A (sk i) N / A r N * A r j)) as (x & (j0 & Hj0 & Hx0) & Hx).
      exists (fun j => if (j =? N)%Z then - (lsum (fun j => A r j * x j) (zseq 0 (S n)) / A r N) else x j). split.
      { exists j0. split; [lia|]. destruct (Z.eqb_spec j0 N); [unfold N in *; lia | auto]. }
      assert (E : forall i, lsum (fun j => A i j * (if (j =? N)%Z then - (lsum (fun j => A r j * x j) (zseq 0 (S n)) / A r N) else x j)) (zseq 0 (S (S n))) =
                            lsum (fun j => A i j * x j) (zseq 0 (S n)) - A i N / A r N * lsum (fun j => A r j * x j) (zseq 0 (S n))).
      { intros i. rewrite lsum_zseq_S. replace (0 + Z.of_nat (S n))%Z with N by (unfold N; lia). rewrite Z.eqb_refl.
        rewrite (lsum_ext _ (fun j => A i j * x j)); [unfold Rdiv; ring|]. intros j Hj. apply zseq_In in Hj. destruct (Z.eqb_spec j N); [unfold N in *; lia | auto]. }
      intros i Hi. rewrite E. destruct (Z.eq_dec i r) as [->|Hne]; [field; exact Hpiv|].
      assert (S1 : exists i', (0 <= i' < Z.of_nat n)%Z /\ sk i' = i).
      { destruct (Z_lt_dec i r) as [L|L]; [exists i | exists (i - 1)%Z]; unfold sk.
        - split; [lia|]. destruct (Z.ltb_spec i r); lia.
        - split; [lia|]. destruct (Z.ltb_spec (i - 1) r); lia. }
      destruct S1 as (i' & Hi' & Es). specialize (Hx i' Hi'). cbv beta in Hx. rewrite Es in Hx.
      rewrite <- Hx, <- lsum_scal, <- lsum_minus. apply lsum_ext. intros; ring.
Qed.

Lemma linear_exists n (A : Z -> Z -> R) :
  (forall z : Z -> R, (forall i, (0 <= i < Z.of_nat n)%Z -> lsum (fun j => A i j * z j) (zseq 0 n) = 0) -> forall j, (0 <= j < Z.of_nat n)%Z -> z j = 0) ->
  forall b : Z -> R, exists x : Z -> R, forall i, (0 <= i < Z.of_nat n)%Z -> lsum (fun j => A i j * x j) (zseq 0 n) = b i.
Proof.
  intros Hinj b. set (N := Z.of_nat n).
  destruct (kernel n (fun i j => if (j =? N)%Z then - b i else A i j)) as (x & (j0 & Hj0 & Hx0) & Hx).
  assert (E : forall i, (0 <= i < N)%Z -> lsum (fun j => A i j * x j) (zseq 0 n) = b i * x N).
  { intros i Hi. specialize (Hx i Hi). rewrite lsum_zseq_S in Hx. replace (0 + Z.of_nat n)%Z with N in Hx by (unfold N; lia). rewrite Z.eqb_refl in Hx.
    rewrite (lsum_ext _ (fun j => A i j * x j)) in Hx; [lra|]. intros j Hj. apply zseq_In in Hj. destruct (Z.eqb_spec j N); [unfold N in *; lia | auto]. }
  assert (Hn : x N <> 0).
  { intros C. apply Hx0. destruct (Z.eq_dec j0 N) as [->|Hne]; [exact C|]. apply Hinj; [|unfold N in *; lia]. intros i Hi. rewrite E by auto. rewrite C. ring. }
  exists (fun j => x j / x N). intros i Hi. rewrite (lsum_ext _ (fun j => A i j * x j * / x N)) by (intros; unfold Rdiv; ring).
  rewrite lsum_scal_r, E by auto. field. exact Hn.
Qed.
