(* Finite sums of reals over lists. *)
From Coq Require Import ZArith List Lia Reals Lra Permutation.
From Verif Require Import Base BaseFacts.
Import ListNotations.
Open Scope R_scope.

Fixpoint lsum {A} (f : A -> R) (l : list A) : R :=
  match l with [] => 0 | a :: t => f a + lsum f t end.

Section Sums.
Context {A : Type}.
Implicit Types (f g : A -> R) (l : list A).

Lemma lsum_ext f g l : (forall a, In a l -> f a = g a) -> lsum f l = lsum g l.
Proof.
  induction l as [|a l IH]; intros H; cbn; auto.
  rewrite H by now left. rewrite IH; auto. intros; apply H; now right.
Qed.

Lemma lsum_zero f l : (forall a, In a l -> f a = 0) -> lsum f l = 0.
Proof.
  induction l as [|a l IH]; intros H; cbn; auto.
  rewrite H by now left. rewrite IH; [lra|]. intros; apply H; now right.
Qed.

Lemma lsum_plus f g l : lsum (fun a => f a + g a) l = lsum f l + lsum g l.
Proof. induction l as [|a l IH]; cbn; [lra|]. rewrite IH; lra. Qed.

Lemma lsum_minus f g l : lsum (fun a => f a - g a) l = lsum f l - lsum g l.
Proof. induction l as [|a l IH]; cbn; [lra|]. rewrite IH; lra. Qed.

Lemma lsum_scal c f l : lsum (fun a => c * f a) l = c * lsum f l.
Proof. induction l as [|a l IH]; cbn; [lra|]. rewrite IH; lra. Qed.

Lemma lsum_scal_r c f l : lsum (fun a => f a * c) l = lsum f l * c.
Proof. induction l as [|a l IH]; cbn; [lra|]. rewrite IH; lra. Qed.

Lemma lsum_app f l1 l2 : lsum f (l1 ++ l2) = lsum f l1 + lsum f l2.
Proof. induction l1 as [|a l1 IH]; cbn; [lra|]. rewrite IH; lra. Qed.

Lemma lsum_perm f l1 l2 : Permutation l1 l2 -> lsum f l1 = lsum f l2.
Proof. induction 1; cbn; lra. Qed.

Lemma lsum_nonneg f l : (forall a, In a l -> 0 <= f a) -> 0 <= lsum f l.
Proof.
  induction l as [|a l IH]; intros H; cbn; [lra|].
  pose proof (H a (or_introl eq_refl)). assert (0 <= lsum f l) by (apply IH; intros; apply H; now right). lra.
Qed.

Lemma lsum_pos f l : (forall a, In a l -> 0 <= f a) -> (exists a, In a l /\ 0 < f a) -> 0 < lsum f l.
Proof.
  induction l as [|a l IH]; intros H (b & Hb & Hp); [destruct Hb|]. cbn.
  assert (0 <= lsum f l) by (apply lsum_nonneg; intros; apply H; now right).
  pose proof (H a (or_introl eq_refl)).
  destruct Hb as [->|Hb]; [lra|].
  assert (0 < lsum f l) by (apply IH; [intros; apply H; now right | eauto]). lra.
Qed.

Lemma lsum_le f g l : (forall a, In a l -> f a <= g a) -> lsum f l <= lsum g l.
Proof.
  induction l as [|a l IH]; intros H; cbn; [lra|].
  pose proof (H a (or_introl eq_refl)). assert (lsum f l <= lsum g l) by (apply IH; intros; apply H; now right). lra.
Qed.

Lemma lsum_abs f l : Rabs (lsum f l) <= lsum (fun a => Rabs (f a)) l.
Proof.
  induction l as [|a l IH]; cbn; [rewrite Rabs_R0; lra|].
  eapply Rle_trans; [apply Rabs_triang|]. lra.
Qed.

Lemma lsum_fold_left f l s : fold_left (fun x a => x + f a) l s = s + lsum f l.
Proof. revert s; induction l as [|a l IH]; intros s; cbn; [lra|]. rewrite IH. lra. Qed.

Lemma lsum_single f l a : NoDup l -> In a l -> (forall b, In b l -> b <> a -> f b = 0) -> lsum f l = f a.
Proof.
  induction l as [|x l IH]; intros Hnd Hin H; [destruct Hin|]. inversion Hnd; subst. cbn.
  destruct Hin as [->|Hin].
  - rewrite lsum_zero; [lra|]. intros b Hb. apply H; [now right | congruence].
  - rewrite H; [|now left | congruence]. rewrite IH; auto; [lra|]. intros; apply H; auto. now right.
Qed.
End Sums.

Lemma lsum_map {A B} (f : B -> R) (g : A -> B) l : lsum f (map g l) = lsum (fun a => f (g a)) l.
Proof. induction l as [|a l IH]; cbn; auto. now rewrite IH. Qed.

Lemma lsum_flat_map {A B} (f : B -> R) (g : A -> list B) l :
  lsum f (flat_map g l) = lsum (fun a => lsum f (g a)) l.
Proof. induction l as [|a l IH]; cbn; auto. rewrite lsum_app, IH. lra. Qed.

Lemma lsum_swap {A B} (f : A -> B -> R) l1 l2 :
  lsum (fun a => lsum (f a) l2) l1 = lsum (fun b => lsum (fun a => f a b) l1) l2.
Proof.
  induction l1 as [|a l1 IH]; cbn.
  - symmetry; apply lsum_zero; auto.
  - rewrite IH. rewrite lsum_plus. reflexivity.
Qed.

(* sums over integer ranges *)
Open Scope Z_scope.

Lemma lsum_zseq_shift (f : Z -> R) lo n c : lsum f (zseq (lo + c) n) = lsum (fun i => f (i + c)) (zseq lo n).
Proof.
  revert lo; induction n as [|n IH]; intros lo; cbn [zseq lsum]; auto.
  replace (lo + c + 1) with (lo + 1 + c) by lia. now rewrite IH.
Qed.

Lemma lsum_zseq_S (f : Z -> R) lo n :
  lsum f (zseq lo (S n)) = (lsum f (zseq lo n) + f (lo + Z.of_nat n)%Z)%R.
Proof.
  replace (S n) with (n + 1)%nat by lia. rewrite zseq_app, lsum_app. cbn. lra.
Qed.

(* a sum only depends on the range where the terms are non-zero *)
Lemma lsum_zseq_extend (f : Z -> R) lo n lo' n' :
  lo' <= lo -> lo + Z.of_nat n <= lo' + Z.of_nat n' ->
  (forall i, lo' <= i < lo' + Z.of_nat n' -> ~ (lo <= i < lo + Z.of_nat n) -> f i = 0%R) ->
  lsum f (zseq lo' n') = lsum f (zseq lo n).
Proof.
  intros H1 H2 H0.
  replace n' with (Z.to_nat (lo - lo') + (n + (n' - n - Z.to_nat (lo - lo'))))%nat by lia.
  rewrite !zseq_app, !lsum_app.
  replace (lo' + Z.of_nat (Z.to_nat (lo - lo'))) with lo by lia.
  rewrite (lsum_zero f (zseq lo' _)).
  - rewrite (lsum_zero f (zseq (lo + _) _)); [lra|].
    intros i Hi. apply zseq_In in Hi. apply H0; lia.
  - intros i Hi. apply zseq_In in Hi. apply H0; lia.
Qed.
