(* Lemmas about the base operations. *)
From Coq Require Import ZArith List Bool Lia Reals Lra.
From Verif Require Import Base.
Import ListNotations.
Open Scope Z_scope.

(* ---- vectors ---- *)
Lemma zlen_nonneg {A} (l : list A) : 0 <= zlen l.
Proof. unfold zlen; lia. Qed.

Lemma vget_nth {A} (l : list A) i a0 : 0 <= i < zlen l -> vget l i = Ok (nth (Z.to_nat i) l a0).
Proof.
  intros H; unfold vget, zlen in *.
  replace ((0 <=? i) && (i <? Z.of_nat (length l))) with true.
  - rewrite (nth_error_nth' l a0) by lia. reflexivity.
  - symmetry; apply andb_true_intro; split; [apply Z.leb_le | apply Z.ltb_lt]; lia.
Qed.

Lemma vget_inv {A} (l : list A) i a :
  vget l i = Ok a -> 0 <= i < zlen l /\ nth_error l (Z.to_nat i) = Some a.
Proof.
  unfold vget, zlen; intros H.
  destruct ((0 <=? i) && (i <? Z.of_nat (length l))) eqn:E; [|discriminate].
  apply andb_prop in E as [E1 E2]; apply Z.leb_le in E1; apply Z.ltb_lt in E2.
  destruct (nth_error l (Z.to_nat i)); inversion H; subst. split; [lia | reflexivity].
Qed.

Lemma vget_out {A} (l : list A) i : ~ (0 <= i < zlen l) -> vget l i = UB.
Proof.
  unfold vget, zlen; intros H.
  destruct ((0 <=? i) && (i <? Z.of_nat (length l))) eqn:E; [|reflexivity].
  apply andb_prop in E as [E1 E2]; apply Z.leb_le in E1; apply Z.ltb_lt in E2. lia.
Qed.

Lemma vget_not_throw {A} (l : list A) i e : vget l i <> Throw e.
Proof.
  unfold vget; destruct ((0 <=? i) && (i <? Z.of_nat (length l))); [|discriminate].
  destruct (nth_error l (Z.to_nat i)); discriminate.
Qed.

Lemma upd_length {A} (l : list A) n a : length (upd l n a) = length l.
Proof. revert n; induction l as [|x l IH]; intros [|n]; cbn; auto. Qed.

Lemma zlen_upd {A} (l : list A) n a : zlen (upd l n a) = zlen l.
Proof. unfold zlen; now rewrite upd_length. Qed.

Lemma nth_upd_same {A} (l : list A) n a a0 : (n < length l)%nat -> nth n (upd l n a) a0 = a.
Proof. revert n; induction l as [|x l IH]; intros [|n] H; cbn in *; try lia; auto. apply IH; lia. Qed.

Lemma nth_upd_other {A} (l : list A) n m a a0 : n <> m -> nth m (upd l n a) a0 = nth m l a0.
Proof. revert n m; induction l as [|x l IH]; intros [|n] [|m] H; cbn; auto; try congruence. Qed.

Lemma nth_upd {A} (l : list A) n m a a0 :
  (n < length l)%nat -> nth m (upd l n a) a0 = if Nat.eqb m n then a else nth m l a0.
Proof.
  intros H. destruct (Nat.eqb_spec m n) as [->|Hne].
  - now apply nth_upd_same.
  - apply nth_upd_other; congruence.
Qed.

Lemma nth_error_upd {A} (l : list A) n m a :
  (n < length l)%nat -> nth_error (upd l n a) m = if Nat.eqb m n then Some a else nth_error l m.
Proof.
  revert n m; induction l as [|x l IH]; intros [|n] [|m] H; cbn in *; try lia; auto.
  apply IH; lia.
Qed.

Lemma upd_same {A} (l : list A) n a a0 : nth n l a0 = a -> upd l n a = l \/ (length l <= n)%nat.
Proof.
  revert n; induction l as [|x l IH]; intros [|n] H; cbn in *; auto; try lia.
  - left; now subst.
  - destruct (IH n H) as [E|E]; [left; now rewrite E | right; lia].
Qed.

Lemma upd_nth_self {A} (l : list A) n a0 : upd l n (nth n l a0) = l.
Proof. revert n; induction l as [|x l IH]; intros [|n]; cbn; auto. now rewrite IH. Qed.

Lemma upd_upd {A} (l : list A) n a b : upd (upd l n a) n b = upd l n b.
Proof. revert n; induction l as [|x l IH]; intros [|n]; cbn; auto. now rewrite IH. Qed.

Lemma upd_comm {A} (l : list A) n m a b : n <> m -> upd (upd l n a) m b = upd (upd l m b) n a.
Proof. revert n m; induction l as [|x l IH]; intros [|n] [|m] H; cbn; auto; try congruence. rewrite IH; auto. Qed.

Lemma vset_ok {A} (l : list A) i a : 0 <= i < zlen l -> vset l i a = Ok (upd l (Z.to_nat i) a).
Proof.
  intros H; unfold vset, zlen in *.
  replace ((0 <=? i) && (i <? Z.of_nat (length l))) with true; auto.
  symmetry; apply andb_true_intro; split; [apply Z.leb_le | apply Z.ltb_lt]; lia.
Qed.

Lemma vset_inv {A} (l : list A) i a l' :
  vset l i a = Ok l' -> 0 <= i < zlen l /\ l' = upd l (Z.to_nat i) a.
Proof.
  unfold vset, zlen; intros H.
  destruct ((0 <=? i) && (i <? Z.of_nat (length l))) eqn:E; [|discriminate].
  apply andb_prop in E as [E1 E2]; apply Z.leb_le in E1; apply Z.ltb_lt in E2.
  inversion H; subst; split; [lia | reflexivity].
Qed.

Lemma dget_nth {A} (l : list A) d a0 : (d < length l)%nat -> dget l d = Ok (nth d l a0).
Proof. intros H; unfold dget. now rewrite (nth_error_nth' l a0 H). Qed.

Lemma dget_inv {A} (l : list A) d a : dget l d = Ok a -> (d < length l)%nat /\ forall a0, nth d l a0 = a.
Proof.
  unfold dget; destruct (nth_error l d) eqn:E; intros H; inversion H; subst.
  split; [now apply nth_error_Some; congruence | intros a0; now apply nth_error_nth]. 
Qed.

(* ---- bind / mapM / foldM ---- *)
Lemma bind_Ok {A B} (m : Res A) (f : A -> Res B) b :
  bind m f = Ok b -> exists a, m = Ok a /\ f a = Ok b.
Proof. destruct m; cbn; intros; try discriminate; eauto. Qed.

Lemma mapM_ok {A B} (f : A -> Res B) (g : A -> B) l :
  (forall a, In a l -> f a = Ok (g a)) -> mapM f l = Ok (map g l).
Proof.
  induction l as [|a l IH]; intros H; cbn; auto.
  rewrite H by now left. cbn. rewrite IH; auto. intros; apply H; now right.
Qed.

Lemma mapM_ext {A B} (f g : A -> Res B) l : (forall a, In a l -> f a = g a) -> mapM f l = mapM g l.
Proof.
  induction l as [|a l IH]; intros H; cbn; auto.
  rewrite H by now left. rewrite IH; auto. intros; apply H; now right.
Qed.

Lemma mapM_inv {A B} (f : A -> Res B) l r :
  mapM f l = Ok r -> Forall2 (fun a b => f a = Ok b) l r.
Proof.
  revert r; induction l as [|a l IH]; cbn; intros r H.
  - inversion H; constructor.
  - apply bind_Ok in H as (b & Hb & H). apply bind_Ok in H as (bs & Hbs & H).
    inversion H; subst. constructor; auto.
Qed.

Lemma mapM_length {A B} (f : A -> Res B) l r : mapM f l = Ok r -> length r = length l.
Proof. intros H; apply mapM_inv in H. induction H; cbn; auto. Qed.

Lemma foldM_app {A S} (f : S -> A -> Res S) l1 l2 s :
  foldM f (l1 ++ l2) s = bind (foldM f l1 s) (foldM f l2).
Proof.
  revert s; induction l1 as [|a l1 IH]; intros s; cbn; auto.
  destruct (f s a); cbn; auto.
Qed.

Lemma foldM_ok {A S} (f : S -> A -> Res S) (g : S -> A -> S) l s :
  (forall s a, In a l -> f s a = Ok (g s a)) -> foldM f l s = Ok (fold_left g l s).
Proof.
  revert s; induction l as [|a l IH]; intros s H; cbn; auto.
  rewrite H by now left. cbn. apply IH. intros; apply H; now right.
Qed.

(* invariant rule *)
Lemma foldM_inv {A S} (f : S -> A -> Res S) (P : S -> Prop) l s s' :
  foldM f l s = Ok s' -> P s -> (forall s a s1, In a l -> P s -> f s a = Ok s1 -> P s1) -> P s'.
Proof.
  revert s; induction l as [|a l IH]; cbn; intros s H Hp Hs.
  - inversion H; now subst.
  - apply bind_Ok in H as (s1 & E & H). eapply IH; eauto.
Qed.

Lemma for_n_foldM {S} n lo (body : Z -> S -> Res S) s :
  for_n n lo body s = foldM (fun s i => body i s) (zseq lo n) s.
Proof.
  revert lo s; induction n as [|n IH]; intros lo s; cbn; auto.
  destruct (body lo s); cbn; auto.
Qed.

Lemma for_up_foldM {S} lo hi (body : Z -> S -> Res S) s :
  for_up lo hi body s = foldM (fun s i => body i s) (zseq lo (Z.to_nat (hi - lo))) s.
Proof. apply for_n_foldM. Qed.

(* ---- zseq ---- *)
Lemma zseq_length lo n : length (zseq lo n) = n.
Proof. revert lo; induction n; intros; cbn; auto. Qed.

Lemma zseq_In lo n i : In i (zseq lo n) <-> lo <= i < lo + Z.of_nat n.
Proof.
  revert lo; induction n as [|n IH]; intros lo; cbn [zseq In].
  - lia.
  - rewrite IH. lia.
Qed.

Lemma zseq_nth lo n k d : (k < n)%nat -> nth k (zseq lo n) d = lo + Z.of_nat k.
Proof.
  revert lo k; induction n as [|n IH]; intros lo [|k] H; cbn [zseq nth]; try lia.
  rewrite IH by lia. lia.
Qed.

Lemma zseq_map lo n : zseq lo n = map (fun k => lo + Z.of_nat k) (seq 0 n).
Proof.
  assert (H : forall s, zseq (lo + Z.of_nat s) n = map (fun k => lo + Z.of_nat k) (seq s n)).
  { induction n as [|n IH]; intros s; cbn [zseq seq map]; auto.
    f_equal. rewrite <- IH. f_equal. lia. }
  rewrite <- H. f_equal; lia.
Qed.

Lemma zseq_app lo n m : zseq lo (n + m) = zseq lo n ++ zseq (lo + Z.of_nat n) m.
Proof.
  revert lo; induction n as [|n IH]; intros lo; cbn [zseq Nat.add app].
  - f_equal; lia.
  - rewrite IH. do 3 f_equal. lia.
Qed.

Lemma zseq_NoDup lo n : NoDup (zseq lo n).
Proof.
  revert lo; induction n as [|n IH]; intros lo; cbn; constructor; auto.
  rewrite zseq_In. lia.
Qed.

(* ---- map2 ---- *)
Lemma map2_length {A B C} (f : A -> B -> C) l1 l2 :
  length l1 = length l2 -> length (map2 f l1 l2) = length l1.
Proof. revert l2; induction l1 as [|a l1 IH]; intros [|b l2] H; cbn in *; auto; try discriminate. Qed.

Lemma nth_map2 {A B C} (f : A -> B -> C) l1 l2 k a0 b0 c0 :
  (k < length l1)%nat -> (k < length l2)%nat ->
  nth k (map2 f l1 l2) c0 = f (nth k l1 a0) (nth k l2 b0).
Proof.
  revert l2 k; induction l1 as [|a l1 IH]; intros [|b l2] [|k] H1 H2; cbn in *; try lia; auto.
  apply IH; lia.
Qed.

Lemma nth_map_in {A B} (f : A -> B) l k a0 b0 : (k < length l)%nat -> nth k (map f l) b0 = f (nth k l a0).
Proof. intros H. rewrite (nth_indep _ b0 (f a0)) by now rewrite map_length. apply map_nth. Qed.

Lemma list_ext {A} (l1 l2 : list A) a0 :
  length l1 = length l2 -> (forall k, (k < length l1)%nat -> nth k l1 a0 = nth k l2 a0) -> l1 = l2.
Proof. intros; eapply nth_ext; eauto. Qed.

(* ---- real instance ---- *)
Definition epsR : R := (10 / 2 ^ 52)%R.

Lemma epsR_pos : (0 < epsR)%R.
Proof. unfold epsR. apply Rdiv_lt_0_compat; [lra | apply pow_lt; lra]. Qed.

Lemma kEpsilon_R dz : kEpsilon (F := Rops dz) = epsR.
Proof.
  unfold kEpsilon, epsR; cbn. destruct (Req_EM_T (IZR 4503599627370496) 0) as [E|E].
  - exfalso. apply eq_IZR_R0 in E. discriminate.
  - unfold Rdiv. do 2 f_equal. lra.
Qed.

Lemma Rltb_true x y : Rltb x y = true <-> (x < y)%R.
Proof. unfold Rltb; destruct (Rlt_dec x y); split; intros; auto; try discriminate; contradiction. Qed.
Lemma Rltb_false x y : Rltb x y = false <-> (y <= x)%R.
Proof. unfold Rltb; destruct (Rlt_dec x y); split; intros; auto; try discriminate; lra. Qed.
Lemma Rleb_true x y : Rleb x y = true <-> (x <= y)%R.
Proof. unfold Rleb; destruct (Rle_dec x y); split; intros; auto; try discriminate; contradiction. Qed.
Lemma Rleb_false x y : Rleb x y = false <-> (y < x)%R.
Proof. unfold Rleb; destruct (Rle_dec x y); split; intros; auto; try discriminate; lra. Qed.
Lemma Reqb_true x y : Reqb x y = true <-> x = y.
Proof. unfold Reqb; destruct (Req_EM_T x y); split; intros; auto; try discriminate; contradiction. Qed.
Lemma Reqb_false x y : Reqb x y = false <-> x <> y.
Proof. unfold Reqb; destruct (Req_EM_T x y); split; intros; auto; try discriminate; contradiction. Qed.

Lemma ndiv_R dz x y : y <> 0%R -> ndiv (n := Rops dz) x y = (x / y)%R.
Proof. intros H; cbn. destruct (Req_EM_T y 0); [contradiction | reflexivity]. Qed.

Lemma Rltb_spec x y : reflect (x < y)%R (Rltb x y).
Proof. apply iff_reflect; symmetry; apply Rltb_true. Qed.
Lemma Rleb_spec x y : reflect (x <= y)%R (Rleb x y).
Proof. apply iff_reflect; symmetry; apply Rleb_true. Qed.
Lemma Reqb_spec x y : reflect (x = y) (Reqb x y).
Proof. apply iff_reflect; symmetry; apply Reqb_true. Qed.

(* unfold the operations of the real instance, nothing else *)
Ltac rnorm := cbn [num n0 n1 nadd nsub nmul nabs nltb nleb neqb nofZ Rops] in *.

Ltac zl := unfold zlen in *; rnorm; lia.
