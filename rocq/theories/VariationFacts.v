(* Variation diminution of B-spline sums by knot insertion. *)
From Coq Require Import ZArith List Bool Lia Reals Lra.
From Verif Require Import Base BaseFacts RSum BSplineTheory Boehm VariationSpec.
Import ListNotations.
Open Scope Z_scope.

Lemma linked_tail {A} (P : A -> A -> Prop) a l : linked P (a :: l) -> linked P l.
Proof. destruct l as [|b l]; cbn; tauto. Qed.

Lemma linked_impl {A} (P Q : A -> A -> Prop) l : (forall x y, P x y -> Q x y) -> linked P l -> linked Q l.
Proof.
  intros H. induction l as [|a l IH]; auto. destruct l as [|b l]; auto. intros (H1 & H2). split; auto.
Qed.

(* consecutive related elements of two lists *)
Lemma linked2 {A C} (P : A -> A -> Prop) (Q : C -> C -> Prop) (T : A -> C -> Prop) l m :
  Forall2 T l m -> linked P l -> (forall x y x' y', T x x' -> T y y' -> P x y -> Q x' y') -> linked Q m.
Proof.
  intros H HP HQ. induction H as [|a b l m H1 H2 IH]; cbn; auto.
  inversion H2 as [|a' b' l' m' H3 H4]; subst; auto. destruct HP as (P1 & P2). split; [eapply HQ; eauto | auto].
Qed.

(* the sum on span k *)
Definition V (t : Z -> R) (k : Z) (p : nat) (c : Z -> R) (u : R) : R :=
  lsum (fun i => c i * B t k p i u)%R (zseq (k - Z.of_nat p) (S p)).

Lemma V_range t k p c u lo n : lo <= k - Z.of_nat p -> k < lo + Z.of_nat n ->
  V t k p c u = lsum (fun i => c i * B t k p i u)%R (zseq lo n).
Proof.
  intros H1 H2. symmetry. apply lsum_zseq_extend; try lia. intros j _ Hj. rewrite B_outside by lia. ring.
Qed.

Lemma V_insert t k ub s p c u : monotone t -> (t k <= ub)%R -> (ub <= t (k + 1)%Z)%R -> (ins t k ub s < ins t k ub (s + 1)%Z)%R ->
  V t (old_span k s) p c u = V (ins t k ub) s p (refined t k ub p c) u.
Proof.
  intros Ht Hlo Hhi Hs. assert (Ho : s - 1 <= old_span k s <= s) by (unfold old_span; destruct (Z_le_dec s k); lia).
  set (lo := s - 2 - Z.of_nat p). set (n := (p + 4)%nat).
  rewrite (V_range t _ p c u lo n), (V_range (ins t k ub) s p _ u lo n) by (unfold lo, n; lia).
  rewrite (lsum_ext _ (fun i => alpha t k ub p i * c i * B (ins t k ub) s p i u + (1 - alpha t k ub p (i + 1)) * c i * B (ins t k ub) s p (i + 1)%Z u)%R).
  2:{ intros i _. rewrite (boehm t Ht k ub Hlo Hhi s Hs). ring. }
  rewrite (lsum_ext (fun i => refined t k ub p c i * _)%R
    (fun i => alpha t k ub p i * c i * B (ins t k ub) s p i u + (1 - alpha t k ub p i) * c (i - 1)%Z * B (ins t k ub) s p i u)%R).
  2:{ intros i _. unfold refined. ring. }
  rewrite !lsum_plus. f_equal.
  rewrite (lsum_ext _ (fun i => (fun j => (1 - alpha t k ub p j) * c (j - 1)%Z * B (ins t k ub) s p j u)%R (i + 1)%Z)).
  2:{ intros i _. cbv beta. replace (i + 1 - 1) with i by lia. reflexivity. }
  rewrite <- (lsum_zseq_shift (fun j => (1 - alpha t k ub p j) * c (j - 1)%Z * B (ins t k ub) s p j u)%R lo n 1).
  rewrite (lsum_zseq_extend _ (s - Z.of_nat p) (S p) (lo + 1) n); try (unfold lo, n; lia).
  2:{ intros j _ Hj. rewrite B_outside by lia. ring. }
  symmetry. apply lsum_zseq_extend; try (unfold lo, n; lia). intros j _ Hj. rewrite B_outside by lia. ring.
Qed.

(* a parameter with its span; e: it is the right end of the span; m copies of it are next to it *)
Record par := { pk : Z; pu : R; pe : bool; pm : nat }.
Definition pok (t : Z -> R) (x : par) : Prop :=
  (t (pk x) < t (pk x + 1)%Z)%R /\
  (if pe x then pu x = t (pk x + 1)%Z else (t (pk x) <= pu x < t (pk x + 1)%Z)%R) /\
  (forall j, 1 <= j <= Z.of_nat (pm x) -> if pe x then t (pk x + j) = pu x else t (pk x + 1 - j) = pu x).

Lemma pok_in t x : pok t x -> (t (pk x) <= pu x <= t (pk x + 1)%Z)%R.
Proof. intros (H1 & H2 & _). destruct (pe x); lra. Qed.

(* after the insertion of another parameter or of a further copy *)
Definition other (u : R) (x : par) : par :=
  {| pk := if Rlt_dec (pu x) u then pk x else pk x + 1; pu := pu x; pe := pe x; pm := pm x |}.
Definition more (x : par) : par := {| pk := if pe x then pk x else pk x + 1; pu := pu x; pe := pe x; pm := S (pm x) |}.

Lemma lt_index t i j : monotone t -> (t i < t j)%R -> i < j.
Proof. intros Ht H. destruct (Z_lt_le_dec i j) as [|H']; auto. pose proof (Ht j i H'). lra. Qed.

Lemma other_ok t x y : monotone t -> pok t x -> pok t y -> pu y <> pu x ->
  pok (ins t (pk x) (pu x)) (other (pu x) y) /\ old_span (pk x) (pk (other (pu x) y)) = pk y.
Proof.
  intros Ht Hx Hy Hne. pose proof (pok_in t x Hx) as Bx. pose proof (pok_in t y Hy) as By.
  destruct Hx as (X1 & _ & _). destruct Hy as (Y1 & Y2 & Y3).
  set (k := pk x) in *. set (u := pu x) in *. unfold other, pok. destruct (Rlt_dec (pu y) u) as [L|L]; cbn [pk pu pe pm].
  - (* left of u *)
    assert (Hk : pk y <= k).
    { destruct (Z_le_gt_dec (pk y) k) as [|G]; auto. pose proof (Ht (k + 1) (pk y) ltac:(lia)). lra. }
    split; [|unfold old_span; destruct (Z_le_dec (pk y) k); [reflexivity | lia]].
    rewrite (ins_le t k u (pk y)) by auto.
    destruct (pe y).
    + assert (Hk2 : pk y < k).
      { destruct (Z.eq_dec (pk y) k) as [E|E]; [rewrite E in *; lra | lia]. }
      rewrite (ins_le t k u (pk y + 1)) by lia. repeat (split; [auto|]).
      intros j Hj. rewrite ins_le; [auto|]. destruct (Z_le_gt_dec (pk y + j) k) as [|G]; auto.
      pose proof (Ht (k + 1) (pk y + j) ltac:(lia)). rewrite (Y3 j Hj) in *. lra.
    + assert (E : (pu y < ins t k u (pk y + 1)%Z)%R).
      { destruct (Z.eq_dec (pk y) k) as [E|E]; [rewrite ins_eq by lia; lra | rewrite ins_le by lia; lra]. }
      split; [lra|]. split; [lra|]. intros j Hj. rewrite ins_le by lia. auto.
  - assert (L' : (u < pu y)%R) by lra.
    assert (Hk : k <= pk y).
    { destruct (Z_le_gt_dec k (pk y)) as [|G]; auto. pose proof (Ht (pk y + 1) k ltac:(lia)). lra. }
    split; [|unfold old_span; destruct (Z_le_dec (pk y + 1) k); lia].
    assert (E2 : ins t k u (pk y + 1 + 1) = t (pk y + 1)) by (rewrite ins_gt by lia; f_equal; lia).
    assert (E1 : (ins t k u (pk y + 1)%Z < t (pk y + 1)%Z)%R /\ (ins t k u (pk y + 1)%Z <= pu y)%R).
    { destruct (Z.eq_dec (pk y) k) as [E|E].
      - rewrite ins_eq by lia. split; [|lra]. lra.
      - rewrite ins_gt by lia. replace (pk y + 1 - 1) with (pk y) by lia. lra. }
    rewrite E2. split; [lra|]. destruct (pe y).
    + split; [auto|]. intros j Hj. rewrite ins_gt by lia. replace (pk y + 1 + j - 1) with (pk y + j) by lia. auto.
    + split; [lra|]. intros j Hj. pose proof (Y3 j Hj) as E.
      assert (G : k < pk y + 1 - j).
      { destruct (Z_lt_le_dec k (pk y + 1 - j)) as [|G]; auto. pose proof (Ht _ _ G). lra. }
      rewrite ins_gt by lia. rewrite <- E. f_equal. lia.
Qed.

Lemma more_ok t x : monotone t -> pok t x -> pok (ins t (pk x) (pu x)) (more x) /\ old_span (pk x) (pk (more x)) = pk x.
Proof.
  intros Ht Hx. pose proof (pok_in t x Hx) as Bx. destruct Hx as (X1 & X2 & X3). set (k := pk x) in *. set (u := pu x) in *.
  unfold more, pok. cbn [pk pu pe pm]. destruct (pe x).
  - split; [|unfold old_span; fold k; destruct (Z_le_dec k k); lia]. fold k u.
    rewrite (ins_le t k u k) by lia. rewrite (ins_eq t k u (k + 1)) by lia. split; [lra|]. split; [auto|].
    intros j Hj. destruct (Z.eq_dec j 1) as [->|E]; [apply ins_eq; lia|]. rewrite ins_gt by lia.
    replace (k + j - 1) with (k + (j - 1)) by lia. apply X3. lia.
  - split; [|unfold old_span; fold k; destruct (Z_le_dec (k + 1) k); lia]. fold k u.
    rewrite (ins_eq t k u (k + 1)) by lia. rewrite (ins_gt t k u (k + 1 + 1)) by lia. replace (k + 1 + 1 - 1) with (k + 1) by lia.
    split; [lra|]. split; [lra|]. intros j Hj. destruct (Z.eq_dec j 1) as [->|E]; [apply ins_eq; lia|]. rewrite ins_le by lia.
    replace (k + 1 + 1 - j) with (k + 1 - (j - 1)) by lia. apply X3. lia.
Qed.

(* enough copies: the value is a coefficient *)
Lemma V_full t x p c : monotone t -> pok t x -> (p <= pm x)%nat ->
  V t (pk x) p c (pu x) = c (if pe x then pk x else pk x - Z.of_nat p).
Proof.
  intros Ht (H1 & H2 & H3) Hp. set (k := pk x) in *. set (u := pu x) in *.
  assert (HB : forall q i, (q <= p)%nat -> B t k q i u = if Z.eq_dec i (if pe x then k else k - Z.of_nat q) then 1%R else 0%R).
  { induction q as [|q IH]; intros i Hq.
    - cbn [B]. destruct (pe x); destruct (Z.eq_dec i k); destruct (Z.eq_dec i (k - Z.of_nat 0)); try lia; auto.
    - rewrite (B_S t Ht k H1). rewrite !IH by lia. destruct (pe x).
      + assert (Ew : w t k (S q) u = 1%R).
        { unfold w. rewrite (H3 (Z.of_nat (S q)) ltac:(lia)). apply Rinv_r. lra. }
        destruct (Z.eq_dec i k) as [->|E]; [rewrite Ew; destruct (Z.eq_dec (k + 1) k); [lia | lra]|].
        destruct (Z.eq_dec (i + 1) k) as [E2|E2]; [rewrite E2, Ew; lra | lra].
      + assert (Ew : w t (k - Z.of_nat q) (S q) u = 0%R).
        { unfold w. replace (k - Z.of_nat q) with (k + 1 - Z.of_nat (S q)) by lia. rewrite (H3 (Z.of_nat (S q)) ltac:(lia)). unfold Rdiv. ring. }
        destruct (Z.eq_dec i (k - Z.of_nat q)) as [E|E].
        * rewrite E, Ew. destruct (Z.eq_dec (k - Z.of_nat q + 1) (k - Z.of_nat q)); [lia|].
          destruct (Z.eq_dec (k - Z.of_nat q) (k - Z.of_nat (S q))); [lia | lra].
        * destruct (Z.eq_dec (i + 1) (k - Z.of_nat q)) as [E2|E2].
          -- rewrite E2, Ew. destruct (Z.eq_dec i (k - Z.of_nat (S q))); [lra | lia].
          -- destruct (Z.eq_dec i (k - Z.of_nat (S q))); [lia | lra]. }
  unfold V. rewrite (lsum_single _ _ (if pe x then k else k - Z.of_nat p)).
  - rewrite HB by lia. destruct (Z.eq_dec _ _); [lra | contradiction].
  - apply zseq_NoDup.
  - apply zseq_In. destruct (pe x); lia.
  - intros i _ Hi. rewrite HB by lia. destruct (Z.eq_dec i _); [contradiction | lra].
Qed.

(* coefficient i of the window of x has the sign of the sum at x *)
Definition witness (t : Z -> R) (p : nat) (c : Z -> R) (x : par) (i : Z) : Prop :=
  pk x - Z.of_nat p <= i <= pk x /\ (0 < V t (pk x) p c (pu x) * c i)%R.

Definition opposite t p c (x y : par) : Prop := (V t (pk x) p c (pu x) * V t (pk y) p c (pu y) < 0)%R.

Lemma sign_trans a b x y : (a * b < 0)%R -> (0 < a * x)%R -> (0 < b * y)%R -> x <> y.
Proof.
  intros H1 H2 H3 ->. assert (P1 : (0 < (a * y) * (b * y))%R) by now apply Rmult_lt_0_compat.
  replace ((a * y) * (b * y))%R with ((a * b) * (y * y))%R in P1 by ring.
  assert (Q : (0 <= y * y)%R) by (pose proof (Rle_0_sqr y); exact H). nra.
Qed.

Lemma alpha_01 t k u p j : monotone t -> (t k <= u <= t (k + 1)%Z)%R -> (t k < t (k + 1)%Z)%R -> (0 <= alpha t k u p j <= 1)%R.
Proof.
  intros Ht Hu Hk. unfold alpha. destruct (Z_le_dec (j + Z.of_nat p) k) as [H|H]; [lra|]. destruct (Z_le_dec j k) as [H'|H']; [|lra].
  pose proof (Ht j k H'). pose proof (Ht (k + 1) (j + Z.of_nat p) ltac:(lia)).
  assert (D : (0 < t (j + Z.of_nat p)%Z - t j)%R) by lra. split.
  - apply Rmult_le_pos; [lra|]. left. now apply Rinv_0_lt_compat.
  - apply Rmult_le_reg_r with (t (j + Z.of_nat p)%Z - t j)%R; [lra|]. unfold Rdiv. rewrite Rmult_assoc, Rinv_l by lra. lra.
Qed.

(* back over one insertion *)
Lemma witness_back t k u p c s o ux j : monotone t -> (t k <= u <= t (k + 1)%Z)%R -> (t k < t (k + 1)%Z)%R ->
  old_span k s = o -> s - Z.of_nat p <= j <= s -> (0 < ux * refined t k u p c j)%R ->
  exists i, (i = j \/ i = j - 1) /\ o - Z.of_nat p <= i <= o /\ (0 < ux * c i)%R.
Proof.
  intros Ht Hu Hk Ho Hj Hs. pose proof (alpha_01 t k u p j Ht Hu Hk) as Ha. unfold refined in Hs. unfold old_span in Ho.
  set (a := alpha t k u p j) in *.
  destruct (Z_le_dec s k) as [L|L].
  - (* below *) destruct (Z.eq_dec j (s - Z.of_nat p)) as [E|E].
    + assert (A1 : a = 1%R) by (apply al_1; lia). exists j. split; [auto|]. split; [lia|]. rewrite A1 in Hs. lra.
    + destruct (Rlt_dec 0 (ux * c j)) as [P|P]; [exists j; split; [auto | split; [lia | auto]]|].
      exists (j - 1). split; [auto|]. split; [lia|]. destruct (Rlt_dec 0 (ux * c (j - 1)%Z)) as [Q|Q]; auto. exfalso. nra.
  - destruct (Z.eq_dec j s) as [E|E].
    + assert (A0 : a = 0%R) by (apply al_0; lia). exists (j - 1). split; [auto|]. split; [lia|]. rewrite A0 in Hs. lra.
    + destruct (Rlt_dec 0 (ux * c j)) as [P|P]; [exists j; split; [auto | split; [lia | auto]]|].
      exists (j - 1). split; [auto|]. split; [lia|]. destruct (Rlt_dec 0 (ux * c (j - 1)%Z)) as [Q|Q]; auto. exfalso. nra.
Qed.

(* the parameters after an insertion of the parameter number n *)
Fixpoint step (xs : list par) (u : R) : list par :=
  match xs with
  | [] => []
  | x :: t => (if Req_EM_T (pu x) u then more x else other u x) :: step t u
  end.

Fixpoint missing (p : nat) (xs : list par) : nat :=
  match xs with [] => 0%nat | x :: t => (p - pm x + missing p t)%nat end.

Lemma some_missing p xs : (0 < missing p xs)%nat -> exists x, In x xs /\ (pm x < p)%nat.
Proof.
  induction xs as [|x xs IH]; cbn; intros H; [lia|]. destruct (Nat.lt_ge_cases (pm x) p) as [L|L]; [exists x; auto|].
  destruct IH as (y & Hy & Ly); [lia|]. exists y. auto.
Qed.

Lemma none_missing p xs : missing p xs = 0%nat -> Forall (fun x => (p <= pm x)%nat) xs.
Proof. induction xs as [|x xs IH]; cbn; intros H; constructor; [lia | apply IH; lia]. Qed.

Lemma missing_step p xs u : (missing p (step xs u) <= missing p xs)%nat /\
  (forall x, In x xs -> pu x = u -> (pm x < p)%nat -> (missing p (step xs u) < missing p xs)%nat).
Proof.
  induction xs as [|y xs [IH1 IH2]]; cbn [step missing In]; [split; [lia | tauto]|].
  assert (E : (p - pm (if Req_EM_T (pu y) u then more y else other u y) <= p - pm y)%nat).
  { destruct (Req_EM_T (pu y) u); cbn; lia. }
  split; [lia|]. intros x [->|Hx] Hu Hp; [|specialize (IH2 x Hx Hu Hp); lia].
  destruct (Req_EM_T (pu x) u); [cbn [more pm] in *; lia | contradiction].
Qed.

Lemma linked_lt_all x xs : linked (fun a b => pu a < pu b)%R (x :: xs) -> forall y, In y xs -> (pu x < pu y)%R.
Proof.
  revert x. induction xs as [|z xs IH]; intros x H y Hy; [contradiction|]. destruct H as (H1 & H2).
  destruct Hy as [->|Hy]; auto. pose proof (IH z H2 y Hy). lra.
Qed.

Lemma same_u xs : linked (fun a b => pu a < pu b)%R xs -> forall x y, In x xs -> In y xs -> pu x = pu y -> x = y.
Proof.
  induction xs as [|z xs IH]; intros H x y Hx Hy E; [contradiction|]. pose proof (linked_lt_all z xs H) as L.
  destruct Hx as [->|Hx], Hy as [->|Hy]; auto; [pose proof (L y Hy); lra | pose proof (L x Hx); lra | apply IH; auto; now apply linked_tail in H].
Qed.

Lemma step_u xs u : map pu (step xs u) = map pu xs.
Proof. induction xs as [|x xs IH]; cbn; auto. rewrite IH. f_equal. destruct (Req_EM_T (pu x) u); reflexivity. Qed.

Lemma linked_map {A C} (f : A -> C) (P : C -> C -> Prop) l : linked P (map f l) <-> linked (fun a b => P (f a) (f b)) l.
Proof. induction l as [|a l IH]; cbn; [tauto|]. destruct l as [|b l]; cbn in *; tauto. Qed.

Lemma full_order t p x y : monotone t -> pok t x -> pok t y -> (p <= pm x)%nat -> (p <= pm y)%nat -> (pu x < pu y)%R ->
  (if pe x then pk x else pk x - Z.of_nat p) <= (if pe y then pk y else pk y - Z.of_nat p).
Proof.
  intros Ht Hx Hy Px Py Hu. pose proof (pok_in t x Hx). pose proof (pok_in t y Hy).
  destruct Hx as (X1 & X2 & X3). destruct Hy as (Y1 & Y2 & Y3).
  assert (K : pk x <= pk y).
  { destruct (Z_le_gt_dec (pk x) (pk y)) as [|G]; auto. pose proof (Ht (pk y + 1) (pk x) ltac:(lia)). lra. }
  destruct (pe x), (pe y); try lia. destruct (Nat.eq_dec p 0) as [->|Hp]; [lia|].
  pose proof (X3 1 ltac:(lia)) as E1. pose proof (Y3 (Z.of_nat p) ltac:(lia)) as E2.
  assert (L : pk x + 1 < pk y + 1 - Z.of_nat p) by (apply (lt_index t); auto; lra). lia.
Qed.

Theorem diminishing p : forall n t c xs, (missing p xs <= n)%nat -> monotone t -> Forall (pok t) xs ->
  linked (fun a b => pu a < pu b)%R xs -> linked (opposite t p c) xs -> Forall (fun x => V t (pk x) p c (pu x) <> 0%R) xs ->
  exists js, Forall2 (witness t p c) xs js /\ linked Z.lt js.
Proof.
  induction n as [n IH] using lt_wf_ind. intros t c xs Hn Ht Hok Hu Hop Hnz.
  destruct (Nat.eq_dec (missing p xs) 0) as [Z0|Z0].
  - (* every value is a coefficient *)
    pose proof (none_missing p xs Z0) as Hf.
    exists (map (fun x => if pe x then pk x else pk x - Z.of_nat p) xs).
    assert (Hval : forall x, In x xs -> V t (pk x) p c (pu x) = c (if pe x then pk x else pk x - Z.of_nat p)).
    { intros x Hx. rewrite Forall_forall in Hok, Hf. apply V_full; auto. }
    split.
    + clear - Hnz Hval. induction xs as [|x xs IHx]; cbn; constructor.
      * split; [destruct (pe x); lia|]. pose proof (Forall_inv Hnz) as N. cbv beta in N. rewrite (Hval x) in N |- * by (left; auto). exact (Rsqr_pos_lt _ N).
      * apply IHx; [now inversion Hnz | intros y Hy; apply Hval; now right].
    + apply linked_map. clear - Ht Hok Hu Hop Hf Hval. induction xs as [|x xs IHx]; cbn; auto. destruct xs as [|y xs]; auto.
      destruct Hu as (U1 & U2). destruct Hop as (O1 & O2). split.
      * pose proof (full_order t p x y Ht (Forall_inv Hok) (Forall_inv (Forall_inv_tail Hok)) (Forall_inv Hf) (Forall_inv (Forall_inv_tail Hf)) U1) as L.
        unfold opposite in O1. rewrite (Hval x), (Hval y) in O1 by (cbn; auto).
        set (a := if pe x then _ else _) in *. set (b := if pe y then _ else _) in *.
        destruct (Z.eq_dec a b) as [E|E]; [|lia]. rewrite E in O1. pose proof (Rle_0_sqr (c b)) as Q. unfold Rsqr in Q. lra.
      * apply IHx; [now inversion Hok | assumption | assumption | now inversion Hf | intros z Hz; apply Hval; now right].
  - destruct (some_missing p xs ltac:(lia)) as (x & Hx & Px).
    assert (Xok : pok t x) by (rewrite Forall_forall in Hok; auto). pose proof (pok_in t x Xok) as Bx.
    assert (Hk : (t (pk x) < t (pk x + 1)%Z)%R) by (destruct Xok; auto).
    set (k := pk x) in *. set (u := pu x) in *.
    (* one more copy of u *)
    assert (Each : forall y, In y xs -> let y' := if Req_EM_T (pu y) u then more y else other u y in
              pok (ins t k u) y' /\ old_span k (pk y') = pk y /\ pu y' = pu y).
    { intros y Hy. cbv zeta. destruct (Req_EM_T (pu y) u) as [E|E].
      - assert (y = x) by (apply (same_u xs); auto). subst y. destruct (more_ok t x Ht Xok). auto.
      - destruct (other_ok t x y Ht Xok) as [A1 A2]; [rewrite Forall_forall in Hok; auto | exact E | auto]. }
    assert (Val : forall y, In y xs -> let y' := if Req_EM_T (pu y) u then more y else other u y in
              V (ins t k u) (pk y') p (refined t k u p c) (pu y') = V t (pk y) p c (pu y)).
    { intros y Hy. destruct (Each y Hy) as (A1 & A2 & A3). cbv zeta in *. rewrite A3, <- A2. symmetry.
      destruct A1 as (A1 & _). apply V_insert; auto; lra. }
    destruct (IH (missing p (step xs u)) ltac:(pose proof (proj2 (missing_step p xs u) x Hx eq_refl Px); lia)
                (ins t k u) (refined t k u p c) (step xs u) (le_n _)) as (js & W & L).
    + apply ins_monotone; auto; lra.
    + clear - Each. induction xs as [|y xs IHy]; cbn [step]; constructor; [apply (Each y); left; auto | apply IHy; intros z Hz; apply Each; now right].
    + apply linked_map. rewrite step_u. now apply linked_map.
    + clear - Val Hop. induction xs as [|y xs IHy]; cbn; auto. destruct xs as [|z xs]; cbn; auto. destruct Hop as (O1 & O2). split.
      * unfold opposite in *. pose proof (Val y ltac:(cbn; auto)) as V1. pose proof (Val z ltac:(cbn; auto)) as V2. cbv zeta in V1, V2. rewrite V1, V2. exact O1.
      * apply IHy; auto. intros a Ha. apply Val. now right.
    + clear - Val Hnz. induction xs as [|y xs IHy]; cbn [step]; constructor.
      * pose proof (Val y ltac:(cbn; auto)) as V1. cbv zeta in V1. cbv beta. rewrite V1. now inversion Hnz.
      * apply IHy; [now inversion Hnz | intros a Ha; apply Val; now right].
    + (* back to the coefficients before the insertion *)
      assert (Back : exists is, Forall2 (witness t p c) xs is /\ Forall2 (fun j i => i = j \/ i = j - 1) js is).
      { clear - W Each Val Ht Bx Hk. revert js W. induction xs as [|y xs IHy]; intros js W; inversion W as [|? j ? js' W1 W2]; subst; [exists []; auto|].
        destruct (IHy ltac:(intros a Ha; apply Each; now right) ltac:(intros a Ha; apply Val; now right) js' W2) as (is & I1 & I2).
        destruct W1 as (W3 & W4). destruct (Each y ltac:(cbn; auto)) as (A1 & A2 & A3). pose proof (Val y ltac:(cbn; auto)) as V1. cbv zeta in *.
        rewrite V1 in W4. destruct (witness_back t k u p c _ _ _ j Ht Bx Hk A2 W3 W4) as (i & Hi & Hi2 & Hi3).
        exists (i :: is). split; constructor; auto. split; auto. }
      destruct Back as (is & I1 & I2). exists is. split; [exact I1|].
      clear - I1 I2 L Hop. revert js is I1 I2 L. induction xs as [|x xs IHx]; intros js is I1 I2 L; inversion I1 as [|? i ? is' W1 W2]; subst; [exact I|].
      inversion I2 as [|j ? js' ? J1 J2]; subst. inversion W2 as [|y i2 xs' is'' W3 W4]; subst; [exact I|]. inversion J2 as [|j2 ? js'' ? J3 J4]; subst.
      destruct L as (L1 & L2). destruct Hop as (O1 & O2). split; [|apply (IHx O2 (j2 :: js'')); auto].
      assert (N : c i <> c i2) by (destruct W1 as (_ & W1); destruct W3 as (_ & W3); exact (sign_trans _ _ _ _ O1 W1 W3)).
      assert (i <> i2) by congruence. lia.
Qed.
