(* Facts about the knot vector model over the reals. *)
From Coq Require Import ZArith List Bool Lia Reals Lra Permutation.
From Verif Require Import Base BaseFacts KnotVec KnotVecSpec.
Import ListNotations.
Open Scope Z_scope.

Section KV.
Variable dz : R -> R.
Local Notation F := (Rops dz).
Implicit Types (kv : list R) (u : R).

Lemma near_are_equal u v : num_are_equal (F := F) kEpsilon u v = true <-> near u v.
Proof.
  unfold num_are_equal, near. rewrite (kEpsilon_R dz). cbn. apply Rltb_true.
Qed.

Lemma near_are_equal_false u v : num_are_equal (F := F) kEpsilon u v = false <-> ~ near u v.
Proof. rewrite <- near_are_equal. symmetry; apply not_true_iff_false. Qed.

Lemma near_refl u : near u u.
Proof. unfold near. rewrite Rminus_diag_eq by reflexivity. rewrite Rabs_R0. exact epsR_pos. Qed.

Lemma tolerance_pos : (0 < tolerance)%R.
Proof. exact epsR_pos. Qed.

Lemma last_knot_ok kv : (0 < length kv)%nat -> last_knot (F := F) kv = Ok (final_knot kv).
Proof.
  intros H. unfold last_knot, final_knot.
  erewrite vget_nth by (unfold zlen; cbn; lia). do 2 f_equal. unfold zlen; cbn; lia.
Qed.

Lemma is_last_knot_ok kv u : (0 < length kv)%nat ->
  exists b, is_last_knot (F := F) kv u = Ok b /\ (b = true <-> near u (final_knot kv)).
Proof.
  intros H. unfold is_last_knot. rewrite last_knot_ok by auto. cbn [bind].
  eexists; split; [reflexivity | apply near_are_equal].
Qed.

Lemma lower_bound_range kv u : 0 <= lower_bound (F := F) kv u <= zlen kv.
Proof.
  unfold zlen; induction kv as [|x kv IH]; cbn [lower_bound length]; [lia|].
  rnorm. destruct (Rltb x u); lia.
Qed.

Lemma lower_bound_below kv u i : (Z.of_nat i < lower_bound (F := F) kv u) -> (knot kv i < u)%R.
Proof.
  revert i; induction kv as [|x kv IH]; intros i; cbn [lower_bound]; [lia|].
  rnorm. destruct (Rltb_spec x u) as [H|H]; intros Hi; [|lia].
  destruct i as [|i]; cbn; auto. apply IH. lia.
Qed.

Lemma lower_bound_at kv u i : Z.of_nat i = lower_bound (F := F) kv u -> (i < length kv)%nat -> (u <= knot kv i)%R.
Proof.
  revert i; induction kv as [|x kv IH]; intros i; cbn [lower_bound length]; [lia|].
  rnorm. destruct (Rltb_spec x u) as [H|H]; intros Hi Hl.
  - destruct i as [|i]; cbn.
    + pose proof (lower_bound_range kv u) as Hr. lia.
    + apply IH; lia.
  - destruct i as [|i]; cbn; [lra | lia].
Qed.

Lemma upper_bound_range kv u : 0 <= upper_bound (F := F) kv u <= zlen kv.
Proof.
  unfold zlen; induction kv as [|x kv IH]; cbn [upper_bound length]; [lia|].
  rnorm. destruct (Rltb u x); lia.
Qed.

Lemma upper_bound_below kv u i : (Z.of_nat i < upper_bound (F := F) kv u) -> (knot kv i <= u)%R.
Proof.
  revert i; induction kv as [|x kv IH]; intros i; cbn [upper_bound]; [lia|].
  rnorm. destruct (Rltb_spec u x) as [H|H]; intros Hi; [lia|].
  destruct i as [|i]; cbn; [lra|]. apply IH. lia.
Qed.

Lemma upper_bound_at kv u i : Z.of_nat i = upper_bound (F := F) kv u -> (i < length kv)%nat -> (u < knot kv i)%R.
Proof.
  revert i; induction kv as [|x kv IH]; intros i; cbn [upper_bound length]; [lia|].
  rnorm. destruct (Rltb_spec u x) as [H|H]; intros Hi Hl.
  - destruct i as [|i]; cbn; [lra | lia].
  - destruct i as [|i]; cbn.
    + pose proof (upper_bound_range kv u) as Hr. lia.
    + apply IH; lia.
Qed.

(* value of the span in every case *)
Lemma knot_span_cases kv u : (0 < length kv)%nat ->
  exists k, knot_span (F := F) kv u = Ok k /\ -1 <= k < zlen kv /\
    ( (near u (final_knot kv) /\ k = lower_bound (F := F) kv u - 1) \/
      (~ near u (final_knot kv) /\ k = upper_bound (F := F) kv u - 1) ).
Proof.
  intros H. unfold knot_span.
  destruct (is_last_knot_ok kv u H) as (b & E & Hb). rewrite E. cbn [bind].
  eexists; split; [reflexivity|].
  pose proof (lower_bound_range kv u); pose proof (upper_bound_range kv u).
  destruct b.
  - split; [lia|]. left; split; [now apply Hb | reflexivity].
  - split; [lia|]. right; split; [intros C; apply Hb in C; discriminate | reflexivity].
Qed.

Lemma final_knot_ge kv i : nondecreasing kv -> (i < length kv)%nat -> (knot kv i <= final_knot kv)%R.
Proof. intros Hn Hi. unfold final_knot. apply (Hn i (length kv - 1)%nat); lia. Qed.

Lemma first_knot_le kv i : nondecreasing kv -> (i < length kv)%nat -> (first_knot kv <= knot kv i)%R.
Proof. intros Hn Hi. unfold first_knot. apply (Hn 0%nat i); lia. Qed.

Lemma knot_span_inside kv u :
  (first_knot kv <= u)%R -> (u < final_knot kv)%R -> ~ near u (final_knot kv) ->
  exists k, knot_span (F := F) kv u = Ok (Z.of_nat k) /\ (S k < length kv)%nat /\
            (knot kv k <= u)%R /\ (u < knot kv (S k))%R.
Proof.
  intros H1 H2 H3.
  assert (Hl : (0 < length kv)%nat).
  { destruct kv; cbn; [|lia]. unfold first_knot, final_knot in *; cbn in *. lra. }
  destruct (knot_span_cases kv u Hl) as (k & E & Hr & [[Hc _]|[_ Hk]]); [contradiction|].
  pose proof (upper_bound_range kv u) as Hu.
  assert (Hpos : 0 < upper_bound (F := F) kv u).
  { destruct (Z.eq_dec (upper_bound (F := F) kv u) 0) as [E0|]; [|lia].
    pose proof (upper_bound_at kv u 0 ltac:(rewrite E0; reflexivity) Hl) as C.
    unfold first_knot, knot in *. lra. }
  assert (Hlt : upper_bound (F := F) kv u < zlen kv).
  { destruct (Z.eq_dec (upper_bound (F := F) kv u) (zlen kv)) as [E0|]; [|lia].
    assert (C : (knot kv (length kv - 1) <= u)%R).
    { apply upper_bound_below. rewrite E0. unfold zlen; rnorm; lia. }
    unfold final_knot, knot in *. lra. }
  exists (Z.to_nat k). rewrite Z2Nat.id by lia. unfold zlen in *; rnorm.
  repeat split; auto; try lia.
  - apply upper_bound_below. rnorm; lia.
  - apply upper_bound_at; rnorm; lia.
Qed.

Lemma knot_span_last kv u :
  (first_knot kv < u)%R -> (u <= final_knot kv)%R -> near u (final_knot kv) ->
  exists k, knot_span (F := F) kv u = Ok (Z.of_nat k) /\ (S k < length kv)%nat /\
            (knot kv k < u)%R /\ (u <= knot kv (S k))%R.
Proof.
  intros H1 H2 H3.
  assert (Hl : (0 < length kv)%nat).
  { destruct kv; cbn; [|lia]. unfold first_knot, final_knot in *; cbn in *. lra. }
  destruct (knot_span_cases kv u Hl) as (k & E & Hr & [[_ Hk]|[Hc _]]); [|contradiction].
  pose proof (lower_bound_range kv u) as Hu.
  assert (Hpos : 0 < lower_bound (F := F) kv u).
  { destruct (Z.eq_dec (lower_bound (F := F) kv u) 0) as [E0|]; [|lia].
    pose proof (lower_bound_at kv u 0 ltac:(rewrite E0; reflexivity) Hl) as C.
    unfold first_knot, knot in *. lra. }
  assert (Hlt : lower_bound (F := F) kv u < zlen kv).
  { destruct (Z.eq_dec (lower_bound (F := F) kv u) (zlen kv)) as [E0|]; [|lia].
    assert (C : (knot kv (length kv - 1) < u)%R).
    { apply lower_bound_below. rewrite E0. unfold zlen; rnorm; lia. }
    unfold final_knot, knot in *. lra. }
  exists (Z.to_nat k). rewrite Z2Nat.id by lia. unfold zlen in *; rnorm.
  repeat split; auto; try lia.
  - apply lower_bound_below. rnorm; lia.
  - apply lower_bound_at; rnorm; lia.
Qed.

(* ---- occurrences, order ---- *)
Lemma nondecreasing_tail x kv : nondecreasing (x :: kv) -> nondecreasing kv.
Proof. intros H i j Hi Hj. apply (H (S i) (S j)); cbn; lia. Qed.

Lemma nondecreasing_head x kv y : nondecreasing (x :: kv) -> In y kv -> (x <= y)%R.
Proof.
  intros H Hy. apply (In_nth _ _ 0%R) in Hy as (n & Hn & <-).
  apply (H 0%nat (S n)); cbn; lia.
Qed.

Lemma nondecreasing_cons x kv :
  nondecreasing kv -> (forall y, In y kv -> (x <= y)%R) -> nondecreasing (x :: kv).
Proof.
  intros H Hx [|i] [|j] Hi Hj; unfold knot; cbn in *; try lia; try lra.
  - apply Hx, nth_In; lia.
  - apply H; lia.
Qed.

Lemma nondecreasing_app l1 l2 :
  nondecreasing l1 -> nondecreasing l2 -> (forall x y, In x l1 -> In y l2 -> (x <= y)%R) ->
  nondecreasing (l1 ++ l2).
Proof.
  induction l1 as [|a l1 IH]; intros H1 H2 H12; cbn; auto.
  apply nondecreasing_cons.
  - apply IH; eauto using nondecreasing_tail. intros; apply H12; auto; now right.
  - intros y Hy. apply in_app_or in Hy as [Hy|Hy].
    + eapply nondecreasing_head; eauto.
    + apply H12; auto; now left.
Qed.

Lemma nondecreasing_app_inv l1 l2 :
  nondecreasing (l1 ++ l2) ->
  nondecreasing l1 /\ nondecreasing l2 /\ (forall x y, In x l1 -> In y l2 -> (x <= y)%R).
Proof.
  induction l1 as [|a l1 IH]; intros H; cbn in *.
  - split; [|split; auto; intros ? ? []]. intros i j Hi Hj; cbn in Hj; lia.
  - destruct (IH (nondecreasing_tail _ _ H)) as (H1 & H2 & H3). split; [|split]; auto.
    + apply nondecreasing_cons; auto. intros y Hy. eapply nondecreasing_head; eauto.
      apply in_or_app; now left.
    + intros x y [<-|Hx] Hy; auto. eapply nondecreasing_head; eauto. apply in_or_app; now right.
Qed.

Lemma in_firstn_knot kv n x : In x (firstn n kv) -> exists i, (i < n)%nat /\ (i < length kv)%nat /\ knot kv i = x.
Proof.
  revert n; induction kv as [|a kv IH]; intros [|n]; cbn; try (intros []; fail).
  intros [<-|H].
  - exists 0%nat; cbn; repeat split; lia.
  - destruct (IH _ H) as (i & H1 & H2 & H3). exists (S i). unfold knot in *; cbn. repeat split; auto; lia.
Qed.

Lemma in_skipn_knot kv n x : In x (skipn n kv) -> exists i, (n <= i)%nat /\ (i < length kv)%nat /\ knot kv i = x.
Proof.
  revert n; induction kv as [|a kv IH]; intros [|n]; cbn; try (intros []; fail).
  - intros [<-|H].
    + exists 0%nat; cbn; repeat split; lia.
    + apply (In_nth _ _ 0%R) in H as (i & Hi & <-). exists (S i). unfold knot; cbn. repeat split; lia.
  - intros H. destruct (IH _ H) as (i & H1 & H2 & H3). exists (S i). unfold knot in *; cbn. repeat split; auto; lia.
Qed.

Lemma insert_at_nat kv n (x : R) : (n <= length kv)%nat ->
  insert_at (F := F) kv (Z.of_nat n) x = Ok (firstn n kv ++ x :: skipn n kv).
Proof.
  intros H. unfold insert_at; rnorm.
  replace ((0 <=? Z.of_nat n) && (Z.of_nat n <=? zlen kv)) with true.
  - rewrite Nat2Z.id. reflexivity.
  - symmetry; apply andb_true_intro; unfold zlen; split; apply Z.leb_le; lia.
Qed.

Lemma erase_at_nat kv n : (n < length kv)%nat ->
  erase_at (F := F) kv (Z.of_nat n) = Ok (firstn n kv ++ skipn (S n) kv).
Proof.
  intros H. unfold erase_at; rnorm.
  replace ((0 <=? Z.of_nat n) && (Z.of_nat n <? zlen kv)) with true.
  - rewrite Nat2Z.id. reflexivity.
  - symmetry; apply andb_true_intro; unfold zlen; split; [apply Z.leb_le | apply Z.ltb_lt]; lia.
Qed.

Lemma insert_perm kv n (x : R) : Permutation (firstn n kv ++ x :: skipn n kv) (x :: kv).
Proof. rewrite <- (firstn_skipn n kv) at 3. symmetry. apply Permutation_middle. Qed.

Lemma skipn_nth kv n : (n < length kv)%nat -> skipn n kv = knot kv n :: skipn (S n) kv.
Proof.
  revert n; induction kv as [|a kv IH]; intros [|n] H; cbn in *; try lia; auto. rewrite IH by lia. reflexivity.
Qed.

Lemma erase_perm kv n : (n < length kv)%nat -> Permutation kv (knot kv n :: firstn n kv ++ skipn (S n) kv).
Proof.
  intros H. rewrite <- (firstn_skipn n kv) at 1. rewrite (skipn_nth kv n H).
  symmetry; apply Permutation_middle.
Qed.

Lemma erase_nondecreasing kv n : nondecreasing kv -> nondecreasing (firstn n kv ++ skipn (S n) kv).
Proof.
  intros H. 
  assert (Hs : forall m, nondecreasing (skipn m kv)).
  { intros m. rewrite <- (firstn_skipn m kv) in H. now apply nondecreasing_app_inv in H. }
  assert (Hf : nondecreasing (firstn n kv)).
  { rewrite <- (firstn_skipn n kv) in H. now apply nondecreasing_app_inv in H. }
  apply nondecreasing_app; auto.
  intros x y Hx Hy. apply in_firstn_knot in Hx as (i & H1 & H2 & <-).
  apply in_skipn_knot in Hy as (j & H3 & H4 & <-). apply H; lia.
Qed.

Lemma insert_nondecreasing kv n u : nondecreasing kv ->
  (forall i, (i < n)%nat -> (i < length kv)%nat -> (knot kv i <= u)%R) ->
  (forall i, (n <= i)%nat -> (i < length kv)%nat -> (u <= knot kv i)%R) ->
  nondecreasing (firstn n kv ++ u :: skipn n kv).
Proof.
  intros H Hlo Hhi.
  assert (Hsf : nondecreasing (firstn n kv) /\ nondecreasing (skipn n kv) /\
                (forall x y, In x (firstn n kv) -> In y (skipn n kv) -> (x <= y)%R)).
  { apply nondecreasing_app_inv. now rewrite firstn_skipn. }
  destruct Hsf as (Hf & Hs & Hfs).
  apply nondecreasing_app; auto.
  - apply nondecreasing_cons; auto. intros y Hy. apply in_skipn_knot in Hy as (j & H3 & H4 & <-). auto.
  - intros x y Hx [<-|Hy]; auto. apply in_firstn_knot in Hx as (i & H1 & H2 & <-). auto.
Qed.

(* where InsertKnot puts the new knot *)
Lemma kv_insert_pos kv u : nondecreasing kv -> (0 < length kv)%nat ->
  exists n, (n <= length kv)%nat /\ kv_insert (F := F) kv u = Ok (firstn n kv ++ u :: skipn n kv) /\
    (forall i, (i < n)%nat -> (knot kv i <= u)%R) /\
    (forall i, (n <= i)%nat -> (i < length kv)%nat -> (u <= knot kv i)%R) /\
    (~ near u (final_knot kv) -> forall i, (n <= i)%nat -> (i < length kv)%nat -> (u < knot kv i)%R).
Proof.
  intros Hn Hl. unfold kv_insert.
  destruct (knot_span_cases kv u Hl) as (k & E & Hr & [[Hc Hk]|[Hc Hk]]); rewrite E; cbn [bind].
  - pose proof (lower_bound_range kv u) as Hu. unfold zlen in *; rnorm.
    exists (Z.to_nat (k + 1)). split; [lia|].
    replace (k + 1) with (Z.of_nat (Z.to_nat (k + 1))) at 1 by lia.
    rewrite insert_at_nat by lia. split; [reflexivity|].
    assert (Hge : forall i, (Z.to_nat (k + 1) <= i)%nat -> (i < length kv)%nat -> (u <= knot kv i)%R).
    { intros i Hi Hi2. apply Rle_trans with (knot kv (Z.to_nat (k + 1))).
      - apply lower_bound_at; rnorm; lia.
      - apply Hn; lia. }
    split; [|split; auto].
    + intros i Hi. apply Rlt_le, lower_bound_below. rnorm; lia.
    + intros C; contradiction.
  - pose proof (upper_bound_range kv u) as Hu. unfold zlen in *; rnorm.
    exists (Z.to_nat (k + 1)). split; [lia|].
    replace (k + 1) with (Z.of_nat (Z.to_nat (k + 1))) at 1 by lia.
    rewrite insert_at_nat by lia. split; [reflexivity|].
    assert (Hge : forall i, (Z.to_nat (k + 1) <= i)%nat -> (i < length kv)%nat -> (u < knot kv i)%R).
    { intros i Hi Hi2. apply Rlt_le_trans with (knot kv (Z.to_nat (k + 1))).
      - apply upper_bound_at; rnorm; lia.
      - apply Hn; lia. }
    split; [|split; auto].
    + intros i Hi. apply upper_bound_below. rnorm; lia.
    + intros i Hi Hi2. apply Rlt_le. auto.
Qed.

Lemma kv_insert_spec kv u : nondecreasing kv -> kv <> [] ->
  exists kv', kv_insert (F := F) kv u = Ok kv' /\ nondecreasing kv' /\ Permutation kv' (u :: kv).
Proof.
  intros Hn Hl.
  destruct (kv_insert_pos kv u Hn) as (n & Hle & E & H1 & H2 & H3).
  { destruct kv; cbn; [contradiction | lia]. }
  eexists; split; [exact E|]. split.
  - apply insert_nondecreasing; auto.
  - apply insert_perm.
Qed.

(* which knot RemoveKnot erases *)
Lemma kv_remove_far kv u : nondecreasing kv -> (first_knot kv <= u)%R -> kv <> [] ->
  ~ near u (final_knot kv) ->
  exists n, (n < length kv)%nat /\ kv_remove (F := F) kv u = Ok (firstn n kv ++ skipn (S n) kv) /\
    (forall i, (i <= n)%nat -> (knot kv i <= u)%R) /\
    (forall i, (n < i)%nat -> (i < length kv)%nat -> (u < knot kv i)%R).
Proof.
  intros Hn Hf Hl0 Hc. assert (Hl : (0 < length kv)%nat) by (destruct kv; cbn; [contradiction | lia]).
  unfold kv_remove.
  destruct (knot_span_cases kv u Hl) as (k & E & Hr & [[C _]|[_ Hk]]); [contradiction|]. rewrite E; cbn [bind].
  destruct (is_last_knot_ok kv u Hl) as (b & Eb & Hb). rewrite Eb. cbn [bind].
  destruct b; [exfalso; now apply Hc, Hb|].
  pose proof (upper_bound_range kv u) as Hu.
  assert (Hpos : 0 < upper_bound (F := F) kv u).
  { destruct (Z.eq_dec (upper_bound (F := F) kv u) 0) as [E0|]; [|lia].
    pose proof (upper_bound_at kv u 0 ltac:(rewrite E0; reflexivity) Hl) as C.
    unfold first_knot, knot in *. lra. }
  unfold zlen in *; rnorm.
  exists (Z.to_nat k). split; [lia|].
  replace k with (Z.of_nat (Z.to_nat k)) at 1 by lia. rewrite erase_at_nat by lia.
  split; [reflexivity|]. split.
  - intros i Hi. apply upper_bound_below. rnorm; lia.
  - intros i Hi Hi2. apply Rlt_le_trans with (knot kv (Z.to_nat (k + 1))).
    + apply upper_bound_at; rnorm; lia.
    + apply Hn; lia.
Qed.

Lemma kv_remove_last kv u : kv <> [] -> near u (final_knot kv) ->
  kv_remove (F := F) kv u = Ok (removelast kv).
Proof.
  intros Hl0 Hc. assert (Hl : (0 < length kv)%nat) by (destruct kv; cbn; [contradiction | lia]).
  unfold kv_remove.
  destruct (knot_span_cases kv u Hl) as (k & E & Hr & _). rewrite E; cbn [bind].
  destruct (is_last_knot_ok kv u Hl) as (b & Eb & Hb). rewrite Eb. cbn [bind].
  destruct b; [|exfalso; apply Hb in Hc; discriminate].
  change (erase_at (F := F) kv (zlen (A := R) kv - 1) = Ok (removelast kv)).
  replace (zlen kv - 1) with (Z.of_nat (length kv - 1)) by (unfold zlen; cbn; lia).
  rewrite erase_at_nat by lia. f_equal.
  rewrite removelast_firstn_len. rewrite skipn_all2 by lia. rewrite app_nil_r. f_equal. lia.
Qed.

Lemma removelast_perm kv : kv <> [] -> Permutation kv (final_knot kv :: removelast kv).
Proof.
  intros H. rewrite (app_removelast_last 0%R H) at 1.
  replace (final_knot kv) with (last kv 0%R).
  - rewrite Permutation_app_comm. reflexivity.
  - unfold final_knot. clear. induction kv as [|a kv IH]; auto. destruct kv as [|b kv]; auto.
    cbn [last] in *. rewrite IH. cbn. rewrite Nat.sub_0_r. reflexivity.
Qed.

Lemma removelast_nondecreasing kv : nondecreasing kv -> nondecreasing (removelast kv).
Proof.
  intros H. destruct kv as [|a kv]; auto.
  rewrite (app_removelast_last (l := a :: kv) 0%R) in H by discriminate.
  now apply nondecreasing_app_inv in H.
Qed.

Lemma kv_remove_spec kv u : nondecreasing kv -> In u kv ->
  (u = final_knot kv \/ ~ near u (final_knot kv)) ->
  exists kv', kv_remove (F := F) kv u = Ok kv' /\ nondecreasing kv' /\ Permutation kv (u :: kv').
Proof.
  intros Hn Hin Hor.
  assert (Hl : kv <> []) by (intros ->; destruct Hin).
  destruct Hor as [->|Hfar].
  - exists (removelast kv). split; [apply kv_remove_last; auto using near_refl|].
    split; [now apply removelast_nondecreasing | now apply removelast_perm].
  - apply (In_nth _ _ 0%R) in Hin as (m & Hm & Em).
    destruct (kv_remove_far kv u Hn) as (n & H1 & E & H2 & H3); auto.
    { rewrite <- Em. apply (first_knot_le kv m Hn Hm). }
    exists (firstn n kv ++ skipn (S n) kv). split; auto. split; [now apply erase_nondecreasing|].
    assert (Hmn : (m <= n)%nat).
    { destruct (le_lt_dec m n) as [|C]; auto. pose proof (H3 m C Hm). unfold knot in *. lra. }
    assert (Hnu : knot kv n = u).
    { pose proof (H2 n (le_n _)). pose proof (Hn m n Hmn H1) as Hmn'. unfold knot in *. lra. }
    rewrite <- Hnu. now apply erase_perm.
Qed.

Lemma kv_remove_absent kv u : nondecreasing kv -> ~ In u kv -> (first_knot kv <= u)%R -> kv <> [] ->
  exists x kv', kv_remove (F := F) kv u = Ok kv' /\ x <> u /\ In x kv /\ Permutation kv (x :: kv').
Proof.
  intros Hn Hni Hf Hl.
  assert (Hl' : (0 < length kv)%nat) by (destruct kv; cbn; [contradiction | lia]).
  assert (Hdec : near u (final_knot kv) \/ ~ near u (final_knot kv)).
  { unfold near. destruct (Rlt_dec (Rabs (u - final_knot kv)) tolerance); auto. }
  destruct Hdec as [Hc|Hc].
  - exists (final_knot kv), (removelast kv). rewrite kv_remove_last by auto.
    assert (Hin : In (final_knot kv) kv) by (apply nth_In; lia).
    repeat split; auto. { intros C; rewrite C in Hin; contradiction. } now apply removelast_perm.
  - destruct (kv_remove_far kv u Hn) as (n & H1 & E & H2 & H3); auto.
    exists (knot kv n), (firstn n kv ++ skipn (S n) kv).
    assert (Hin : In (knot kv n) kv) by (apply nth_In; lia).
    repeat split; auto. { intros C; rewrite C in Hin; contradiction. } now apply erase_perm.
Qed.

Lemma final_knot_app l (x : R) : final_knot (l ++ [x]) = x.
Proof. unfold final_knot. rewrite app_length; cbn. rewrite app_nth2 by lia. replace (length l + 1 - 1 - length l)%nat with 0%nat by lia. reflexivity. Qed.

Lemma insert_remove_id l1 l2 (x : R) : firstn (length l1) (l1 ++ x :: l2) ++ skipn (S (length l1)) (l1 ++ x :: l2) = l1 ++ l2.
Proof.
  rewrite firstn_app, firstn_all, Nat.sub_diag. cbn [firstn]. rewrite app_nil_r. f_equal.
  rewrite skipn_app. rewrite skipn_all2 by lia.
  replace (S (length l1) - length l1)%nat with 1%nat by lia. reflexivity.
Qed.

Lemma nth_insert kv n (x : R) i : (n <= length kv)%nat ->
  nth i (firstn n kv ++ x :: skipn n kv) 0%R =
  if (i <? n)%nat then nth i kv 0%R else if (i =? n)%nat then x else nth (i - 1) kv 0%R.
Proof.
  intros Hn. destruct (Nat.ltb_spec i n) as [Hi|Hi].
  - rewrite app_nth1 by (rewrite firstn_length; lia).
    rewrite <- (firstn_skipn n kv) at 2. rewrite app_nth1 by (rewrite firstn_length; lia). reflexivity.
  - rewrite app_nth2 by (rewrite firstn_length; lia). rewrite firstn_length.
    replace (Nat.min n (length kv)) with n by lia.
    destruct (Nat.eqb_spec i n) as [->|Hne].
    + rewrite Nat.sub_diag. reflexivity.
    + destruct (i - n)%nat as [|m] eqn:E; [lia|]. cbn.
      rewrite <- (firstn_skipn n kv) at 2. rewrite app_nth2 by (rewrite firstn_length; lia).
      rewrite firstn_length. f_equal. lia.
Qed.

Lemma kv_insert_remove kv u : nondecreasing kv -> kv <> [] -> (first_knot kv <= u)%R ->
  (final_knot kv <= u)%R \/ ~ near u (final_knot kv) ->
  (kv' <- kv_insert (F := F) kv u ;; kv_remove (F := F) kv' u)%res = Ok kv.
Proof.
  intros Hn Hl Hf Hor.
  assert (Hl' : (0 < length kv)%nat) by (destruct kv; cbn; [contradiction | lia]).
  destruct (kv_insert_pos kv u Hn Hl') as (n & Hle & E & H1 & H2 & H3).
  rewrite E. cbn [bind]. set (kv' := firstn n kv ++ u :: skipn n kv).
  assert (Hlen : length kv' = S (length kv)).
  { exact (Permutation_length (insert_perm kv n u)). }
  assert (Hne : kv' <> []) by (intros C; rewrite C in Hlen; discriminate).
  assert (Hn' : nondecreasing kv') by (apply insert_nondecreasing; auto).
  assert (Hdec : near u (final_knot kv') \/ ~ near u (final_knot kv')).
  { unfold near. destruct (Rlt_dec (Rabs (u - final_knot kv')) tolerance); auto. }
  assert (Hfin : final_knot kv' = if (n =? length kv)%nat then u else final_knot kv).
  { unfold final_knot at 1. rewrite Hlen. unfold kv'. rewrite nth_insert by auto.
    replace (S (length kv) - 1)%nat with (length kv) by lia.
    destruct (Nat.ltb_spec (length kv) n); [lia|]. rewrite Nat.eqb_sym.
    destruct (Nat.eqb_spec n (length kv)); auto. }
  destruct Hdec as [Hc|Hc].
  - rewrite kv_remove_last by auto. f_equal.
    destruct (Nat.eqb_spec n (length kv)) as [->|Hnl].
    + unfold kv'. rewrite firstn_all, skipn_all. apply removelast_last.
    + (* near the old last knot, n < length: then u = last *)
      rewrite Hfin in Hc. destruct Hor as [Hor|Hor]; [|contradiction].
      assert (Hu : (u <= final_knot kv)%R).
      { unfold final_knot. apply (H2 (length kv - 1)%nat); lia. }
      (* all knots from n on equal u *)
      assert (Hall : forall i, (n <= i)%nat -> (i < length kv)%nat -> knot kv i = u).
      { intros i Hi Hi2. pose proof (H2 i Hi Hi2). pose proof (final_knot_ge kv i Hn Hi2). lra. }
      apply (nth_ext _ _ 0%R 0%R).
      * rewrite removelast_firstn_len, firstn_length, Hlen. lia.
      * intros i Hi. rewrite removelast_firstn_len, firstn_length, Hlen in Hi.
        rewrite removelast_firstn_len. rewrite Hlen.
        replace (nth i (firstn (Nat.pred (S (length kv))) kv') 0%R) with (nth i kv' 0%R).
        2:{ rewrite <- (firstn_skipn (Nat.pred (S (length kv))) kv') at 1. rewrite app_nth1; auto.
            rewrite firstn_length. lia. }
        unfold kv'. rewrite nth_insert by auto.
        destruct (Nat.ltb_spec i n); auto. destruct (Nat.eqb_spec i n) as [->|].
        -- symmetry; apply Hall; lia.
        -- change (knot kv (i - 1) = knot kv i). rewrite !Hall by lia. reflexivity.
  - destruct (kv_remove_far kv' u Hn') as (m & Hm & Em & Hm1 & Hm2); auto.
    { unfold first_knot, kv'. rewrite nth_insert by auto.
      destruct (Nat.ltb_spec 0 n); auto. destruct (Nat.eqb_spec 0 n); [lra | lia]. }
    rewrite Em. f_equal.
    assert (m = n).
    { destruct (Nat.lt_trichotomy m n) as [C|[C|C]]; auto; exfalso.
      - pose proof (Hm2 n C ltac:(lia)) as X. unfold knot, kv' in X. rewrite nth_insert in X by auto.
        destruct (Nat.ltb_spec n n); [lia|]. rewrite Nat.eqb_refl in X. lra.
      - pose proof (Hm1 m (le_n _)) as X. unfold knot, kv' in X. rewrite nth_insert in X by auto.
        destruct (Nat.ltb_spec m n); [lia|]. destruct (Nat.eqb_spec m n); [lia|].
        destruct (Nat.eqb_spec n (length kv)) as [->|Hnl].
        + lia.
        + rewrite Hfin in Hc. pose proof (H3 Hc (m - 1)%nat ltac:(lia) ltac:(lia)). unfold knot in *. lra. }
    subst m. unfold kv'.
    pose proof (insert_remove_id (firstn n kv) (skipn n kv) u) as X.
    rewrite firstn_length in X. replace (Nat.min n (length kv)) with n in X by lia.
    rewrite X. apply firstn_skipn.
Qed.

(* ---- counting ---- *)
Lemma multiplicity_occ kv u : multiplicity (F := F) kv u = Z.of_nat (occurrences kv u).
Proof.
  unfold occurrences. induction kv as [|x kv IH]; cbn [multiplicity count_occ]; auto.
  rnorm. destruct (Reqb_spec x u) as [E|E]; destruct (Req_EM_T x u) as [E'|E']; try contradiction; rnorm; lia.
Qed.

Lemma num_different_distinct kv : nondecreasing kv -> kv <> [] ->
  num_different (F := F) kv = Z.of_nat (distinct_values kv).
Proof.
  unfold num_different, distinct_values.
  induction kv as [|x kv IH]; intros Hn Hne; [contradiction|].
  destruct kv as [|y kv].
  - reflexivity.
  - specialize (IH (nondecreasing_tail _ _ Hn) ltac:(discriminate)).
    cbn [ascents] in *. remember (y :: kv) as l eqn:El.
    assert (Hxy : (x <= y)%R) by (apply (nondecreasing_head x l); subst; auto; now left).
    cbn [nodup]. destruct (in_dec Req_EM_T x l) as [Hin|Hin].
    + assert (x = y).
      { subst l. destruct Hin as [C|C]; auto.
        pose proof (nondecreasing_head _ _ _ (nondecreasing_tail _ _ Hn) C). lra. }
      cbn [length]; rnorm. destruct (Rltb_spec x y) as [C|C]; [lra|]. rnorm; lia.
    + assert (x <> y) by (intros ->; apply Hin; subst; now left).
      cbn [length]; rnorm. destruct (Rltb_spec x y) as [C|C]; [|lra]. rnorm; lia.
Qed.

(* unique_copy of a non-decreasing vector: strictly increasing, same values *)
Lemma unique_copy_head (x : R) kv : exists r, unique_copy (F := F) (x :: kv) = x :: r.
Proof.
  cbn. destruct kv as [|y kv]; [eauto|].
  destruct (Reqb x y); [|eauto].
  destruct (unique_copy (F := F) (y :: kv)) as [|z r]; eauto.
Qed.

Lemma unique_copy_In kv (x : R) : In x (unique_copy (F := F) kv) <-> In x kv.
Proof.
  induction kv as [|a kv IH]; [reflexivity|].
  destruct kv as [|b kv]; [reflexivity|].
  destruct (unique_copy_head b kv) as (r & Er).
  cbn [unique_copy] in Er |- *. cbn [unique_copy] in IH. change (neqb (n:=F) a b) with (Reqb a b).
  rewrite Er in *.
  destruct (Reqb_spec a b) as [->|Hab].
  - rewrite IH. cbn. tauto.
  - change (a = x \/ In x (b :: r) <-> a = x \/ In x (b :: kv)). rewrite IH. tauto.
Qed.

Lemma unique_copy_NoDup kv : nondecreasing kv -> NoDup (unique_copy (F := F) kv).
Proof.
  induction kv as [|a kv IH]; intros Hn; [constructor|].
  specialize (IH (nondecreasing_tail _ _ Hn)).
  destruct kv as [|b kv]; [repeat constructor; intros []|].
  destruct (unique_copy_head b kv) as (r & Er).
  pose proof (unique_copy_In (b :: kv)) as Hin. rewrite Er in Hin, IH.
  cbn [unique_copy] in Er |- *. change (neqb (n:=F) a b) with (Reqb a b).
  rewrite Er in *.
  destruct (Reqb_spec a b) as [->|Hab]; auto.
  constructor; auto. rewrite Hin. intros C.
  assert (a <= b)%R by (apply (nondecreasing_head a (b :: kv)); auto; now left).
  pose proof (nondecreasing_tail _ _ Hn) as Hn2.
  destruct C as [C|C]; [congruence|].
  pose proof (nondecreasing_head _ _ _ Hn2 C). lra.
Qed.

Lemma unique_copy_nondecreasing kv : nondecreasing kv -> nondecreasing (unique_copy (F := F) kv).
Proof.
  induction kv as [|a kv IH]; intros Hn; [exact Hn|].
  specialize (IH (nondecreasing_tail _ _ Hn)).
  destruct kv as [|b kv]; [exact Hn|].
  destruct (unique_copy_head b kv) as (r & Er).
  pose proof (unique_copy_In (b :: kv)) as Hin. rewrite Er in Hin, IH.
  cbn [unique_copy] in Er |- *. change (neqb (n:=F) a b) with (Reqb a b).
  rewrite Er in *.
  destruct (Reqb_spec a b) as [->|Hab]; auto.
  apply nondecreasing_cons; auto. intros y Hy. apply Hin in Hy. eapply nondecreasing_head; eauto.
Qed.

Lemma unique_copy_length kv : nondecreasing kv -> length (unique_copy (F := F) kv) = distinct_values kv.
Proof.
  intros Hn. unfold distinct_values. apply Permutation_length.
  apply NoDup_Permutation; [now apply unique_copy_NoDup | apply NoDup_nodup |].
  intros x. rewrite unique_copy_In. symmetry; apply nodup_In.
Qed.

End KV.
