(* Lemmas closing the theorems of P_KnotVec.v. *)
From Coq Require Import ZArith List Bool Lia Reals Lra Permutation.
From Verif Require Import Base BaseFacts KnotVec KnotVecSpec KnotVecFacts.
Import ListNotations.
Open Scope Z_scope.

Lemma span_brackets : forall dz kv u,
  nondecreasing kv -> (first_knot kv <= u <= final_knot kv)%R ->
  (~ near u (final_knot kv) ->
     exists k, knot_span (F := Rops dz) kv u = Ok (Z.of_nat k) /\ (S k < length kv)%nat /\
               (knot kv k <= u < knot kv (S k))%R) /\
  (near u (final_knot kv) -> (first_knot kv < u)%R ->
     exists k, knot_span (F := Rops dz) kv u = Ok (Z.of_nat k) /\ (S k < length kv)%nat /\
               (knot kv k < u <= knot kv (S k))%R) /\
  (u = final_knot kv -> (first_knot kv < u)%R ->
     exists k, knot_span (F := Rops dz) kv u = Ok (Z.of_nat k) /\ (S k < length kv)%nat /\
               (knot kv k < final_knot kv)%R /\ knot kv (S k) = final_knot kv).
Proof.
  intros dz kv u Hn [H1 H2]. split; [|split].
  - intros Hc. destruct (Rle_lt_or_eq_dec _ _ H2) as [H3|H3].
    + destruct (knot_span_inside dz kv u H1 H3 Hc) as (k & E & Hk & Hk1 & Hk2). eauto.
    + subst u. exfalso. apply Hc, near_refl.
  - intros Hc Hf. destruct (knot_span_last dz kv u Hf H2 Hc) as (k & E & Hk & Hk1 & Hk2). eauto.
  - intros -> Hf. destruct (knot_span_last dz kv _ Hf H2 (near_refl _)) as (k & E & Hk & Hk1 & Hk2).
    exists k. repeat split; auto. pose proof (final_knot_ge kv (S k) Hn ltac:(lia)). lra.
Qed.

Lemma nondec_by_list (l : list R) : (forall i, (S i < length l)%nat -> (nth i l 0 <= nth (S i) l 0)%R) -> nondecreasing l.
Proof.
  intros H i j Hij Hj. unfold knot. induction Hij as [|j Hij IH]; [lra|].
  eapply Rle_trans; [apply IH; lia|]. apply H; lia.
Qed.

Ltac nondec := apply nondec_by_list; cbn [length]; intros [|[|[|[|[|[|[|[|[|[|i]]]]]]]]]] Hi; cbn; try lra; lia.

Lemma tolerance_lt : (tolerance < / 100)%R.
Proof. unfold tolerance. lra. Qed.

Lemma span_brackets_ex :
  nondecreasing [0; 0; 1; 2; 2]%R /\
  (first_knot [0; 0; 1; 2; 2]%R <= 2 <= final_knot [0; 0; 1; 2; 2]%R)%R /\
  (first_knot [0; 0; 1; 2; 2]%R < 2)%R /\ near 2 (final_knot [0; 0; 1; 2; 2]%R).
Proof.
  split; [nondec|]. unfold first_knot, final_knot; cbn. split; [lra|]. split; [lra|]. apply near_refl.
Qed.

Lemma kv_edit_ex :
  nondecreasing [0; 0; 1; 2; 2]%R /\ In 1%R [0; 0; 1; 2; 2]%R /\ ~ near 1 (final_knot [0; 0; 1; 2; 2]%R) /\
  ~ In (3/2)%R [0; 0; 1; 2; 2]%R /\ (first_knot [0; 0; 1; 2; 2]%R <= 3/2)%R.
Proof.
  split; [nondec|]. unfold first_knot, final_knot, near; cbn. split; [tauto|]. split; [|split].
  - rewrite Rabs_left by lra. pose proof tolerance_lt. lra.
  - intros H. repeat (destruct H as [H|H]; [lra|]). exact H.
  - lra.
Qed.

Ltac reals_dec := repeat match goal with
  | |- context [Req_EM_T ?a ?b] => destruct (Req_EM_T a b); try lra
  end; try reflexivity.

Lemma kv_count_ex :
  nondecreasing [0; 0; 1; 2; 2]%R /\ occurrences [0; 0; 1; 2; 2]%R 2 = 2%nat /\
  distinct_values [0; 0; 1; 2; 2]%R = 3%nat.
Proof.
  split; [nondec|]. unfold occurrences, distinct_values. split.
  - cbn. reals_dec.
  - cbn [nodup].
    repeat match goal with |- context [in_dec Req_EM_T ?a ?l] =>
      let H := fresh in
      destruct (in_dec Req_EM_T a l) as [H|H];
      [try (exfalso; repeat (destruct H as [H|H]; [lra|]); exact H); clear H
      |try (exfalso; apply H; cbn; tauto); clear H] end;
    reflexivity.
Qed.
