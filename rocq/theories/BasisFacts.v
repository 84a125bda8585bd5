(* The model of the basis functions over the reals agrees with the mathematics. *)
From Coq Require Import ZArith List Bool Lia Reals Lra.
From Verif Require Import Base BaseFacts KnotVec KnotVecSpec KnotVecFacts Basis BasisSpec RSum BSplineTheory.
Import ListNotations.
Open Scope Z_scope.

(* knots continued constantly to both sides *)
Definition tk (kv : list R) (j : Z) : R := nth (Z.to_nat (Z.min j (zlen kv - 1))) kv 0%R.

Lemma tk_knot kv i : (i < length kv)%nat -> tk kv (Z.of_nat i) = knot kv i.
Proof. intros H. unfold tk, knot, zlen. f_equal. lia. Qed.

Lemma tk_knot' kv j : 0 <= j < zlen kv -> tk kv j = knot kv (Z.to_nat j).
Proof. intros H. unfold tk, knot. f_equal. lia. Qed.

Lemma tk_last kv : tk kv (zlen kv - 1) = final_knot kv.
Proof. unfold tk, final_knot, zlen. f_equal. lia. Qed.

Lemma tk_monotone kv : nondecreasing kv -> monotone (tk kv).
Proof.
  intros Hn i j Hij. unfold tk. destruct kv as [|x kv].
  - destruct (Z.to_nat _); destruct (Z.to_nat _); cbn; lra.
  - apply Hn; unfold zlen; cbn [length]; lia.
Qed.

Lemma tk_le_final kv j : nondecreasing kv -> (tk kv j <= final_knot kv)%R.
Proof.
  intros Hn. rewrite <- tk_last. unfold tk. destruct kv as [|x kv].
  - destruct (Z.to_nat _); destruct (Z.to_nat _); cbn; lra.
  - apply Hn; unfold zlen; cbn [length]; lia.
Qed.

Lemma tk_ge_first kv j : nondecreasing kv -> (first_knot kv <= tk kv j)%R.
Proof.
  intros Hn. unfold tk, first_knot. destruct kv as [|x kv].
  - destruct (Z.to_nat _); cbn; lra.
  - apply (Hn 0%nat); unfold zlen; cbn [length]; lia.
Qed.

Lemma separated_tk kv i j : separated kv -> nondecreasing kv ->
  (tk kv i < tk kv j)%R -> (tk kv i + tolerance <= tk kv j)%R.
Proof.
  intros Hs Hn H. destruct kv as [|x kv].
  - unfold tk in H. destruct (Z.to_nat (Z.min i _)); destruct (Z.to_nat (Z.min j _)); cbn in H; lra.
  - apply Hs; auto; unfold zlen; cbn [length]; lia.
Qed.

Lemma near_tk_eq kv i j : separated kv -> nondecreasing kv ->
  near (tk kv i) (tk kv j) -> tk kv i = tk kv j.
Proof.
  intros Hs Hn H. unfold near in H.
  destruct (Rtotal_order (tk kv i) (tk kv j)) as [C|[C|C]]; auto; exfalso.
  - pose proof (separated_tk kv i j Hs Hn C). rewrite Rabs_left in H by lra. lra.
  - pose proof (separated_tk kv j i Hs Hn C). rewrite Rabs_right in H by lra. lra.
Qed.

(* the span that evaluation at u uses *)
Definition in_span (kv : list R) (k : Z) (u : R) : Prop :=
  0 <= k /\ k + 1 < zlen kv /\ (tk kv k < tk kv (k + 1))%R /\ (tk kv k <= u)%R /\
  ((u < tk kv (k + 1))%R \/ (u = tk kv (k + 1) /\ u = final_knot kv)).

Lemma in_span_unique kv k k' u : nondecreasing kv -> in_span kv k u -> in_span kv k' u -> k = k'.
Proof.
  intros Hn (A1 & A2 & A3 & A4 & A5) (B1 & B2 & B3 & B4 & B5).
  destruct (Z.lt_trichotomy k k') as [C|[C|C]]; auto; exfalso.
  - pose proof (tk_monotone kv Hn (k + 1) k' ltac:(lia)).
    pose proof (tk_le_final kv (k' + 1) Hn). destruct A5 as [A5|[A5 A6]]; lra.
  - pose proof (tk_monotone kv Hn (k' + 1) k ltac:(lia)).
    pose proof (tk_le_final kv (k + 1) Hn). destruct B5 as [B5|[B5 B6]]; lra.
Qed.

Section BF.
Variable dz : R -> R.
Local Notation F := (Rops dz).

Lemma knot_span_in_span kv u : nondecreasing kv -> separated kv ->
  (first_knot kv < final_knot kv)%R -> (first_knot kv <= u <= final_knot kv)%R ->
  exists k, knot_span (F := F) kv u = Ok k /\ in_span kv k u.
Proof.
  intros Hn Hs Hne [H1 H2].
  assert (Hdec : near u (final_knot kv) \/ ~ near u (final_knot kv)).
  { unfold near. destruct (Rlt_dec (Rabs (u - final_knot kv)) tolerance); auto. }
  destruct Hdec as [Hc|Hc].
  - assert (Hlen : (0 < length kv)%nat).
    { destruct kv; cbn; [|lia]. unfold first_knot, final_knot in Hne; cbn in Hne. lra. }
    assert (Hf : (first_knot kv < u)%R).
    { destruct (Rle_lt_or_eq_dec _ _ H1) as [|E]; auto. rewrite <- E in Hc. exfalso.
      rewrite <- tk_last in *.
      assert (E0 : first_knot kv = tk kv 0).
      { unfold first_knot. rewrite (tk_knot' kv 0) by (unfold zlen; lia). reflexivity. }
      rewrite E0 in *. apply near_tk_eq in Hc; auto. lra. }
    destruct (knot_span_last dz kv u Hf H2 Hc) as (k & E & Hk & Hk1 & Hk2).
    exists (Z.of_nat k). split; auto.
    unfold in_span. replace (Z.of_nat k + 1) with (Z.of_nat (S k)) by lia. rewrite !tk_knot by lia.
    assert (Hup : knot kv (S k) = final_knot kv).
    { pose proof (final_knot_ge kv (S k) Hn ltac:(lia)).
      rewrite <- (tk_knot kv (S k)) in * by lia. rewrite <- tk_last in *. apply near_tk_eq; auto.
      unfold near in *. rewrite Rabs_left1 in Hc by lra. rewrite Rabs_left1 by lra. lra. }
    unfold zlen. repeat split; try lia; try lra.
  - destruct (Rle_lt_or_eq_dec _ _ H2) as [H3|H3].
    2:{ subst u. exfalso. apply Hc, near_refl. }
    destruct (knot_span_inside dz kv u H1 H3 Hc) as (k & E & Hk & Hk1 & Hk2).
    exists (Z.of_nat k). split; auto.
    unfold in_span. replace (Z.of_nat k + 1) with (Z.of_nat (S k)) by lia. rewrite !tk_knot by lia.
    unfold zlen. repeat split; try lia; try lra.
Qed.

(* the objects built by CreateDynamic *)
Fixpoint mkbf (kv : list R) (i : Z) (p : nat) : bf F :=
  let s := tk kv i in
  let e := tk kv (i + Z.of_nat p + 1) in
  let l := num_are_equal (F := F) kEpsilon e (final_knot kv) in
  match p with
  | O => BF0 (F := F) s e l
  | S q => BFS (F := F) (Z.of_nat p) s e l
               (inverse_or_zero (F := F) (tk kv (i + Z.of_nat p) - s)%R)
               (inverse_or_zero (F := F) (e - tk kv (i + 1))%R)
               (mkbf kv i q) (mkbf kv (i + 1) q)
  end.

Lemma get_knot_tk kv i : 0 <= i < zlen kv -> get_knot (F := F) kv i = Ok (tk kv i).
Proof.
  intros H. rewrite tk_knot' by auto. exact (vget_nth (A := R) kv i 0%R H).
Qed.

Lemma create_nat_ok kv p i : 0 <= i -> i + Z.of_nat p + 1 < zlen kv ->
  create_nat (F := F) kv i p = Ok (mkbf kv i p).
Proof.
  revert i; induction p as [|q IH]; intros i H0 H1.
  - cbn [create_nat mkbf]. rewrite !get_knot_tk by (rnorm; lia). cbn [bind].
    unfold is_last_knot. rewrite last_knot_ok by (unfold zlen in *; rnorm; lia). reflexivity.
  - cbn [create_nat]. rewrite !get_knot_tk by (rnorm; lia). cbn [bind].
    unfold is_last_knot. rewrite last_knot_ok by (unfold zlen in *; rnorm; lia). cbn [bind].
    rewrite !IH by (rnorm; lia). reflexivity.
Qed.

Lemma create_dynamic_ok kv p i : 0 <= p -> 0 <= i -> i + p + 1 < zlen kv ->
  create_dynamic (F := F) kv i p = Ok (mkbf kv i (Z.to_nat p)).
Proof.
  intros Hp Hi H. unfold create_dynamic. destruct (Z.ltb_spec p 0); [lia|].
  apply create_nat_ok; lia.
Qed.

Definition mkbfs (kv : list R) (p : Z) : list (bf F) :=
  map (fun i => mkbf kv i (Z.to_nat p)) (zseq 0 (Z.to_nat (zlen kv - p - 1))).

Lemma create_all_ok kv p : 0 <= p -> p + 1 <= zlen kv -> create_all (F := F) kv p = Ok (mkbfs kv p).
Proof.
  intros Hp H. unfold create_all. rnorm. destruct (Z.ltb_spec (zlen kv - p - 1) 0); [lia|].
  apply mapM_ok. intros i Hi. apply zseq_In in Hi. apply create_dynamic_ok; rnorm; lia.
Qed.

Lemma mkbfs_length kv p : length (mkbfs kv p) = Z.to_nat (zlen kv - p - 1).
Proof. unfold mkbfs. now rewrite map_length, zseq_length. Qed.

Lemma mkbfs_get kv p i : 0 <= i < zlen kv - p - 1 -> vget (mkbfs kv p) i = Ok (mkbf kv i (Z.to_nat p)).
Proof.
  intros H. rewrite (vget_nth _ i (mkbf kv 0 0)).
  - unfold mkbfs. rewrite (nth_map_in _ _ _ 0) by (rewrite zseq_length; lia).
    rewrite zseq_nth by lia. do 2 f_equal. lia.
  - unfold zlen at 1. rewrite mkbfs_length. lia.
Qed.

Lemma inverse_or_zero_R d : inverse_or_zero (F := F) d = if Rlt_dec (Rabs d) tolerance then 0%R else (/ d)%R.
Proof.
  unfold inverse_or_zero. rewrite (kEpsilon_R dz). cbn [nabs nltb n0 n1 Rops]. unfold Rltb.
  change epsR with tolerance. destruct (Rlt_dec (Rabs d) tolerance) as [H|H]; auto.
  rewrite ndiv_R; [unfold Rdiv; now rewrite Rmult_1_l|].
  intros ->. rewrite Rabs_R0 in H. pose proof tolerance_pos. lra.
Qed.

(* on separated vectors the tolerance test is a test for zero *)
Lemma inverse_sep kv i j x : separated kv -> nondecreasing kv -> (i <= j) ->
  (x * inverse_or_zero (F := F) (tk kv j - tk kv i) = quot0 x (tk kv j - tk kv i))%R.
Proof.
  intros Hs Hn Hij. rewrite inverse_or_zero_R. unfold quot0.
  destruct (Rlt_dec _ _) as [H|H]; destruct (Req_EM_T _ _) as [E|E]; try lra.
  - exfalso. apply E. rewrite (near_tk_eq kv j i); auto; lra.
  - exfalso. rewrite E, Rabs_R0 in H. pose proof tolerance_pos. lra.
Qed.

Lemma is_last_tk kv i : separated kv -> nondecreasing kv ->
  (num_are_equal (F := F) kEpsilon (tk kv i) (final_knot kv) = true <-> tk kv i = final_knot kv).
Proof.
  intros Hs Hn. rewrite near_are_equal. split; intros H.
  - rewrite <- tk_last in *. now apply near_tk_eq.
  - rewrite H. apply near_refl.
Qed.

Lemma in_support_spec (s e : R) l (u : R) :
  in_support (F := F) s e l u = true <-> ((s <= u < e)%R \/ (l = true /\ u = e)).
Proof.
  unfold in_support. cbn [nleb nltb neqb Rops].
  rewrite orb_true_iff, !andb_true_iff, Rleb_true, Rltb_true, Reqb_true. tauto.
Qed.

Lemma in_support_mk kv i j u : separated kv -> nondecreasing kv ->
  (in_support (F := F) (tk kv i) (tk kv j) (num_are_equal (F := F) kEpsilon (tk kv j) (final_knot kv)) u = true
   <-> ((tk kv i <= u < tk kv j)%R \/ (u = tk kv j /\ u = final_knot kv))).
Proof.
  intros Hs Hn. rewrite in_support_spec, is_last_tk by auto. split; intros [H|[H1 H2]]; try tauto.
  - right; split; congruence.
  - right; split; congruence.
Qed.

(* ---- C07: the Cox-de Boor functions ---- *)
Lemma cox_zero kv p i u : nondecreasing kv -> (i + p + 1 < length kv)%nat ->
  (u < knot kv i)%R \/ (knot kv (i + p + 1) < u)%R \/ (u = knot kv (i + p + 1) /\ u <> final_knot kv) ->
  cox_de_boor kv p i u = 0%R.
Proof.
  intros Hn. revert i; induction p as [|q IH]; intros i Hl Hu.
  - cbn. destruct (in_piece_dec kv i u) as [H|H]; auto. exfalso.
    replace (i + 0 + 1)%nat with (S i) in Hu by lia.
    destruct H as [H|(H1 & H2 & H3)]; destruct Hu as [Hu|[Hu|[Hu1 Hu2]]]; lra.
  - cbn [cox_de_boor].
    pose proof (Hn i (i + 1)%nat ltac:(lia) ltac:(lia)).
    pose proof (Hn (i + q + 1)%nat (i + S q + 1)%nat ltac:(lia) ltac:(lia)).
    assert (E1 : cox_de_boor kv q i u = 0%R).
    { apply IH; [lia|]. destruct Hu as [Hu|[Hu|[Hu1 Hu2]]]; [left; lra | right; left; lra |].
      destruct (Req_EM_T (knot kv (i + q + 1)) u); [right; right; split; auto | right; left; lra]. }
    assert (E2 : cox_de_boor kv q (i + 1) u = 0%R).
    { apply IH; [lia|]. replace (i + 1 + q + 1)%nat with (i + S q + 1)%nat by lia.
      destruct Hu as [Hu|[Hu|[Hu1 Hu2]]]; [left; lra | right; left; lra | right; right; auto]. }
    rewrite E1, E2. lra.
Qed.

Lemma bf_eval_cox kv p i u : nondecreasing kv -> separated kv -> (i + p + 1 < length kv)%nat ->
  (1 <= p)%nat \/ (knot kv i < knot kv (S i))%R \/ u <> final_knot kv ->
  bf_eval (mkbf kv (Z.of_nat i) p) u = cox_de_boor kv p i u.
Proof.
  intros Hn Hs. revert i; induction p as [|q IH]; intros i Hl Hq.
  - cbn [mkbf bf_eval cox_de_boor].
    replace (Z.of_nat i + Z.of_nat 0 + 1) with (Z.of_nat (S i)) by lia.
    pose proof (in_support_mk kv (Z.of_nat i) (Z.of_nat (S i)) u Hs Hn) as Hiff.
    rewrite !tk_knot in * by lia.
    destruct (in_support _ _ _ _); destruct (in_piece_dec kv i u) as [H|H]; auto; exfalso.
    + apply H. pose proof (Hn i (S i) ltac:(lia) ltac:(lia)). unfold in_piece.
      destruct (proj1 Hiff eq_refl) as [?|[? ?]]; [left; lra | right].
      destruct Hq as [?|[?|?]]; [lia | | contradiction]. repeat split; auto; lra.
    + enough (X : false = true) by discriminate. apply Hiff.
      destruct H as [H|(H1 & H2 & H3)]; [left; auto | right; auto].
  - cbn [mkbf bf_eval].
    replace (Z.of_nat i + Z.of_nat (S q) + 1) with (Z.of_nat (i + S q + 1)) by lia.
    replace (Z.of_nat i + Z.of_nat (S q)) with (Z.of_nat (i + S q)) by lia.
    replace (Z.of_nat i + 1) with (Z.of_nat (i + 1)) by lia.
    pose proof (in_support_mk kv (Z.of_nat i) (Z.of_nat (i + S q + 1)) u Hs Hn) as Hiff.
    destruct (in_support _ _ _ _).
    + cbn [nadd nsub nmul Rops]. rewrite !inverse_sep by (auto; lia).
      cbn [cox_de_boor]. rewrite !tk_knot by lia. unfold quot0, quotient.
      f_equal.
      * destruct (Req_EM_T _ 0); [lra|]. f_equal. apply IH; [lia|].
        destruct q; [right; left | left; lia].
        pose proof (Hn i (S i) ltac:(lia) ltac:(lia)). replace (i + 1)%nat with (S i) in * by lia. lra.
      * destruct (Req_EM_T _ 0); [lra|]. f_equal. apply IH; [lia|].
        destruct q; [right; left | left; lia].
        pose proof (Hn (i + 1)%nat (S (i + 1)) ltac:(lia) ltac:(lia)).
        replace (i + 1 + 1)%nat with (S (i + 1)) in * by lia. lra.
    + symmetry. apply cox_zero; auto.
      assert (Hno : ~ ((tk kv (Z.of_nat i) <= u < tk kv (Z.of_nat (i + S q + 1)))%R \/
                       (u = tk kv (Z.of_nat (i + S q + 1)) /\ u = final_knot kv))).
      { intros C. apply Hiff in C. discriminate. }
      rewrite !tk_knot in Hno by lia.
      destruct (Rlt_dec u (knot kv i)); [auto|]. right.
      destruct (Rlt_dec (knot kv (i + S q + 1)) u); [auto|]. right.
      destruct (Req_EM_T u (knot kv (i + S q + 1))) as [E|E].
      * split; auto.
      * exfalso. apply Hno. left. lra.
Qed.

(* ---- relation to the pieces ---- *)
Lemma support_active kv k u i p : nondecreasing kv -> in_span kv k u -> 0 <= i -> i + Z.of_nat p + 1 < zlen kv ->
  (i <= k <= i + Z.of_nat p) ->
  (tk kv i <= u < tk kv (i + Z.of_nat p + 1))%R \/ (u = tk kv (i + Z.of_nat p + 1) /\ u = final_knot kv).
Proof.
  intros Hn (A1 & A2 & A3 & A4 & A5) H0 H1 H2.
  pose proof (tk_monotone kv Hn i k ltac:(lia)).
  pose proof (tk_monotone kv Hn (k + 1) (i + Z.of_nat p + 1) ltac:(lia)).
  pose proof (tk_le_final kv (i + Z.of_nat p + 1) Hn).
  destruct A5 as [A5|[A5 A6]]; [left; lra | right; split; lra].
Qed.

Lemma support_inactive kv k u i p : nondecreasing kv -> in_span kv k u -> 0 <= i -> i + Z.of_nat p + 1 < zlen kv ->
  ~ (i <= k <= i + Z.of_nat p) ->
  (tk kv i <= u < tk kv (i + Z.of_nat p + 1))%R \/ (u = tk kv (i + Z.of_nat p + 1) /\ u = final_knot kv) ->
  tk kv i = final_knot kv /\ u = final_knot kv.
Proof.
  intros Hn (A1 & A2 & A3 & A4 & A5) H0 H1 H2 H3.
  pose proof (tk_le_final kv i Hn). pose proof (tk_le_final kv (i + Z.of_nat p + 1) Hn).
  destruct (Z_lt_dec k i) as [C|C].
  - pose proof (tk_monotone kv Hn (k + 1) i ltac:(lia)).
    destruct A5 as [A5|[A5 A6]]; [|split; lra].
    destruct H3 as [H3|[H3 H3']]; [lra|]. pose proof (tk_monotone kv Hn (i) (i + Z.of_nat p + 1) ltac:(lia)).
    pose proof (tk_le_final kv (k + 1) Hn). lra.
  - pose proof (tk_monotone kv Hn (i + Z.of_nat p + 1) k ltac:(lia)).
    pose proof (tk_le_final kv (k + 1) Hn). destruct H3 as [H3|[H3 H3']]; lra.
Qed.


Lemma bf_eval_piece kv k p i u : nondecreasing kv -> separated kv -> in_span kv k u ->
  0 <= i -> i + Z.of_nat p + 1 < zlen kv ->
  (1 <= p)%nat \/ (tk kv i < tk kv (i + 1))%R ->
  bf_eval (mkbf kv i p) u = B (tk kv) k p i u.
Proof.
  intros Hn Hs Hsp. pose proof (tk_monotone kv Hn) as Ht.
  revert i; induction p as [|q IH]; intros i H0 H1 Hq.
  - cbn [mkbf bf_eval].
    pose proof (in_support_mk kv i (i + Z.of_nat 0 + 1) u Hs Hn) as Hiff.
    destruct (in_support _ _ _ _).
    + assert (Ha : i <= k <= i + Z.of_nat 0).
      { destruct (Z_le_dec i k) as [C1|C1]; [destruct (Z_le_dec k (i + Z.of_nat 0)) as [C2|C2]; [lia|]|];
        exfalso; destruct (support_inactive kv k u i 0 Hn Hsp H0 H1 ltac:(lia) (proj1 Hiff eq_refl)) as [E1 E2];
        destruct Hq as [Hq|Hq]; try lia; pose proof (tk_le_final kv (i + 1) Hn); lra. }
      cbn. destruct (Z.eq_dec i k); [reflexivity | lia].
    + cbn. destruct (Z.eq_dec i k) as [->|]; [|reflexivity]. exfalso.
      enough (X : false = true) by discriminate. apply Hiff. apply (support_active kv k u k 0); auto; lia.
  - cbn [mkbf bf_eval].
    pose proof (in_support_mk kv i (i + Z.of_nat (S q) + 1) u Hs Hn) as Hiff.
    destruct (in_support _ _ _ _).
    + cbn [nadd nsub nmul Rops]. rewrite !inverse_sep by (auto; lia). cbn [B].
      unfold quot0. f_equal.
      * destruct (Req_EM_T _ 0); [lra|]. f_equal. apply IH; try lia.
        destruct q; [right | left; lia]. pose proof (Ht i (i + 1) ltac:(lia)).
        change (Z.of_nat 1) with 1 in *. lra.
      * destruct (Req_EM_T _ 0); [lra|]. f_equal. apply IH; try lia.
        destruct q; [right | left; lia]. pose proof (Ht (i + 1) (i + 1 + 1) ltac:(lia)).
        change (Z.of_nat 1) with 1 in *. lra.
    + symmetry. apply (B_outside). intros Ha.
      enough (X : false = true) by discriminate. apply Hiff. apply (support_active kv k u); auto; lia.
Qed.

Lemma bf_deriv_S b u m : 0 < m ->
  bf_deriv (F := F) b u m = match b with
       | BF0 _ _ _ => 0%R
       | BFS degree s e l ldi rdi lo_left lo_right =>
           if in_support s e l u
           then (IZR degree * (ldi * bf_deriv lo_left u (m - 1) - rdi * bf_deriv lo_right u (m - 1)))%R
           else 0%R
       end.
Proof. intros H. destruct b; cbn [bf_deriv]; destruct (Z.eqb_spec m 0); try lia; reflexivity. Qed.

Lemma bf_deriv_0 b u : bf_deriv (F := F) b u 0 = bf_eval b u.
Proof. destruct b; reflexivity. Qed.

Lemma bf_deriv_piece kv k m p i u : nondecreasing kv -> separated kv -> in_span kv k u ->
  0 <= i -> i + Z.of_nat p + 1 < zlen kv ->
  (1 <= p)%nat \/ (1 <= m)%nat \/ (tk kv i < tk kv (i + 1))%R ->
  bf_deriv (mkbf kv i p) u (Z.of_nat m) = DB (tk kv) k m p i u.
Proof.
  intros Hn Hs Hsp. pose proof (tk_monotone kv Hn) as Ht.
  revert p i; induction m as [|m IH]; intros p i H0 H1 Hq.
  - rewrite bf_deriv_0. apply bf_eval_piece; auto. destruct Hq as [?|[?|?]]; auto; lia.
  - rewrite bf_deriv_S by lia. destruct p as [|q]; [reflexivity|].
    cbn [mkbf]. replace (Z.of_nat (S m) - 1) with (Z.of_nat m) by lia.
    pose proof (in_support_mk kv i (i + Z.of_nat (S q) + 1) u Hs Hn) as Hiff.
    destruct (in_support _ _ _ _).
    + rewrite <- INR_IZR_INZ.
      rewrite (Rmult_comm (inverse_or_zero (F := F) (tk kv (i + Z.of_nat (S q)) - tk kv i)%R)).
      rewrite (Rmult_comm (inverse_or_zero (F := F) (tk kv (i + Z.of_nat (S q) + 1) - tk kv (i + 1))%R)).
      rewrite !inverse_sep by (auto; lia). cbn [DB]. unfold quot0. f_equal. f_equal.
      * destruct (Req_EM_T _ 0); [lra|]. f_equal. apply IH; try lia.
        destruct q; [right | left; lia]. right. pose proof (Ht i (i + 1) ltac:(lia)).
        change (Z.of_nat 1) with 1 in *. lra.
      * destruct (Req_EM_T _ 0); [lra|]. f_equal. apply IH; try lia.
        destruct q; [right | left; lia]. right. pose proof (Ht (i + 1) (i + 1 + 1) ltac:(lia)).
        change (Z.of_nat 1) with 1 in *. lra.
    + symmetry. apply (DB_outside). intros Ha.
      enough (X : false = true) by discriminate. apply Hiff. apply (support_active kv k u); auto; lia.
Qed.

(* outside the knot range everything vanishes *)
Lemma bf_deriv_out kv m p i u : nondecreasing kv -> separated kv ->
  0 <= i -> i + Z.of_nat p + 1 < zlen kv -> 0 <= m ->
  (u < first_knot kv)%R \/ (final_knot kv < u)%R ->
  bf_deriv (mkbf kv i p) u m = 0%R.
Proof.
  intros Hn Hs Hi Hl Hm Hu.
  assert (Hno : forall j, in_support (F := F) (tk kv i) (tk kv j)
             (num_are_equal (F := F) kEpsilon (tk kv j) (final_knot kv)) u = false).
  { intros j. apply not_true_is_false. rewrite in_support_mk by auto.
    pose proof (tk_ge_first kv i Hn). pose proof (tk_ge_first kv j Hn).
    pose proof (tk_le_final kv j Hn). lra. }
  destruct (Z.eq_dec m 0) as [->|Hm0].
  - rewrite bf_deriv_0. destruct p; cbn [mkbf bf_eval]; rewrite Hno; reflexivity.
  - rewrite bf_deriv_S by lia. destruct p; cbn [mkbf]; auto. rewrite Hno; reflexivity.
Qed.

(* ---- facts not needing separation (C08) ---- *)
Lemma bf_support kv p i u : nondecreasing kv ->
  bf_eval (mkbf kv i p) u <> 0%R -> (tk kv i <= u <= tk kv (i + Z.of_nat p + 1))%R.
Proof.
  intros Hn H. pose proof (tk_monotone kv Hn i (i + Z.of_nat p + 1) ltac:(lia)).
  assert (Hin : in_support (F := F) (tk kv i) (tk kv (i + Z.of_nat p + 1))
             (num_are_equal (F := F) kEpsilon (tk kv (i + Z.of_nat p + 1)) (final_knot kv)) u = true).
  { apply not_false_is_true. intros C. apply H. destruct p; cbn [mkbf bf_eval]; rewrite C; reflexivity. }
  apply in_support_spec in Hin. lra.
Qed.

Lemma bf_nonneg kv p i u : nondecreasing kv -> (0 <= bf_eval (mkbf kv i p) u)%R.
Proof.
  intros Hn. revert i; induction p as [|q IH]; intros i.
  - cbn [mkbf bf_eval]. destruct (in_support _ _ _ _); cbn; lra.
  - cbn [mkbf bf_eval]. destruct (in_support _ _ _ _) eqn:E; [|cbn; lra].
    cbn [nadd nsub nmul Rops].
    apply in_support_spec in E.
    assert (Hinv : forall a b, (a <= b) -> (0 <= inverse_or_zero (F := F) (tk kv b - tk kv a)%R)%R).
    { intros a b Hab. pose proof (tk_monotone kv Hn a b Hab). rewrite inverse_or_zero_R.
      destruct (Rlt_dec _ _) as [C|C]; [lra|].
      destruct (Req_EM_T (tk kv b - tk kv a) 0) as [C2|C2].
      - rewrite C2, Rabs_R0 in C. pose proof tolerance_pos. lra.
      - left. apply Rinv_0_lt_compat. lra. }
    pose proof (tk_monotone kv Hn i (i + Z.of_nat (S q) + 1) ltac:(lia)).
    apply Rplus_le_le_0_compat; repeat apply Rmult_le_pos; auto; try (apply Hinv; lia); lra.
Qed.

End BF.
