(* Proofs about the vector utilities. *)
From Coq Require Import ZArith List Reals Lra Lia Bool.
From Verif Require Import Base BaseFacts RSum VecUtils DegreeSpec DegreeFacts DegreeThms VecSpec.
Import ListNotations.
Open Scope Z_scope.

Section Plain.
Local Open Scope R_scope.
Lemma dot_cons x a y b : dot (x :: a) (y :: b) = x * y + dot a b.
Proof. reflexivity. Qed.

Lemma dot_self_nonneg a : 0 <= dot a a.
Proof. induction a as [|x a IH]; [cbn; lra|]. rewrite dot_cons. nra. Qed.

Lemma dot_comm a b : dot a b = dot b a.
Proof.
  revert b. induction a as [|x a IH]; intros [|y b]; try reflexivity. rewrite !dot_cons, IH. ring.
Qed.

Lemma dot_linear x a y b c : length a = length b -> length a = length c ->
  dot (combination x a y b) c = x * dot a c + y * dot b c.
Proof.
  revert b c. induction a as [|p a IH]; intros [|q b] [|r c] H1 H2; cbn [length] in *; try discriminate.
  - unfold dot. cbn. ring.
  - unfold combination. cbn [map2]. fold (combination x a y b). rewrite !dot_cons, IH by lia. ring.
Qed.

Lemma dot_self_zero a : dot a a = 0 -> a = repeat 0 (length a).
Proof.
  induction a as [|x a IH]; [reflexivity|]. rewrite dot_cons. intros H. pose proof (dot_self_nonneg a). pose proof (Rle_0_sqr x) as Hx.
  unfold Rsqr in Hx. assert (x * x = 0) by lra. assert (dot a a = 0) by lra. cbn [length repeat].
  rewrite <- IH by assumption. f_equal. now apply Rsqr_0_uniq.
Qed.

Lemma dot_zero_l n b : dot (repeat 0 n) b = 0.
Proof. revert b. induction n as [|n IH]; intros [|y b]; try reflexivity. cbn [repeat]. rewrite dot_cons, IH. ring. Qed.

Lemma cauchy_schwarz a b : length a = length b -> dot a b * dot a b <= dot a a * dot b b.
Proof.
  intros L. destruct (Req_dec (dot a a) 0) as [Z|Z].
  - rewrite Z. apply dot_self_zero in Z. rewrite Z, dot_zero_l. lra.
  - pose proof (dot_self_nonneg a) as P.
    pose proof (dot_self_nonneg (combination (dot a b) a (- dot a a) b)) as Q.
    assert (Lc : length (combination (dot a b) a (- dot a a) b) = length a) by (apply map2_length; exact L).
    rewrite dot_linear in Q by congruence.
    rewrite (dot_comm a (combination _ _ _ _)), (dot_comm b (combination _ _ _ _)) in Q. rewrite !dot_linear in Q by congruence.
    rewrite (dot_comm b a) in Q. apply (Rmult_le_reg_l (dot a a)); [lra|]. lra.
Qed.

Definition minus (a b : list R) : list R := map2 Rminus a b.

Lemma euclid_dot a b : euclid a b = sqrt (dot (minus a b) (minus a b)).
Proof.
  unfold euclid. f_equal. revert b. induction a as [|x a IH]; intros [|y b]; try reflexivity.
  unfold minus. cbn [combine lsum map2 fst snd]. fold (minus a b). rewrite dot_cons, IH. reflexivity.
Qed.

Lemma triangle_norm a b : length a = length b -> sqrt (dot (combination 1 a 1 b) (combination 1 a 1 b)) <= sqrt (dot a a) + sqrt (dot b b).
Proof.
  intros L. pose proof (dot_self_nonneg a) as Pa. pose proof (dot_self_nonneg b) as Pb.
  pose proof (sqrt_pos (dot a a)) as Sa. pose proof (sqrt_pos (dot b b)) as Sb.
  apply Rsqr_incr_0_var; [|lra]. rewrite Rsqr_sqrt by apply dot_self_nonneg.
  assert (Lc : length (combination 1 a 1 b) = length a) by (apply map2_length; exact L).
  rewrite dot_linear by congruence. rewrite (dot_comm a (combination _ _ _ _)), (dot_comm b (combination _ _ _ _)). rewrite !dot_linear by congruence.
  rewrite (dot_comm b a). rewrite Rsqr_plus, !Rsqr_sqrt by assumption.
  assert (dot a b <= sqrt (dot a a) * sqrt (dot b b)); [|lra].
  apply Rle_trans with (Rabs (dot a b)); [apply Rle_abs|].
  rewrite <- sqrt_mult by assumption. rewrite <- sqrt_Rsqr_abs. apply sqrt_le_1_alt. now apply cauchy_schwarz.
Qed.

Lemma minus_split a b c : length a = length b -> length b = length c -> minus a c = combination 1 (minus a b) 1 (minus b c).
Proof.
  unfold minus, combination. revert b c. induction a as [|x a IH]; intros [|y b] [|z c] H1 H2; cbn [length] in *; try discriminate; auto.
  cbn [map2]. rewrite <- IH by lia. f_equal. lra.
Qed.

Lemma triangle a b c : length a = length b -> length b = length c -> euclid a c <= euclid a b + euclid b c.
Proof.
  intros H1 H2. rewrite !euclid_dot, (minus_split a b c) by assumption. apply triangle_norm.
  unfold minus. rewrite !map2_length; auto.
Qed.

Lemma euclid_sym a b : length a = length b -> euclid a b = euclid b a.
Proof.
  intros L. unfold euclid. f_equal. revert b L. induction a as [|x a IH]; intros [|y b] L; cbn [length] in L; try discriminate; try reflexivity.
  cbn [combine lsum fst snd]. rewrite IH by lia. ring.
Qed.

Lemma euclid_zero a b : length a = length b -> (euclid a b = 0 <-> a = b).
Proof.
  intros L. split.
  - rewrite euclid_dot. intros H. apply sqrt_eq_0 in H; [|apply dot_self_nonneg]. apply dot_self_zero in H.
    revert b L H. induction a as [|x a IH]; intros [|y b] L H; cbn [length] in L; try discriminate; auto.
    cbn in H. injection H as H1 H2. f_equal; [lra|]. apply IH; [lia | exact H2].
  - intros <-. rewrite euclid_dot. replace (dot (minus a a) (minus a a)) with 0; [apply sqrt_0|].
    clear L. induction a as [|x a IH]; [reflexivity|]. unfold minus. cbn [map2]. fold (minus a a). rewrite dot_cons, <- IH. ring.
Qed.

Lemma cross_zero x y z b1 b2 b3 :
  dot [y * b3 - z * b2; z * b1 - x * b3; x * b2 - y * b1] [x; y; z] = 0.
Proof. unfold dot. cbn. ring. Qed.
End Plain.

Section Model.
Context {dz : R -> R}.
Notation F := (Rops dz).
Implicit Types a b : list R.

Lemma transform_short (op : R -> R -> R) a b : (length b < length a)%nat -> transform_into (F := F) op a b = UB.
Proof.
  revert b. induction a as [|x a IH]; intros [|y b] H; cbn [length] in H; try lia; try reflexivity.
  cbn [transform_into]. rewrite IH by lia. reflexivity.
Qed.

Lemma transform_len (op : R -> R -> R) a b : length a = length b -> transform_into (F := F) op a b = Ok (map2 op a b).
Proof.
  revert b. induction a as [|x a IH]; intros [|y b] H; try discriminate; auto.
  cbn [transform_into map2]. rewrite IH by (injection H; auto). reflexivity.
Qed.

Lemma distance_metric : forall a b c : list R, length a = length b -> length b = length c ->
  exists ab ba ac bc, distance (F := F) a b = Ok ab /\ distance (F := F) b a = Ok ba /\
    distance (F := F) a c = Ok ac /\ distance (F := F) b c = Ok bc /\
    (0 <= ab)%R /\ ab = ba /\ (ab = 0%R <-> a = b) /\ (ac <= ab + bc)%R.
Proof.
  intros a b c H1 H2. exists (euclid a b), (euclid b a), (euclid a c), (euclid b c).
  split; [apply distance_ok; congruence|]. split; [apply distance_ok; congruence|].
  split; [apply distance_ok; congruence|]. split; [apply distance_ok; congruence|].
  split; [unfold euclid; apply sqrt_pos|]. split; [now apply euclid_sym|]. split; [now apply euclid_zero | now apply triangle].
Qed.

Lemma distance_value : forall a b, length a = length b -> distance (F := F) a b = Ok (euclid a b).
Proof. intros a b H. now apply distance_ok. Qed.

Lemma distance_short : forall a b, (length b < length a)%nat ->
  distance (F := F) a b = UB /\ scalar_product (F := F) a b = UB.
Proof. intros a b H. unfold distance, scalar_product, difference. rewrite !transform_short by exact H. split; reflexivity. Qed.

Lemma scalar_value : forall a b, length a = length b -> scalar_product (F := F) a b = Ok (dot a b).
Proof.
  intros a b L. unfold scalar_product.
  assert (E : transform_into (F := F) nmul a b = Ok (map2 Rmult a b)) by exact (transform_len Rmult a b L). step E. f_equal.
  refine (eq_trans (sum_of_R dz _) _). clear E. revert b L. induction a as [|x a IH]; intros [|y b] L; cbn [length] in L; try discriminate; try reflexivity.
  rewrite dot_cons, <- IH by lia. reflexivity.
Qed.

Lemma scalar_bilinear : forall (a b c : list R) (x y : R), length a = length b -> length b = length c ->
  exists ab ac bc, scalar_product (F := F) a b = Ok ab /\ scalar_product (F := F) b a = Ok ab /\
    scalar_product (F := F) a c = Ok ac /\ scalar_product (F := F) b c = Ok bc /\
    scalar_product (F := F) (combination x a y b) c = Ok (x * ac + y * bc)%R /\
    (exists aa bb, scalar_product (F := F) a a = Ok aa /\ scalar_product (F := F) b b = Ok bb /\
       (0 <= aa)%R /\ (ab * ab <= aa * bb)%R).
Proof.
  intros a b c x y H1 H2. exists (dot a b), (dot a c), (dot b c).
  rewrite !scalar_value by (unfold combination; rewrite ?map2_length; congruence).
  rewrite (dot_comm b a), dot_linear by congruence. repeat split.
  exists (dot a a), (dot b b). rewrite ?scalar_value by reflexivity. repeat split; auto using dot_self_nonneg, cauchy_schwarz.
Qed.

Lemma cross_orthogonal : forall a b, length a = 3%nat -> length b = 3%nat ->
  exists c c', cross_product (F := F) a b = Ok c /\ cross_product (F := F) b a = Ok c' /\ length c = 3%nat /\
    scalar_product (F := F) a c = Ok 0%R /\ scalar_product (F := F) b c = Ok 0%R /\
    c' = map Ropp c /\
    dot c c = (dot a a * dot b b - dot a b * dot a b)%R.
Proof.
  intros a b Ha Hb. destruct a as [|a0 [|a1 [|a2 [|]]]]; try discriminate. destruct b as [|b0 [|b1 [|b2 [|]]]]; try discriminate.
  exists [a1 * b2 - a2 * b1; a2 * b0 - a0 * b2; a0 * b1 - a1 * b0]%R, [b1 * a2 - b2 * a1; b2 * a0 - b0 * a2; b0 * a1 - b1 * a0]%R.
  split; [reflexivity|]. split; [reflexivity|]. split; [reflexivity|].
  rewrite !scalar_value by reflexivity. unfold dot. cbn [combine lsum fst snd map].
  split; [f_equal; ring|]. split; [f_equal; ring|]. split; [repeat (f_equal; try ring)|]. ring.
Qed.

Lemma vget3 (x y z : R) l : vget (x :: y :: z :: l) 0 = Ok x /\ vget (x :: y :: z :: l) 1 = Ok y /\ vget (x :: y :: z :: l) 2 = Ok z.
Proof. split; [|split]; rewrite (vget_nth _ _ 0%R) by (unfold zlen; cbn [length]; lia); reflexivity. Qed.

Lemma cross_short : forall a b, (length a < 3)%nat \/ (length b < 3)%nat -> cross_product (F := F) a b = UB.
Proof.
  intros a b H. unfold cross_product.
  destruct a as [|a0 [|a1 [|a2 a]]]; try reflexivity.
  destruct (vget3 a0 a1 a2 a) as (A0 & A1 & A2). step A0. step A1. step A2.
  destruct b as [|b0 [|b1 [|b2 b]]]; try reflexivity. cbn [length] in H. lia.
Qed.

Lemma cross_long : forall a b, (3 <= length a)%nat -> (3 <= length b)%nat ->
  cross_product (F := F) a b = Ok
    ([nth 1 a 0 * nth 2 b 0 - nth 2 a 0 * nth 1 b 0; nth 2 a 0 * nth 0 b 0 - nth 0 a 0 * nth 2 b 0;
      nth 0 a 0 * nth 1 b 0 - nth 1 a 0 * nth 0 b 0]%R ++ repeat 0%R (length a - 3)).
Proof.
  intros a b Ha Hb. destruct a as [|a0 [|a1 [|a2 a]]]; cbn [length] in Ha; try lia.
  destruct b as [|b0 [|b1 [|b2 b]]]; cbn [length] in Hb; try lia.
  unfold cross_product.
  destruct (vget3 a0 a1 a2 a) as (A0 & A1 & A2). destruct (vget3 b0 b1 b2 b) as (B0 & B1 & B2).
  step A0. step A1. step A2. step B0. step B1. step B2.
  cbn [length repeat].
  assert (W : forall (x y z v : R) l, vset (x :: y :: z :: l) 0 v = Ok (v :: y :: z :: l) /\ vset (x :: y :: z :: l) 1 v = Ok (x :: v :: z :: l)
     /\ vset (x :: y :: z :: l) 2 v = Ok (x :: y :: v :: l)).
  { intros x y z v l. split; [|split]; rewrite vset_ok by (unfold zlen; cbn [length]; lia); reflexivity. }
  step (proj1 (W 0 0 0 (a1 * b2 - a2 * b1) (repeat 0 (length a))))%R.
  step (proj1 (proj2 (W (a1 * b2 - a2 * b1) 0 0 (a2 * b0 - a0 * b2) (repeat 0 (length a)))))%R.
  replace (S (S (S (length a))) - 3)%nat with (length a) by lia.
  refine (eq_trans (proj2 (proj2 (W _ _ _ _ _))) _). reflexivity.
Qed.
End Model.

Section Filter.
Context {A : Type}.
Implicit Types (input out : list A) (positions : list Z).

Lemma filter_ok : forall input positions out,
  filter_vector input positions = Ok out <->
  Forall2 (fun p x => 0 <= p < zlen input /\ nth_error input (Z.to_nat p) = Some x) positions out.
Proof.
  intros input positions. unfold filter_vector. induction positions as [|p positions IH]; intros out; cbn [mapM].
  - split; intros H; [injection H as <-; constructor | inversion H; reflexivity].
  - split.
    + intros H. destruct (p <? zlen input) eqn:Hp; [|discriminate]. apply Z.ltb_lt in Hp.
      destruct (vget input p) as [x|e|] eqn:E; try discriminate. cbn [bind] in H.
      destruct (mapM _ positions) as [r|e|] eqn:E2; try discriminate. cbn [bind] in H. injection H as <-.
      constructor; [|now apply IH]. pose proof (vget_inv _ _ _ E) as (H1 & H2). split; assumption.
    + intros H. inversion H as [|p' x l1 l2 (H1 & H2) H3 H4 H5]; subst.
      destruct (p <? zlen input) eqn:Hp; [|apply Z.ltb_ge in Hp; lia].
      rewrite (vget_nth _ _ x H1). rewrite (nth_error_nth _ _ _ H2). cbn [bind].
      rewrite (proj2 (IH l2) H3). reflexivity.
Qed.

(* the first position outside the input decides between the exception and the access out of bounds *)
Lemma filter_fail : forall input good p rest, Forall (fun q => 0 <= q < zlen input) good -> ~ (0 <= p < zlen input) ->
  filter_vector input (good ++ p :: rest) = if p <? 0 then UB else Throw RuntimeError.
Proof.
  intros input good p rest H Hp. unfold filter_vector. induction H as [|q good Hq H IH]; cbn [app mapM].
  - destruct (p <? 0) eqn:E0.
    + apply Z.ltb_lt in E0. replace (p <? zlen input) with true by (symmetry; apply Z.ltb_lt; pose proof (zlen_nonneg input); lia).
      rewrite vget_out by lia. reflexivity.
    + apply Z.ltb_ge in E0. replace (p <? zlen input) with false by (symmetry; apply Z.ltb_ge; lia). reflexivity.
  - replace (q <? zlen input) with true by (symmetry; apply Z.ltb_lt; lia).
    destruct input as [|i0 input']; [unfold zlen in Hq; cbn in Hq; lia|].
    rewrite (vget_nth _ _ i0 Hq). cbn [bind]. rewrite IH. destruct (p <? 0); reflexivity.
Qed.
End Filter.

Lemma ex_filter : filter_vector [10; 20; 30] [2; 0; 2] = Ok [30; 10; 30] /\
  filter_vector [10; 20; 30] ([1] ++ 3 :: [0]) = Throw RuntimeError /\ filter_vector [10; 20; 30] ([1] ++ (-1) :: [0]) = UB.
Proof. repeat split. Qed.
