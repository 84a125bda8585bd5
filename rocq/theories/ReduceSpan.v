(* Splines whose interior knots all have multiplicity p are Bezier curves on every span (C83). *)
From Coq Require Import ZArith List Bool Lia Reals Lra.
From Verif Require Import Base BaseFacts RSum MultiIndex MultiIndexSpec MultiIndexFacts TensorSum
  KnotVec KnotVecSpec KnotVecFacts Basis BasisSpec BSplineTheory BasisFacts BernsteinFacts
  Spaces SpacesSpec SpacesFacts SplineEval SplineEdit SplineSpec EditSpec RemoveSpec EvalFacts EvalThms InsertFacts RemoveFacts UniqueSpec UniqueFacts
  DegreeSpec DegreeFacts KnotRuns ReduceKnots ReduceSegments.
Import ListNotations.
Open Scope Z_scope.

(* ---- the pieces on one span between two full groups of knots ---- *)
Lemma pieces_span (t : Z -> R) a b p mu : (a < b)%R -> (forall j, mu - Z.of_nat p < j <= mu -> t j = a) ->
  (forall j, mu < j <= mu + Z.of_nat p -> t j = b) -> forall u q j, (q <= p)%nat -> (j <= q)%nat ->
  let x := ((u - a) / (b - a))%R in
  B t mu q (mu - Z.of_nat q + Z.of_nat j) u = (C q j * x ^ j * (1 - x) ^ (q - j))%R.
Proof.
  intros Hab Ha Hb u. induction q as [|q IH]; intros j Hq Hj x.
  - assert (j = O) by lia. subst j. cbn [B]. destruct (Z.eq_dec _ mu) as [E|E]; [|lia]. rewrite C_0. cbn. ring.
  - cbn [B]. set (i := mu - Z.of_nat (S q) + Z.of_nat j).
    assert (Q1 : (1 <= j)%nat -> (quot0 (u - t i) (t (i + Z.of_nat (S q))%Z - t i) * B t mu q i u)%R = (x * (C q (j - 1) * x ^ (j - 1) * (1 - x) ^ (q - (j - 1))))%R).
    { intros Hj1. rewrite (Ha i), (Hb (i + Z.of_nat (S q))) by (unfold i; lia). rewrite quot0_den by lra.
      replace i with (mu - Z.of_nat q + Z.of_nat (j - 1)) by (unfold i; lia). rewrite IH by lia. reflexivity. }
    assert (Q2 : (j <= q)%nat -> (quot0 (t (i + Z.of_nat (S q) + 1)%Z - u) (t (i + Z.of_nat (S q) + 1)%Z - t (i + 1)%Z) * B t mu q (i + 1) u)%R = ((1 - x) * (C q j * x ^ j * (1 - x) ^ (q - j)))%R).
    { intros Hj1. rewrite (Ha (i + 1)), (Hb (i + Z.of_nat (S q) + 1)) by (unfold i; lia). rewrite quot0_den by lra.
      replace (i + 1) with (mu - Z.of_nat q + Z.of_nat j) by (unfold i; lia). rewrite IH by lia. fold x. f_equal. unfold x. field. lra. }
    assert (O1 : (j = 0)%nat -> B t mu q i u = 0%R) by (intros ->; apply B_outside; unfold i; lia).
    assert (O2 : (j = S q)%nat -> B t mu q (i + 1) u = 0%R) by (intros ->; apply B_outside; unfold i; lia).
    destruct (Nat.eq_dec j 0) as [E|E]; [|destruct (Nat.eq_dec j (S q)) as [E'|E']].
    + rewrite Q2, (O1 E) by lia. subst j. rewrite !C_0. replace (S q - 0)%nat with (S (q - 0)) by lia. cbn [pow]. ring.
    + rewrite Q1, (O2 E') by lia. subst j. replace (S q - 1)%nat with q by lia. rewrite !C_n, !Nat.sub_diag. cbn [pow]. ring.
    + rewrite Q1, Q2 by lia. destruct j as [|j]; [lia|]. rewrite <- (C_pascal q j) by lia.
      replace (S j - 1)%nat with j by lia. replace (q - j)%nat with (S (q - S j)) by lia. replace (S q - S j)%nat with (S (q - S j)) by lia. cbn [pow]. ring.
Qed.

(* ---- the knots of a spline in Bezier form ---- *)
Definition breaks (a : R) (rs : list (R * nat)) (b : R) : list R := a :: map fst rs ++ [b].
Definition brk a rs b (k : Z) : R := nth (Z.to_nat k) (breaks a rs b) 0%R.

Lemma fill_length p a rs b : 1 <= p -> zlen (of_runs p a (fill p rs) b) = (Z.of_nat (length rs) + 2) * p + 2.
Proof. intros Hp. unfold zlen. rewrite runs_length, expand_fill_length. lia. Qed.

Lemma nth_groups (vs : list R) (p : nat) b (i : nat) : (1 <= p)%nat -> (i < (length vs + 1) * p)%nat ->
  nth i (flat_map (fun x => repeat x p) vs ++ repeat b p) 0%R = nth (i / p) (vs ++ [b]) 0%R.
Proof.
  intros Hp. revert i. induction vs as [|x vs IH]; intros i Hi; cbn [flat_map app length] in *.
  - rewrite nth_in_repeat by lia. rewrite Nat.div_small by lia. reflexivity.
  - rewrite <- app_assoc. destruct (Nat.lt_ge_cases i p) as [C|C].
    + rewrite app_nth1 by (rewrite repeat_length; lia). rewrite nth_in_repeat by lia. rewrite Nat.div_small by lia. reflexivity.
    + rewrite app_nth2 by (rewrite repeat_length; lia). rewrite repeat_length. rewrite IH by nia.
      replace i with (i - p + 1 * p)%nat at 2 by lia. rewrite Nat.div_add by lia. rewrite Nat.add_comm. reflexivity.
Qed.

Lemma expand_fill p rs : expand (fill p rs) = flat_map (fun x => repeat x (Z.to_nat p)) (map fst rs).
Proof. unfold expand, fill. induction rs as [|r rs IH]; cbn; [reflexivity | now rewrite IH]. Qed.

(* knot number i >= 1 belongs to group (i - 1) / p *)
Lemma fill_tk p a rs b i : 1 <= p -> 1 <= i <= (Z.of_nat (length rs) + 2) * p -> tk (of_runs p a (fill p rs) b) i = brk a rs b ((i - 1) / p).
Proof.
  intros Hp Hi. pose proof (fill_length p a rs b Hp) as Hl. rewrite tk_knot' by nia. unfold knot, brk, breaks.
  assert (E : of_runs p a (fill p rs) b = a :: (flat_map (fun x => repeat x (Z.to_nat p)) (a :: map fst rs) ++ repeat b (Z.to_nat p)) ++ [b]).
  { unfold of_runs. rewrite expand_fill. replace (Z.to_nat p + 1)%nat with (S (Z.to_nat p)) by lia. cbn [flat_map]. rewrite <- !app_assoc. 
    change (repeat a (S (Z.to_nat p))) with (a :: repeat a (Z.to_nat p)). cbn [app]. do 3 f_equal. rewrite <- repeat_cons. reflexivity. }
  rewrite E. replace (Z.to_nat i) with (S (Z.to_nat (i - 1))) by lia. cbn [nth].
  assert (Hb : (Z.to_nat (i - 1) < (length (a :: map fst rs) + 1) * Z.to_nat p)%nat) by (cbn [length]; rewrite map_length; nia).
  rewrite app_nth1.
  - rewrite nth_groups by lia. rewrite Z2Nat.inj_div by lia. reflexivity.
  - assert (Hfl : forall vs, length (flat_map (fun x : R => repeat x (Z.to_nat p)) vs) = (length vs * Z.to_nat p)%nat).
    { induction vs as [|v vs IH]; cbn [flat_map length]; [reflexivity|]. rewrite app_length, repeat_length, IH. lia. }
    rewrite app_length, Hfl, repeat_length. lia.
Qed.

Lemma breaks_increasing a rs b : chain a rs b -> forall i j, 0 <= i -> i < j -> j <= Z.of_nat (length rs) + 1 -> (brk a rs b i < brk a rs b j)%R.
Proof.
  revert a. induction rs as [|[x m] rs IH]; intros a Hc i j Hi Hij Hj; unfold brk, breaks in *.
  - cbn [length map app] in *. assert (i = 0) by lia. assert (j = 1) by lia. subst. exact Hc.
  - destruct Hc as (C1 & C2 & C3). cbn [fst snd length map app] in *. replace (Z.to_nat j) with (S (Z.to_nat (j - 1))) by lia. cbn [nth].
    destruct (Z.eq_dec i 0) as [->|N].
    + cbn [Z.to_nat nth]. destruct (Z.eq_dec j 1) as [->|Nj]; [exact C1|].
      apply Rlt_trans with x; [exact C1|]. apply (IH x C3 0 (j - 1)); lia.
    + replace (Z.to_nat i) with (S (Z.to_nat (i - 1))) by lia. cbn [nth]. apply (IH x C3 (i - 1) (j - 1)); lia.
Qed.

Lemma brk_last a rs b : brk a rs b (Z.of_nat (length rs) + 1) = b.
Proof.
  unfold brk, breaks. replace (Z.to_nat (Z.of_nat (length rs) + 1)) with (S (length (map fst rs) + 0)) by (rewrite map_length; lia). cbn [nth].
  rewrite app_nth2_plus. reflexivity.
Qed.

(* the spans *)
Lemma fill_span p a rs b m u : 1 <= p -> chain a rs b -> p <= m < zlen (of_runs p a (fill p rs) b) - p - 1 ->
  in_span (of_runs p a (fill p rs) b) m u -> exists k, 0 <= k <= Z.of_nat (length rs) /\ m = (k + 1) * p /\
    (brk a rs b k < brk a rs b (k + 1))%R /\ (brk a rs b k <= u)%R /\ ((u < brk a rs b (k + 1))%R \/ (u = brk a rs b (k + 1) /\ u = b)).
Proof.
  intros Hp Hc Hm (S1 & S2 & S3 & S4 & S5). pose proof (fill_length p a rs b Hp) as Hl. rewrite Hl in *.
  rewrite fill_tk in S3, S4 by nia. rewrite fill_tk in S3, S5 by nia. rewrite runs_final in S5.
  replace (m + 1 - 1) with m in * by lia.
  assert (Hd : (m - 1) / p <> m / p) by (intros E; rewrite E in S3; lra).
  set (k := (m - 1) / p) in *. pose proof (Z.div_mod (m - 1) p ltac:(lia)) as D1. pose proof (Z.mod_pos_bound (m - 1) p ltac:(lia)) as M1. fold k in D1.
  assert (Em : m = (k + 1) * p).
  { destruct (Z.eq_dec ((m - 1) mod p) (p - 1)) as [E|E]; [lia|]. exfalso. apply Hd. apply Z.div_unique with ((m - 1) mod p + 1); lia. }
  assert (Ek : m / p = k + 1) by (rewrite Em; apply Z.div_mul; lia). rewrite Ek in *.
  exists k. assert (0 <= k <= Z.of_nat (length rs)) by nia. repeat (split; [auto; lia|]). auto.
Qed.

Lemma fill_span_intro p a rs b k u : 1 <= p -> chain a rs b -> 0 <= k <= Z.of_nat (length rs) -> (brk a rs b k <= u)%R ->
  ((u < brk a rs b (k + 1))%R \/ (u = brk a rs b (k + 1) /\ u = b)) -> in_span (of_runs p a (fill p rs) b) ((k + 1) * p) u.
Proof.
  intros Hp Hc Hk H1 H2. pose proof (fill_length p a rs b Hp) as Hl. unfold in_span. rewrite Hl, runs_final.
  rewrite !fill_tk by nia. replace ((k + 1) * p - 1) with (k * p + (p - 1)) by lia. rewrite Z.div_add_l by lia. rewrite (Z.div_small (p - 1)) by lia.
  replace ((k + 1) * p + 1 - 1) with ((k + 1) * p) by lia. rewrite Z.div_mul by lia. rewrite Z.add_0_r.
  split; [nia|]. split; [nia|]. split; [apply breaks_increasing; auto; lia|]. auto.
Qed.

(* a sum over the basis of such a spline is a Bezier curve *)
Lemma fill_bezier p a rs b k u (c : Z -> R) : 1 <= p -> chain a rs b -> 0 <= k <= Z.of_nat (length rs) ->
  lsum (fun i => B (tk (of_runs p a (fill p rs) b)) ((k + 1) * p) (Z.to_nat p) i u * c i)%R (zseq 0 (Z.to_nat ((Z.of_nat (length rs) + 1) * p + 1))) =
  bezier p (fun j => c (k * p + j)) ((u - brk a rs b k) / (brk a rs b (k + 1) - brk a rs b k))%R.
Proof.
  intros Hp Hc Hk. set (t := tk (of_runs p a (fill p rs) b)).
  rewrite (lsum_zseq_extend _ (k * p) (Z.to_nat (p + 1))).
  - unfold bezier. replace (k * p) with (0 + k * p) at 1 by lia. rewrite lsum_zseq_shift. apply lsum_ext. intros j Hj. apply zseq_In in Hj.
    assert (Hab := breaks_increasing a rs b Hc k (k + 1) ltac:(lia) ltac:(lia) ltac:(lia)).
    rewrite (Z.add_comm j). f_equal.
    pose proof (pieces_span t (brk a rs b k) (brk a rs b (k + 1)) (Z.to_nat p) ((k + 1) * p) Hab) as P.
    specialize (P ltac:(intros i Hi; unfold t; rewrite fill_tk by nia; f_equal; symmetry; apply Z.div_unique with (i - 1 - k * p); lia)).
    specialize (P ltac:(intros i Hi; unfold t; rewrite fill_tk by nia; f_equal; symmetry; apply Z.div_unique with (i - 1 - (k + 1) * p); lia)).
    specialize (P u (Z.to_nat p) (Z.to_nat j) ltac:(lia) ltac:(lia)). cbv zeta in P.
    replace ((k + 1) * p - Z.of_nat (Z.to_nat p) + Z.of_nat (Z.to_nat j)) with (k * p + j) in P by lia. rewrite P.
    unfold bernstein. replace (Z.to_nat (p - j)) with (Z.to_nat p - Z.to_nat j)%nat by lia. reflexivity.
  - nia.
  - nia.
  - intros i Hi Hn. rewrite B_outside by nia. ring.
Qed.
