(* Proofs about the integration rules. *)
From Coq Require Import ZArith List Reals Lra Lia Bool.
From Verif Require Import Base BaseFacts RSum Gauss GaussSpec.
Import ListNotations.
Open Scope R_scope.

Definition moment (k : nat) : R := (1 - (-1) ^ (k + 1)) / INR (k + 1).

Definition primitive (a : nat -> R) (d : nat) (x : R) : R := sum_f_R0 (fun k => a k / INR (k + 1) * x ^ (k + 1)) d.

Lemma primitive_deriv a d x : derivable_pt_lim (primitive a d) x (polynomial a d x).
Proof.
  induction d as [|d IH].
  - unfold primitive, polynomial. cbn [sum_f_R0].
    replace (a 0%nat * x ^ 0) with (a 0%nat / INR (0 + 1) * (INR (0 + 1) * x ^ pred (0 + 1))) by (cbn; field).
    apply derivable_pt_lim_scal with (f := fun x => x ^ (0 + 1)). apply derivable_pt_lim_pow.
  - unfold primitive, polynomial. cbn [sum_f_R0].
    apply derivable_pt_lim_plus with (f1 := primitive a d) (f2 := fun x => a (S d) / INR (S d + 1) * x ^ (S d + 1)); [exact IH|].
    replace (a (S d) * x ^ S d) with (a (S d) / INR (S d + 1) * (INR (S d + 1) * x ^ pred (S d + 1))).
    + apply derivable_pt_lim_scal with (f := fun x => x ^ (S d + 1)). apply derivable_pt_lim_pow.
    + replace (pred (S d + 1)) with (S d) by lia. field. apply not_0_INR. lia.
Qed.

Lemma polynomial_continuous a d : continuity (polynomial a d).
Proof.
  unfold polynomial. induction d as [|d IH]; cbn [sum_f_R0].
  - apply (continuity_scal (fun x => x ^ 0)). apply derivable_continuous. apply derivable_pow.
  - apply (continuity_plus (fun x => sum_f_R0 (fun k => a k * x ^ k) d) (fun x => a (S d) * x ^ S d)); [exact IH|].
    apply (continuity_scal (fun x => x ^ S d)). apply derivable_continuous. apply derivable_pow.
Qed.

Lemma polynomial_integrable a d u v : Riemann_integrable (polynomial a d) u v.
Proof.
  destruct (Rle_dec u v) as [H|H].
  - apply continuity_implies_RiemannInt; auto. intros x _. apply polynomial_continuous.
  - apply RiemannInt_P1. apply continuity_implies_RiemannInt; [lra|]. intros x _. apply polynomial_continuous.
Qed.

(* fundamental theorem for polynomials *)
Lemma polynomial_integral a d u v (Huv : u <= v) (pr : Riemann_integrable (polynomial a d) u v) :
  RiemannInt pr = primitive a d v - primitive a d u.
Proof.
  assert (D : derivable (primitive a d)) by (intros x; exists (polynomial a d x); apply primitive_deriv).
  assert (E : forall x, derive (primitive a d) D x = polynomial a d x).
  { intros x. apply derive_pt_eq_0. apply primitive_deriv. }
  assert (Cd : continuity (derive (primitive a d) D)).
  { intros x. unfold continuity_pt, continue_in, limit1_in, limit_in. intros eps He.
    destruct (polynomial_continuous a d x eps He) as (al & Ha & H). exists al. split; [exact Ha|].
    intros y Hy. rewrite !E. apply H. exact Hy. }
  set (f := mkC1 (c1 := primitive a d) (diff0 := D) Cd).
  assert (pr' : Riemann_integrable (derive f (diff0 f)) u v).
  { cbn. destruct (Rle_dec u v) as [H|H].
    - apply continuity_implies_RiemannInt; auto.
    - apply RiemannInt_P1. apply continuity_implies_RiemannInt; [lra|]. intros x _. apply Cd. }
  refine (eq_trans _ (FTC_Riemann f pr')). apply RiemannInt_P18; [exact Huv|].
  intros x _. symmetry. apply E.
Qed.

Lemma primitive_moment a d : primitive a d 1 - primitive a d (-1) = sum_f_R0 (fun k => a k * moment k) d.
Proof.
  unfold primitive. rewrite <- minus_sum. apply sum_eq. intros k _. rewrite pow1. unfold moment. unfold Rdiv. ring.
Qed.

Lemma quadrature_moment points a d (N : nat) : (d <= N)%nat ->
  (forall k, (k <= N)%nat -> quadrature points (fun x => x ^ k) = moment k) ->
  quadrature points (polynomial a d) = sum_f_R0 (fun k => a k * moment k) d.
Proof.
  intros Hd H. induction d as [|d IH].
  - unfold polynomial. cbn [sum_f_R0]. rewrite <- H by lia. unfold quadrature. rewrite <- lsum_scal. apply lsum_ext. intros p _. ring.
  - cbn [sum_f_R0]. rewrite <- IH by lia. rewrite <- H by lia. unfold quadrature. rewrite <- lsum_scal, <- lsum_plus.
    apply lsum_ext. intros p _. unfold polynomial. cbn [sum_f_R0]. ring.
Qed.

Section Model.
Variable dz : R -> R.
Notation F := (Rops dz).

Lemma nsqrt_R x : 0 <= x -> nsqrt (n := F) x = sqrt x.
Proof. intros H. cbn. destruct (Rlt_dec x 0); [lra | reflexivity]. Qed.

(* s7 = sqrt(10/7), s5 = sqrt(6/5) *)
Lemma sqrt_bounds x lo hi : 0 <= lo -> 0 <= hi -> lo * lo <= x -> x <= hi * hi -> lo <= sqrt x <= hi.
Proof.
  intros H1 H2 H3 H4. split.
  - rewrite <- (sqrt_square lo) by assumption. now apply sqrt_le_1_alt.
  - rewrite <- (sqrt_square hi) by assumption. now apply sqrt_le_1_alt.
Qed.

Definition rules_R (n : Z) : list (R * R) :=
  match n with
  | 1%Z => [(0, 2)]
  | 2%Z => let x := sqrt (1 / 3) in [(- x, 1); (x, 1)]
  | 3%Z => let x := sqrt (3 / 5) in [(- x, 5 / 9); (0, 8 / 9); (x, 5 / 9)]
  | 4%Z => let s := sqrt 30 in let x := sqrt (3 / 7 + 2 / 35 * s) in let y := sqrt (3 / 7 - 2 / 35 * s) in
      [(- x, (18 - s) / 36); (- y, (18 + s) / 36); (y, (18 + s) / 36); (x, (18 - s) / 36)]
  | _ => let s := sqrt 70 in let x := 1 / 3 * sqrt (5 + 2 / 7 * s) in let y := 1 / 3 * sqrt (5 - 2 / 7 * s) in
      [(- x, (322 - 13 * s) / 900); (- y, (322 + 13 * s) / 900); (0, 128 / 225); (y, (322 + 13 * s) / 900); (x, (322 - 13 * s) / 900)]
  end.

Lemma sqrt_scale x y c : 0 <= c -> 0 <= y -> x = c * c * y -> sqrt x = c * sqrt y.
Proof. intros Hc Hy ->. rewrite sqrt_mult by nra. now rewrite sqrt_square. Qed.

Lemma s30 : 5 <= sqrt 30 <= 6.
Proof. apply sqrt_bounds; lra. Qed.
Lemma s70 : 8 <= sqrt 70 <= 9.
Proof. apply sqrt_bounds; lra. Qed.

Lemma gauss_rule_R n points : gauss_rule (F := F) n = Some points -> points = rules_R n /\ (1 <= n <= 5)%Z.
Proof.
  unfold gauss_rule.
  destruct (Z.eqb_spec n 1) as [->|H1]; [|destruct (Z.eqb_spec n 2) as [->|H2]; [|destruct (Z.eqb_spec n 3) as [->|H3];
    [|destruct (Z.eqb_spec n 4) as [->|H4]; [|destruct (Z.eqb_spec n 5) as [->|H5]; [|discriminate]]]]]; intros E; injection E as <-.
  - split; [reflexivity | lia].
  - split; [|lia]. unfold two_point, nneg, rules_R. rewrite !ndiv_R by (cbn; lra).
    rewrite !nsqrt_R by (cbn; lra). cbn. repeat (f_equal; try lra).
  - split; [|lia]. unfold three_point, nneg, rules_R. rewrite !ndiv_R by (cbn; lra).
    rewrite !nsqrt_R by (cbn; lra). cbn. repeat (f_equal; try lra).
  - split; [|lia]. unfold four_point, nneg, rules_R. pose proof s30.
    assert (E5 : sqrt (6 / 5) = 1 / 5 * sqrt 30) by (apply sqrt_scale; lra).
    assert (S5 : nsqrt (n := F) (nofZ (n := F) 6 / nofZ (n := F) 5)%num = 1 / 5 * sqrt 30).
    { rewrite <- E5. rewrite ndiv_R by (cbn; lra). apply nsqrt_R. cbn. lra. }
    assert (S30 : nsqrt (n := F) (nofZ (n := F) 30) = sqrt 30) by (apply nsqrt_R; cbn; lra).
    rewrite S5, S30. rewrite !ndiv_R by (cbn; lra).
    rewrite !nsqrt_R by (cbn; lra). cbn.
    replace (3 / 7 + 2 / 7 * (1 / 5 * sqrt 30)) with (3 / 7 + 2 / 35 * sqrt 30) by lra.
    replace (3 / 7 - 2 / 7 * (1 / 5 * sqrt 30)) with (3 / 7 - 2 / 35 * sqrt 30) by lra.
    repeat (f_equal; try lra).
  - split; [|lia]. unfold five_point, nneg, rules_R. pose proof s70.
    assert (E7 : sqrt (10 / 7) = 1 / 7 * sqrt 70) by (apply sqrt_scale; lra).
    assert (S7 : nsqrt (n := F) (nofZ (n := F) 10 / nofZ (n := F) 7)%num = 1 / 7 * sqrt 70).
    { rewrite <- E7. rewrite ndiv_R by (cbn; lra). apply nsqrt_R. cbn. lra. }
    assert (S70 : nsqrt (n := F) (nofZ (n := F) 70) = sqrt 70) by (apply nsqrt_R; cbn; lra).
    rewrite S7, S70. rewrite !ndiv_R by (cbn; lra).
    rewrite !nsqrt_R by (cbn; lra). cbn.
    replace (5 + 2 * (1 / 7 * sqrt 70)) with (5 + 2 / 7 * sqrt 70) by lra.
    replace (5 - 2 * (1 / 7 * sqrt 70)) with (5 - 2 / 7 * sqrt 70) by lra.
    repeat (f_equal; try lra).
Qed.

(* the moments, from the squares of the points *)
Lemma rule_moments n k : (1 <= n <= 5)%Z -> (k <= Z.to_nat (2 * n - 1))%nat -> quadrature (rules_R n) (fun x => x ^ k) = moment k.
Proof.
  intros Hn Hk.
  assert (Hn' : (n = 1 \/ n = 2 \/ n = 3 \/ n = 4 \/ n = 5)%Z) by lia.
  destruct Hn' as [->|[->|[->|[->| ->]]]].
  - change (Z.to_nat (2 * 1 - 1)) with 1%nat in Hk. do 2 (destruct k as [|k]; [unfold quadrature, moment; cbn; lra|]). lia.
  - change (Z.to_nat (2 * 2 - 1)) with 3%nat in Hk. unfold rules_R.
    assert (Hx : sqrt (1 / 3) * sqrt (1 / 3) = 1 / 3) by (apply sqrt_sqrt; lra). set (x := sqrt (1 / 3)) in *. clearbody x.
    do 4 (destruct k as [|k]; [unfold quadrature, moment; cbn; nra|]). lia.
  - change (Z.to_nat (2 * 3 - 1)) with 5%nat in Hk. unfold rules_R.
    assert (Hx : sqrt (3 / 5) * sqrt (3 / 5) = 3 / 5) by (apply sqrt_sqrt; lra). set (x := sqrt (3 / 5)) in *. clearbody x.
    assert (H4 : x * x * (x * x) = 9 / 25) by (rewrite Hx; lra).
    do 6 (destruct k as [|k]; [unfold quadrature, moment; cbn; lra|]). lia.
  - change (Z.to_nat (2 * 4 - 1)) with 7%nat in Hk. unfold rules_R. pose proof s30.
    assert (Hs : sqrt 30 * sqrt 30 = 30) by (apply sqrt_sqrt; lra). set (s := sqrt 30) in *. clearbody s.
    assert (Hx : sqrt (3 / 7 + 2 / 35 * s) * sqrt (3 / 7 + 2 / 35 * s) = 3 / 7 + 2 / 35 * s) by (apply sqrt_sqrt; lra).
    assert (Hy : sqrt (3 / 7 - 2 / 35 * s) * sqrt (3 / 7 - 2 / 35 * s) = 3 / 7 - 2 / 35 * s) by (apply sqrt_sqrt; lra).
    set (x := sqrt (3 / 7 + 2 / 35 * s)) in *. set (y := sqrt (3 / 7 - 2 / 35 * s)) in *. clearbody x y.
    assert (Hx4 : (x * x) * (x * x) = 9 / 49 + 24 / 245 + 12 / 245 * s) by (rewrite Hx; nra).
    assert (Hy4 : (y * y) * (y * y) = 9 / 49 + 24 / 245 - 12 / 245 * s) by (rewrite Hy; nra).
    assert (Hx6 : (x * x) * ((x * x) * (x * x)) = (3 / 7 + 2 / 35 * s) * (69 / 245 + 12 / 245 * s)) by (rewrite Hx4, Hx; lra).
    assert (Hy6 : (y * y) * ((y * y) * (y * y)) = (3 / 7 - 2 / 35 * s) * (69 / 245 - 12 / 245 * s)) by (rewrite Hy4, Hy; lra).
    assert (Hss : s * s * s = 30 * s) by (rewrite Hs; ring).
    destruct k as [|[|[|[|[|[|[|[|k]]]]]]]]; [..|lia]; unfold quadrature, moment; cbn [lsum fst snd].
    + cbn. lra.
    + cbn. lra.
    + replace ((- x) ^ 2) with (x * x) by ring. replace ((- y) ^ 2) with (y * y) by ring. replace (y ^ 2) with (y * y) by ring. replace (x ^ 2) with (x * x) by ring.
      rewrite Hx, Hy. cbn. nra.
    + cbn. lra.
    + replace ((- x) ^ 4) with ((x * x) * (x * x)) by ring. replace ((- y) ^ 4) with ((y * y) * (y * y)) by ring. replace (y ^ 4) with ((y * y) * (y * y)) by ring. replace (x ^ 4) with ((x * x) * (x * x)) by ring.
      rewrite Hx4, Hy4. cbn. nra.
    + cbn. lra.
    + replace ((- x) ^ 6) with ((x * x) * ((x * x) * (x * x))) by ring. replace ((- y) ^ 6) with ((y * y) * ((y * y) * (y * y))) by ring. replace (y ^ 6) with ((y * y) * ((y * y) * (y * y))) by ring. replace (x ^ 6) with ((x * x) * ((x * x) * (x * x))) by ring.
      rewrite Hx6, Hy6. cbn. lra.
    + cbn. lra.
  - change (Z.to_nat (2 * 5 - 1)) with 9%nat in Hk. unfold rules_R. pose proof s70.
    assert (Hs : sqrt 70 * sqrt 70 = 70) by (apply sqrt_sqrt; lra). set (s := sqrt 70) in *. clearbody s.
    assert (Hx : sqrt (5 + 2 / 7 * s) * sqrt (5 + 2 / 7 * s) = 5 + 2 / 7 * s) by (apply sqrt_sqrt; lra).
    assert (Hy : sqrt (5 - 2 / 7 * s) * sqrt (5 - 2 / 7 * s) = 5 - 2 / 7 * s) by (apply sqrt_sqrt; lra).
    set (x := sqrt (5 + 2 / 7 * s)) in *. set (y := sqrt (5 - 2 / 7 * s)) in *. clearbody x y.
    assert (Hx4 : (x * x) * (x * x) = 25 + 40 / 7 + 20 / 7 * s) by (rewrite Hx; nra).
    assert (Hy4 : (y * y) * (y * y) = 25 + 40 / 7 - 20 / 7 * s) by (rewrite Hy; nra).
    assert (Hx6 : (x * x) * ((x * x) * (x * x)) = (5 + 2 / 7 * s) * (215 / 7 + 20 / 7 * s)) by (rewrite Hx4, Hx; lra).
    assert (Hy6 : (y * y) * ((y * y) * (y * y)) = (5 - 2 / 7 * s) * (215 / 7 - 20 / 7 * s)) by (rewrite Hy4, Hy; lra).
    assert (Hx8 : (x * x) * (x * x) * ((x * x) * (x * x)) = (215 / 7 + 20 / 7 * s) * (215 / 7 + 20 / 7 * s)) by (rewrite Hx4; lra).
    assert (Hy8 : (y * y) * (y * y) * ((y * y) * (y * y)) = (215 / 7 - 20 / 7 * s) * (215 / 7 - 20 / 7 * s)) by (rewrite Hy4; lra).
    assert (Hss : s * s * s = 70 * s) by (rewrite Hs; ring).
    destruct k as [|[|[|[|[|[|[|[|[|[|k]]]]]]]]]]; [..|lia]; unfold quadrature, moment; cbn [lsum fst snd].
    + cbn. lra.
    + cbn. lra.
    + replace ((- (1 / 3 * x)) ^ 2) with ((x * x) / 9) by field. replace ((- (1 / 3 * y)) ^ 2) with ((y * y) / 9) by field.
      replace ((1 / 3 * x) ^ 2) with ((x * x) / 9) by field. replace ((1 / 3 * y) ^ 2) with ((y * y) / 9) by field.
      rewrite Hx, Hy. cbn. nra.
    + cbn. lra.
    + replace ((- (1 / 3 * x)) ^ 4) with ((x * x) * (x * x) / 81) by field. replace ((- (1 / 3 * y)) ^ 4) with ((y * y) * (y * y) / 81) by field.
      replace ((1 / 3 * x) ^ 4) with ((x * x) * (x * x) / 81) by field. replace ((1 / 3 * y) ^ 4) with ((y * y) * (y * y) / 81) by field.
      rewrite Hx4, Hy4. cbn. nra.
    + cbn. lra.
    + replace ((- (1 / 3 * x)) ^ 6) with ((x * x) * ((x * x) * (x * x)) / 729) by field. replace ((- (1 / 3 * y)) ^ 6) with ((y * y) * ((y * y) * (y * y)) / 729) by field.
      replace ((1 / 3 * x) ^ 6) with ((x * x) * ((x * x) * (x * x)) / 729) by field. replace ((1 / 3 * y) ^ 6) with ((y * y) * ((y * y) * (y * y)) / 729) by field.
      rewrite Hx6, Hy6. cbn. lra.
    + cbn. lra.
    + replace ((- (1 / 3 * x)) ^ 8) with ((x * x) * (x * x) * ((x * x) * (x * x)) / 6561) by field. replace ((- (1 / 3 * y)) ^ 8) with ((y * y) * (y * y) * ((y * y) * (y * y)) / 6561) by field.
      replace ((1 / 3 * x) ^ 8) with ((x * x) * (x * x) * ((x * x) * (x * x)) / 6561) by field. replace ((1 / 3 * y) ^ 8) with ((y * y) * (y * y) * ((y * y) * (y * y)) / 6561) by field.
      rewrite Hx8, Hy8. cbn. lra.
    + cbn. lra.
Qed.

Lemma gauss_exact : forall n points a d (pr : Riemann_integrable (polynomial a d) (-1) 1),
  gauss_rule (F := F) n = Some points -> (d <= Z.to_nat (2 * n - 1))%nat -> quadrature points (polynomial a d) = RiemannInt pr.
Proof.
  intros n points a d pr E Hd. apply gauss_rule_R in E. destruct E as (-> & Hn).
  rewrite polynomial_integral, primitive_moment by lra. apply (quadrature_moment _ _ _ (Z.to_nat (2 * n - 1))); [exact Hd|].
  intros k Hk. now apply rule_moments.
Qed.

Lemma gauss_weights : forall n points, gauss_rule (F := F) n = Some points ->
  length points = Z.to_nat n /\ Forall (fun xw => -1 < fst xw < 1 /\ 0 < snd xw) points /\ lsum snd points = 2.
Proof.
  intros n points E. apply gauss_rule_R in E. destruct E as (-> & Hn).
  assert (Hn' : (n = 1 \/ n = 2 \/ n = 3 \/ n = 4 \/ n = 5)%Z) by lia.
  split; [destruct Hn' as [->|[->|[->|[->| ->]]]]; reflexivity|].
  split.
  - assert (T : forall v, 0 <= v < 1 -> 0 <= sqrt v < 1).
    { intros v Hv. split; [apply sqrt_pos|]. rewrite <- sqrt_1. apply sqrt_lt_1_alt. lra. }
    destruct Hn' as [->|[->|[->|[->| ->]]]]; unfold rules_R.
    + repeat constructor; cbn; lra.
    + assert (0 <= sqrt (1 / 3) < 1) by (apply T; lra). repeat constructor; cbn [fst snd]; lra.
    + assert (0 <= sqrt (3 / 5) < 1) by (apply T; lra). repeat constructor; cbn [fst snd]; lra.
    + pose proof s30. assert (0 <= sqrt (3 / 7 + 2 / 35 * sqrt 30) < 1) by (apply T; lra).
      assert (0 <= sqrt (3 / 7 - 2 / 35 * sqrt 30) < 1) by (apply T; lra). repeat constructor; cbn [fst snd]; lra.
    + pose proof s70.
      assert (0 <= sqrt (5 + 2 / 7 * sqrt 70) < 3).
      { split; [apply sqrt_pos|]. replace 3 with (sqrt (3 * 3)) by (apply sqrt_square; lra). apply sqrt_lt_1_alt. lra. }
      assert (0 <= sqrt (5 - 2 / 7 * sqrt 70) < 3).
      { split; [apply sqrt_pos|]. replace 3 with (sqrt (3 * 3)) by (apply sqrt_square; lra). apply sqrt_lt_1_alt. lra. }
      repeat constructor; cbn [fst snd]; lra.
  - transitivity (quadrature (rules_R n) (fun x => x ^ 0)).
    + unfold quadrature. apply lsum_ext. intros xw _. cbn. ring.
    + rewrite rule_moments by lia. unfold moment. cbn. lra.
Qed.

Definition monomial (m k : nat) : R := if Nat.eqb k m then 1 else 0.

Lemma polynomial_monomial m x : polynomial (monomial m) m x = x ^ m.
Proof.
  unfold polynomial. destruct m as [|m]; [cbn; ring|]. cbn [sum_f_R0]. unfold monomial at 2. rewrite Nat.eqb_refl.
  rewrite sum_eq_R0; [ring|]. intros k Hk. unfold monomial. destruct (Nat.eqb_spec k (S m)); [lia | ring].
Qed.

Lemma moment_sum m : sum_f_R0 (fun k => monomial m k * moment k) m = moment m.
Proof.
  destruct m as [|m]; [cbn; ring|]. cbn [sum_f_R0]. unfold monomial at 2. rewrite Nat.eqb_refl.
  rewrite sum_eq_R0; [ring|]. intros k Hk. unfold monomial. destruct (Nat.eqb_spec k (S m)); [lia | ring].
Qed.

(* the degree cannot be raised: x^(2n) is not integrated exactly *)
Lemma rule_sharp n : (1 <= n <= 5)%Z -> quadrature (rules_R n) (fun x => x ^ Z.to_nat (2 * n)) <> moment (Z.to_nat (2 * n)).
Proof.
  intros Hn. assert (Hn' : (n = 1 \/ n = 2 \/ n = 3 \/ n = 4 \/ n = 5)%Z) by lia.
  destruct Hn' as [->|[->|[->|[->| ->]]]].
  - change (Z.to_nat (2 * 1)) with 2%nat. unfold quadrature, moment, rules_R. cbn. lra.
  - change (Z.to_nat (2 * 2)) with 4%nat. unfold quadrature, moment, rules_R. cbn [lsum fst snd].
    assert (Hx : sqrt (1 / 3) * sqrt (1 / 3) = 1 / 3) by (apply sqrt_sqrt; lra). set (x := sqrt (1 / 3)) in *. clearbody x.
    replace ((- x) ^ 4) with ((x * x) * (x * x)) by ring. replace (x ^ 4) with ((x * x) * (x * x)) by ring. rewrite Hx. cbn. lra.
  - change (Z.to_nat (2 * 3)) with 6%nat. unfold quadrature, moment, rules_R. cbn [lsum fst snd].
    assert (Hx : sqrt (3 / 5) * sqrt (3 / 5) = 3 / 5) by (apply sqrt_sqrt; lra). set (x := sqrt (3 / 5)) in *. clearbody x.
    replace ((- x) ^ 6) with ((x * x) * (x * x) * (x * x)) by ring. replace (x ^ 6) with ((x * x) * (x * x) * (x * x)) by ring. rewrite Hx. cbn. lra.
  - change (Z.to_nat (2 * 4)) with 8%nat. unfold quadrature, moment, rules_R. cbn [lsum fst snd]. pose proof s30.
    assert (Hs : sqrt 30 * sqrt 30 = 30) by (apply sqrt_sqrt; lra). set (s := sqrt 30) in *. clearbody s.
    assert (Hx : sqrt (3 / 7 + 2 / 35 * s) * sqrt (3 / 7 + 2 / 35 * s) = 3 / 7 + 2 / 35 * s) by (apply sqrt_sqrt; lra).
    assert (Hy : sqrt (3 / 7 - 2 / 35 * s) * sqrt (3 / 7 - 2 / 35 * s) = 3 / 7 - 2 / 35 * s) by (apply sqrt_sqrt; lra).
    set (x := sqrt (3 / 7 + 2 / 35 * s)) in *. set (y := sqrt (3 / 7 - 2 / 35 * s)) in *. clearbody x y.
    assert (Hx4 : (x * x) * (x * x) = 69 / 245 + 12 / 245 * s) by (rewrite Hx; nra).
    assert (Hy4 : (y * y) * (y * y) = 69 / 245 - 12 / 245 * s) by (rewrite Hy; nra).
    assert (Hss : s * s * s = 30 * s) by (rewrite Hs; ring).
    replace ((- x) ^ 8) with ((x * x) * (x * x) * ((x * x) * (x * x))) by ring. replace ((- y) ^ 8) with ((y * y) * (y * y) * ((y * y) * (y * y))) by ring.
    replace (y ^ 8) with ((y * y) * (y * y) * ((y * y) * (y * y))) by ring. replace (x ^ 8) with ((x * x) * (x * x) * ((x * x) * (x * x))) by ring.
    rewrite Hx4, Hy4. cbn. lra.
  - change (Z.to_nat (2 * 5)) with 10%nat. unfold quadrature, moment, rules_R. cbn [lsum fst snd]. pose proof s70.
    assert (Hs : sqrt 70 * sqrt 70 = 70) by (apply sqrt_sqrt; lra). set (s := sqrt 70) in *. clearbody s.
    assert (Hx : sqrt (5 + 2 / 7 * s) * sqrt (5 + 2 / 7 * s) = 5 + 2 / 7 * s) by (apply sqrt_sqrt; lra).
    assert (Hy : sqrt (5 - 2 / 7 * s) * sqrt (5 - 2 / 7 * s) = 5 - 2 / 7 * s) by (apply sqrt_sqrt; lra).
    set (x := sqrt (5 + 2 / 7 * s)) in *. set (y := sqrt (5 - 2 / 7 * s)) in *. clearbody x y.
    assert (Hx4 : (x * x) * (x * x) = 215 / 7 + 20 / 7 * s) by (rewrite Hx; nra).
    assert (Hy4 : (y * y) * (y * y) = 215 / 7 - 20 / 7 * s) by (rewrite Hy; nra).
    assert (Hx8 : (x * x) * (x * x) * ((x * x) * (x * x)) = (46225 + 28000) / 49 + 8600 / 49 * s) by (rewrite Hx4; nra).
    assert (Hy8 : (y * y) * (y * y) * ((y * y) * (y * y)) = (46225 + 28000) / 49 - 8600 / 49 * s) by (rewrite Hy4; nra).
    assert (Hss : s * s * s = 70 * s) by (rewrite Hs; ring).
    replace ((- (1 / 3 * x)) ^ 10) with ((x * x) * (x * x) * ((x * x) * (x * x)) * (x * x) / 59049) by field. replace ((- (1 / 3 * y)) ^ 10) with ((y * y) * (y * y) * ((y * y) * (y * y)) * (y * y) / 59049) by field.
    replace ((1 / 3 * x) ^ 10) with ((x * x) * (x * x) * ((x * x) * (x * x)) * (x * x) / 59049) by field. replace ((1 / 3 * y) ^ 10) with ((y * y) * (y * y) * ((y * y) * (y * y)) * (y * y) / 59049) by field.
    rewrite Hx8, Hy8, Hx, Hy. cbn. lra.
Qed.

Lemma gauss_sharp : forall n points, gauss_rule (F := F) n = Some points ->
  exists a (pr : Riemann_integrable (polynomial a (Z.to_nat (2 * n))) (-1) 1),
    quadrature points (polynomial a (Z.to_nat (2 * n))) <> RiemannInt pr.
Proof.
  intros n points E. apply gauss_rule_R in E. destruct E as (-> & Hn).
  exists (monomial (Z.to_nat (2 * n))), (polynomial_integrable _ _ _ _).
  rewrite polynomial_integral, primitive_moment, moment_sum by lra.
  replace (quadrature (rules_R n) (polynomial (monomial (Z.to_nat (2 * n))) (Z.to_nat (2 * n)))) with
    (quadrature (rules_R n) (fun x => x ^ Z.to_nat (2 * n))); [now apply rule_sharp|].
  unfold quadrature. apply lsum_ext. intros p _. now rewrite polynomial_monomial.
Qed.
Lemma gauss_none : forall n, (n < 1 \/ 5 < n)%Z -> gauss_rule (F := F) n = None.
Proof.
  intros n H. unfold gauss_rule.
  destruct (Z.eqb_spec n 1); [lia|]. destruct (Z.eqb_spec n 2); [lia|]. destruct (Z.eqb_spec n 3); [lia|].
  destruct (Z.eqb_spec n 4); [lia|]. destruct (Z.eqb_spec n 5); [lia|]. reflexivity.
Qed.
End Model.

Lemma ex_gauss : exists points, gauss_rule (F := Rops (fun x => x)) 3 = Some points /\ (5 <= Z.to_nat (2 * 3 - 1))%nat /\
  inhabited (Riemann_integrable (polynomial INR 5) (-1) 1).
Proof. eexists. split; [reflexivity|]. split; [cbn; lia|]. constructor. apply polynomial_integrable. Qed.
