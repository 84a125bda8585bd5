(* Evaluation of NURBS in doubles: error of one term and of the sum of the weights. *)
From Coq Require Import ZArith List Bool Lia Reals Floats Lra Psatz.
From Verif Require Import Base RSum DoubleSpec DoubleFacts DoubleError DoubleKnots DoubleBasis DoubleSum.
Import ListNotations.
Open Scope R_scope.

Lemma close0_within f x X : 1 <= f <= 4 / 3 -> 0 <= X -> Rabs (x - X) <= (f - 1) * X -> within (f * f) x X.
Proof.
  intros Hf HX H. assert (A : - ((f - 1) * X) <= x - X <= (f - 1) * X).
  { unfold Rabs in H. destruct (Rcase_abs (x - X)); lra. }
  split; [exact HX|]. split.
  - assert (x >= (2 - f) * X) by lra. assert (1 <= f * f * (2 - f)).
    { replace (f * f * (2 - f)) with (1 + (f - 1) * (1 - (f - 1) - (f - 1) * (f - 1))) by ring.
      assert (0 <= (f - 1) * (1 - (f - 1) - (f - 1) * (f - 1))) by (apply Rmult_le_pos; nra). lra. }
    apply Rle_trans with (f * f * ((2 - f) * X)); [nra|]. apply Rmult_le_compat_l; [nra | lra].
  - apply Rle_trans with (f * X); [lra|]. rewrite Rmult_assoc. apply Rle_trans with (1 * (f * X)); [lra|]. apply Rmult_le_compat_r; nra.
Qed.

Lemma factor_bounds d : Rabs d <= roundoff -> / phi <= 1 + d <= phi.
Proof.
  intros H. assert (- roundoff <= d <= roundoff) as [D1 D2] by (unfold Rabs in H; destruct (Rcase_abs d); lra).
  pose proof phi_ge1. unfold phi at 1. rewrite Rinv_inv. lra.
Qed.
Lemma unit_range q r : 1 <= q -> / q <= r <= q -> Rabs (r - 1) <= q - 1.
Proof.
  intros Hq [A B]. assert (2 - q <= / q).
  { apply (Rmult_le_reg_r q); [lra|]. rewrite Rinv_l by lra. nra. }
  apply Rabs_le. lra.
Qed.
Lemma range_mul p q r s : 1 <= p -> 1 <= q -> / p <= r <= p -> / q <= s <= q -> / (p * q) <= r * s <= p * q.
Proof.
  intros Hp Hq [A B] [C D]. assert (0 < / p) by (apply Rinv_0_lt_compat; lra). assert (0 < / q) by (apply Rinv_0_lt_compat; lra).
  rewrite Rinv_mult. split; apply Rmult_le_compat; lra.
Qed.

(* b times x w divided by the computed sum of the weights *)
Lemma quotient_error (b x w ws : float) f S N M q W : finite b -> moderate x -> Rabs (dval x) <= M -> M <= 2 ^ 500 ->
  finite w -> / 2 ^ 100 <= dval w <= 2 ^ 100 -> / 2 ^ 100 <= W <= 2 ^ 100 -> within q (dval ws) W -> 1 <= q <= 4 / 3 ->
  1 <= f <= 4 / 3 -> 0 <= S <= / 2 -> N <= 1 -> close f S (dval b) N ->
  finite (b * (x * w) / ws)%float /\
  Rabs (dval (b * (x * w) / ws)%float - N * dval w / W * dval x) <=
    (f * (q * phi ^ 3) - 1) * (N * dval w / W) * M + (2 ^ 202 * S * M + 2 ^ 104 * underflow).
Proof.
  intros Fb [Fx Mx] HM HM5 Fw Bw BW Ww Hq Hf HS HN Cb. pose proof (close_upper _ _ _ _ Cb) as Ub. destruct Cb as (A & B & C).
  assert (I100 : 0 < / 2 ^ 100) by (apply Rinv_0_lt_compat, pow_lt; lra).
  assert (W0 : 0 < W) by lra. assert (w0 : 0 < dval w) by lra.
  pose proof (within_inv q _ W ltac:(lra) W0 Ww) as Wi. pose proof Ww as (_ & Ww1 & Ww2).
  assert (ws0 : 0 < dval ws) by nra.
  assert (iW : / W <= 2 ^ 100).
  { rewrite <- (Rinv_inv (2 ^ 100)). apply Rinv_le_contravar; lra. }
  assert (iW0 : 0 < / W) by (apply Rinv_0_lt_compat; lra). assert (iws0 : 0 < / dval ws) by (apply Rinv_0_lt_compat; lra).
  assert (iws : / dval ws <= 2 ^ 101).
  { destruct Wi as (_ & _ & Wi2). replace (2 ^ 101) with (2 * 2 ^ 100) by ring. nra. }
  assert (Bb : Rabs (dval b) <= 2 ^ 1) by (rewrite Rabs_right by lra; cbn [pow]; nra).
  assert (Bx : Rabs (dval x * dval w) <= 2 ^ 600).
  { rewrite Rabs_mult, (Rabs_right (dval w)) by lra. replace (2 ^ 600) with (2 ^ 500 * 2 ^ 100) by (rewrite pow2_mul; reflexivity).
    apply Rmult_le_compat; try lra; auto using Rabs_pos. }
  destruct (mul_exact x w Fx Fw) as [F1 E1]; [eapply Rle_trans; [exact Bx | apply pow2_le; lia]|].
  assert (B1 : Rabs (dval (x * w)%float) <= 2 ^ 600) by (rewrite E1; apply rnd_abs_le; [lia | exact Bx]).
  assert (Bbx : Rabs (dval b * dval (x * w)%float) <= 2 ^ 601).
  { rewrite Rabs_mult. replace (2 ^ 601) with (2 ^ 1 * 2 ^ 600) by (rewrite pow2_mul; reflexivity).
    apply Rmult_le_compat; auto using Rabs_pos. }
  destruct (mul_exact b (x * w) Fb F1) as [F2 E2]; [eapply Rle_trans; [exact Bbx | apply pow2_le; lia]|].
  assert (B2 : Rabs (dval (b * (x * w))%float) <= 2 ^ 601) by (rewrite E2; apply rnd_abs_le; [lia | exact Bbx]).
  assert (Bq : Rabs (dval (b * (x * w))%float / dval ws) <= 2 ^ 702).
  { unfold Rdiv. rewrite Rabs_mult, (Rabs_right (/ dval ws)) by lra.
    replace (2 ^ 702) with (2 ^ 601 * 2 ^ 101) by (rewrite pow2_mul; reflexivity).
    apply Rmult_le_compat; auto using Rabs_pos. lra. }
  destruct (div_exact (b * (x * w)) ws F2) as [F3 E3]; [lra | eapply Rle_trans; [exact Bq | apply pow2_le; lia]|].
  split; [exact F3|]. rewrite E3. destruct (rnd_error (dval (b * (x * w))%float / dval ws)) as (d3 & h3 & Hd3 & Hh3 & ->).
  rewrite E2. destruct (rnd_error (dval b * dval (x * w)%float)) as (d2 & h2 & Hd2 & Hh2 & ->).
  rewrite E1. destruct (rnd_error (dval x * dval w)) as (d1 & h1 & Hd1 & Hh1 & ->).
  clear E1 E2 E3 F1 F2 F3 B1 B2 Bbx Bq Bx.
  set (wv := dval w) in *. set (xv := dval x) in *. set (bv := dval b) in *. set (sv := dval ws) in *. clearbody wv xv bv sv.
  pose proof phi_gt as Pg. pose proof phi_small_const as Pc. pose proof underflow_pos as Up.
  pose proof (factor_bounds d1 Hd1) as R1. pose proof (factor_bounds d2 Hd2) as R2. pose proof (factor_bounds d3 Hd3) as R3.
  set (rho := ((1 + d1) * (1 + d2) * (1 + d3)) * (W * / sv)).
  assert (Rrho : / (phi ^ 3 * q) <= rho <= phi ^ 3 * q).
  { unfold rho. apply range_mul; try lra; [apply phi_pow_ge | |].
    - replace (phi ^ 3) with (phi * phi * phi) by ring. apply range_mul; try lra; [nra|]. apply range_mul; lra.
    - destruct Wi as (_ & Wi1 & Wi2). split.
      + apply (Rmult_le_reg_r q); [lra|]. rewrite Rinv_l by lra. apply Rle_trans with (W * / W); [rewrite Rinv_r; lra|].
        rewrite Rmult_assoc. apply Rmult_le_compat_l; [lra|]. rewrite Rmult_comm. exact Wi1.
      + apply Rle_trans with (W * (q * / W)); [apply Rmult_le_compat_l; lra|]. right. field. lra. }
  set (Q := q * phi ^ 3) in *. replace (phi ^ 3 * q) with Q in Rrho by (unfold Q; ring).
  assert (Q1 : 1 <= Q) by (unfold Q; pose proof (phi_pow_ge 3); nra).
  assert (Q2 : Q <= 3 / 2).
  { assert (phi ^ 3 <= 101 / 100) by (cbn [pow]; nra). assert (0 <= phi ^ 3) by (pose proof (phi_pow_ge 3); lra).
    unfold Q. apply Rle_trans with (4 / 3 * (101 / 100)); [apply Rmult_le_compat; lra | lra]. }
  pose proof (unit_range Q rho Q1 Rrho) as Ur.
  assert (Rp : 0 < rho) by (assert (0 < / Q) by (apply Rinv_0_lt_compat; lra); lra).
  replace ((bv * (xv * wv * (1 + d1) + h1) * (1 + d2) + h2) / sv * (1 + d3) + h3 - N * wv / W * xv) with
    ((bv * rho - N) * (wv / W) * xv + (bv * h1 * ((1 + d2) * (1 + d3)) + h2 * (1 + d3)) * / sv + h3)
    by (unfold rho; field; split; lra).
  assert (K : Rabs (bv * rho - N) <= (f * Q - 1) * N + Q * S).
  { replace (bv * rho - N) with ((bv - N) * rho + N * (rho - 1)) by ring.
    eapply Rle_trans; [apply Rabs_triang|]. rewrite !Rabs_mult, (Rabs_right N), (Rabs_right rho) by lra.
    assert (E1 : Rabs (bv - N) * rho <= ((f - 1) * N + S) * Q) by (apply Rmult_le_compat; auto using Rabs_pos; lra).
    assert (E2 : N * Rabs (rho - 1) <= N * (Q - 1)) by (apply Rmult_le_compat_l; lra). lra. }
  assert (wW0 : 0 <= wv / W) by (unfold Rdiv; apply Rmult_le_pos; lra).
  assert (wW : wv / W <= 2 ^ 200).
  { unfold Rdiv. replace (2 ^ 200) with (2 ^ 100 * 2 ^ 100) by (rewrite pow2_mul; reflexivity). apply Rmult_le_compat; lra. }
  assert (M0 : 0 <= M) by (pose proof (Rabs_pos xv); lra).
  assert (T1 : Rabs ((bv * rho - N) * (wv / W) * xv) <= (f * Q - 1) * (N * wv / W) * M + 2 ^ 202 * S * M).
  { rewrite !Rabs_mult, (Rabs_right (wv / W)) by lra.
    apply Rle_trans with (((f * Q - 1) * N + Q * S) * (wv / W) * M).
    - apply Rmult_le_compat; auto using Rabs_pos; [apply Rmult_le_pos; auto using Rabs_pos|].
      apply Rmult_le_compat_r; auto.
    - replace (((f * Q - 1) * N + Q * S) * (wv / W) * M) with ((f * Q - 1) * (N * wv / W) * M + Q * (wv / W) * (S * M)) by (unfold Rdiv; ring).
      apply Rplus_le_compat_l. rewrite (Rmult_assoc (2 ^ 202)). apply Rmult_le_compat_r; [apply Rmult_le_pos; lra|].
      replace (2 ^ 202) with (4 * 2 ^ 200) by (replace 202%nat with (2 + 200)%nat by lia; rewrite pow_add; ring).
      apply Rmult_le_compat; lra. }
  assert (T2 : Rabs ((bv * h1 * ((1 + d2) * (1 + d3)) + h2 * (1 + d3)) * / sv) <= 6 * underflow * 2 ^ 101).
  { rewrite Rabs_mult, (Rabs_right (/ sv)) by lra. apply Rmult_le_compat; auto using Rabs_pos; [lra|].
    assert (P0 : 0 < / phi) by (apply Rinv_0_lt_compat; lra).
    eapply Rle_trans; [apply Rabs_triang|]. rewrite !Rabs_mult, (Rabs_right (1 + d2)), (Rabs_right (1 + d3)) by lra.
    assert (E1 : Rabs bv * Rabs h1 <= 2 * underflow) by (apply Rmult_le_compat; auto using Rabs_pos; lra).
    assert (E2 : (1 + d2) * (1 + d3) <= 2) by nra. assert (E3 : 0 <= (1 + d2) * (1 + d3)) by nra.
    assert (E4 : Rabs bv * Rabs h1 * ((1 + d2) * (1 + d3)) <= 2 * underflow * 2).
    { apply Rmult_le_compat; auto. apply Rmult_le_pos; apply Rabs_pos. }
    assert (E5 : Rabs h2 * (1 + d3) <= underflow * 2) by (apply Rmult_le_compat; auto using Rabs_pos; lra). lra. }
  eapply Rle_trans; [apply Rabs_triang|]. eapply Rle_trans; [apply Rplus_le_compat_r, Rabs_triang|].
  replace (2 ^ 104 * underflow) with (8 * underflow * 2 ^ 101) by (replace 104%nat with (3 + 101)%nat by lia; rewrite pow_add; ring).
  assert (underflow * 1 <= underflow * 2 ^ 101) by (apply Rmult_le_compat_l; [lra | apply pow2_ge1]). lra.
Qed.
