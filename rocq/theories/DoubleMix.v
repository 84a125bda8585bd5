(* The quotients and the affine combinations of knot insertion in doubles. *)
From Coq Require Import ZArith List Bool Lia Reals Floats Lra Psatz.
From Verif Require Import Base DoubleSpec DoubleFacts DoubleError DoubleKnots DoubleBasis.
Open Scope R_scope.

Lemma roundoff_tiny : roundoff <= / 2 ^ 53.
Proof. unfold roundoff. lra. Qed.
Lemma underflow_tiny : underflow <= roundoff * roundoff.
Proof.
  unfold underflow, roundoff. rewrite <- Rinv_mult, pow2_mul. apply Rinv_le_contravar; [apply pow_lt; lra | apply pow2_le; lia].
Qed.
Lemma Rabs_between x b : Rabs x <= b -> - b <= x <= b.
Proof. intros H. unfold Rabs in H. destruct (Rcase_abs x); lra. Qed.

Lemma rnd_one : rnd 1 = 1.
Proof. rewrite <- (proj2 one_exact). apply rnd_id. Qed.

(* (u - lo) / (up - lo) *)
Lemma quotient_error u lo up : moderate u -> moderate lo -> moderate up -> dval lo < dval u -> dval u < dval up ->
  let a := ((u - lo) / (up - lo))%float in
  finite a /\ 0 <= dval a <= 1 /\ Rabs (dval a - (dval u - dval lo) / (dval up - dval lo)) <= 4 * roundoff.
Proof.
  intros Mu Ml Mp H1 H2. cbv zeta.
  destruct (sub_moderate u lo Mu Ml) as (F1 & E1 & d1 & D1 & E1').
  destruct (sub_moderate up lo Mp Ml) as (F2 & E2 & d2 & D2 & E2').
  pose proof roundoff_pos as Rp. pose proof roundoff_lt as Rl. pose proof underflow_pos as Up. pose proof underflow_tiny as Ut.
  apply Rabs_between in D1. apply Rabs_between in D2.
  set (x := dval u - dval lo) in *. set (y := dval up - dval lo) in *. assert (X : 0 < x) by (unfold x; lra). assert (XY : x < y) by (unfold x, y; lra).
  assert (P2 : 0 < dval (up - lo)%float) by (rewrite E2'; apply Rmult_lt_0_compat; lra).
  assert (P1 : 0 < dval (u - lo)%float) by (rewrite E1'; apply Rmult_lt_0_compat; lra).
  assert (L12 : dval (u - lo)%float <= dval (up - lo)%float) by (rewrite E1, E2; apply rnd_le; lra).
  set (q := dval (u - lo)%float / dval (up - lo)%float).
  assert (Q0 : 0 <= q <= 1).
  { unfold q. split; [apply Rmult_le_pos; [lra | left; now apply Rinv_0_lt_compat]|].
    apply (Rmult_le_reg_r (dval (up - lo)%float)); [exact P2|]. unfold Rdiv. rewrite Rmult_assoc, Rinv_l by lra. lra. }
  destruct (div_exact (u - lo)%float (up - lo)%float F1 ltac:(lra)) as [F3 E3].
  { fold q. rewrite Rabs_right by lra. apply Rle_trans with 1; [lra | apply pow2_ge1]. }
  fold q in E3. split; [exact F3|]. rewrite E3. split.
  - split; [apply rnd_nonneg; lra | rewrite <- rnd_one; apply rnd_le; lra].
  - destruct (rnd_error q) as (d & h & Hd & Hh & ->). apply Rabs_between in Hd. apply Rabs_between in Hh.
    set (z := x / y). assert (Z0 : 0 <= z <= 1).
    { unfold z. split; [apply Rmult_le_pos; [lra | left; apply Rinv_0_lt_compat; lra]|].
      apply (Rmult_le_reg_r y); [lra|]. unfold Rdiv. rewrite Rmult_assoc, Rinv_l by lra. lra. }
    assert (Eq : q * (1 + d2) = z * (1 + d1)).
    { unfold q, z. rewrite E1', E2'. field. split; lra. }
    assert (Dq : Rabs (q - z) <= 21 / 10 * roundoff).
    { assert (E : (q - z) * (1 + d2) = z * (d1 - d2)) by lra. apply Rabs_le.
      assert (- (2 * roundoff) <= z * (d1 - d2) <= 2 * roundoff) by (split; nra). split; nra. }
    apply Rabs_between in Dq.
    assert (- roundoff <= q * d <= roundoff) by (split; nra).
    assert (roundoff * roundoff <= / 1000 * roundoff) by nra.
    apply Rabs_le. lra.
Qed.

(* a x + (1 - a) y *)
Definition mix_error (M : R) : R := 14 * roundoff * M + 3 * underflow.
Lemma mix_close a al x y M : finite a -> 0 <= dval a <= 1 -> 0 <= al <= 1 -> Rabs (dval a - al) <= 4 * roundoff ->
  finite x -> finite y -> Rabs (dval x) <= M -> Rabs (dval y) <= M -> M <= 2 ^ 1000 ->
  let v := (a * x + (1 - a) * y)%float in
  finite v /\ Rabs (dval v - (al * dval x + (1 - al) * dval y)) <= mix_error M.
Proof.
  intros Fa Ha Hal Da Fx Fy Hx Hy HM. cbv zeta. unfold mix_error.
  pose proof roundoff_pos as Rp. pose proof roundoff_lt as Rl. pose proof underflow_pos as Up. pose proof underflow_tiny as Ut.
  assert (M0 : 0 <= M) by (eapply Rle_trans; [apply Rabs_pos | exact Hx]).
  assert (B500 : 2 * 2 ^ 1000 <= 2 ^ 1022) by (rewrite (tech_pow_Rmult 2 1000); apply pow2_le; lia).
  assert (B1022 : 2 ^ 1022 + 2 ^ 1022 = 2 ^ 1023) by (rewrite <- (tech_pow_Rmult 2 1022); ring).
  assert (B1 : 1 <= 2 ^ 1000) by apply pow2_ge1.
  assert (Big : forall z, Rabs z <= 2 * M + 2 -> Rabs z <= 2 ^ 1023).
  { intros z Hz. revert B500 B1022 B1 HM. generalize (2 ^ 1000) (2 ^ 1022) (2 ^ 1023). intros. lra. }
  clear B500 B1022 B1 HM.
  destruct one_exact as [F1 E1].
  (* 1 - a *)
  destruct (sub_exact 1 a F1 Fa) as [Fb Eb]; [apply Big; rewrite E1, Rabs_right by lra; lra|].
  destruct (rnd_minus 1 a) as (d0 & D0 & Eb'). rewrite <- Eb in Eb'. rewrite E1 in Eb, Eb'. apply Rabs_between in D0.
  assert (Hb : 0 <= dval (1 - a)%float <= 1).
  { rewrite Eb. split; [apply rnd_nonneg; lra | apply Rle_trans with (rnd 1); [apply rnd_le; lra | rewrite rnd_one; lra]]. }
  set (b := (1 - a)%float) in *. apply Rabs_between in Da.
  assert (Db : - (5 * roundoff) <= dval b - (1 - al) <= 5 * roundoff).
  { assert (- roundoff <= (1 - dval a) * d0 <= roundoff) by (split; nra). rewrite Eb'. lra. }
  (* products *)
  assert (Pr : forall c ce z, finite c -> 0 <= dval c <= 1 -> - (5 * roundoff) <= dval c - ce <= 5 * roundoff -> finite z -> Rabs (dval z) <= M ->
    finite (c * z)%float /\ Rabs (dval (c * z)%float - ce * dval z) <= 6 * roundoff * M + underflow).
  { intros c ce z Fc Hc Dc Fz Hz.
    assert (Bz : Rabs (dval c * dval z) <= M).
    { rewrite Rabs_mult, (Rabs_right (dval c)) by lra. rewrite <- (Rmult_1_l M). apply Rmult_le_compat; auto using Rabs_pos; lra. }
    destruct (mul_exact c z Fc Fz) as [Fp Ep]; [apply Big; lra|]. split; [exact Fp|]. rewrite Ep.
    destruct (rnd_error (dval c * dval z)) as (d & h & Hd & Hh & ->).
    replace (dval c * dval z * (1 + d) + h - ce * dval z) with ((dval c - ce) * dval z + dval c * dval z * d + h) by ring.
    eapply Rle_trans; [apply Rabs_triang|]. apply Rplus_le_compat; [|exact Hh].
    eapply Rle_trans; [apply Rabs_triang|]. rewrite !(Rabs_mult _ d), (Rabs_mult (dval c - ce)).
    assert (Rabs (dval c - ce) <= 5 * roundoff) by (apply Rabs_le; lra).
    assert (Rabs (dval c - ce) * Rabs (dval z) <= 5 * roundoff * M) by (apply Rmult_le_compat; auto using Rabs_pos).
    assert (Rabs (dval c * dval z) * Rabs d <= M * roundoff) by (apply Rmult_le_compat; auto using Rabs_pos). lra. }
  destruct (Pr a al x Fa Ha ltac:(lra) Fx Hx) as [Fp Ep]. destruct (Pr b (1 - al) y Fb Hb Db Fy Hy) as [Fq Eq]. clear Pr.
  set (p := (a * x)%float) in *. set (q := (b * y)%float) in *.
  set (e := al * dval x + (1 - al) * dval y) in *.
  assert (He : Rabs e <= M).
  { apply Rabs_between in Hx. apply Rabs_between in Hy. unfold e.
    assert (al * - M <= al * dval x <= al * M) by (split; apply Rmult_le_compat_l; lra).
    assert ((1 - al) * - M <= (1 - al) * dval y <= (1 - al) * M) by (split; apply Rmult_le_compat_l; lra).
    apply Rabs_le. lra. }
  apply Rabs_between in Ep. apply Rabs_between in Eq. apply Rabs_between in He.
  set (t := roundoff * M) in *. assert (T0 : 0 <= t <= M / 1000).
  { unfold t. split; [apply Rmult_le_pos; lra|]. replace (M / 1000) with (/ 1000 * M) by field. apply Rmult_le_compat_r; lra. }
  assert (Hs : - (12 * t + 2 * underflow) <= dval p + dval q - e <= 12 * t + 2 * underflow) by (unfold e, t; lra).
  assert (Us : underflow < / 1000).
  { assert (roundoff * roundoff <= roundoff * 1) by (apply Rmult_le_compat_l; lra). lra. }
  destruct (add_exact p q Fp Fq) as [Fv Ev]; [apply Big, Rabs_le; lra|].
  split; [exact Fv|]. rewrite Ev. destruct (rnd_plus p q) as (d & Hd & ->). apply Rabs_between in Hd.
  set (s := dval p + dval q) in *.
  assert (Rabs (s * d) <= (M + 12 * t + 2 * underflow) * roundoff).
  { rewrite Rabs_mult. apply Rmult_le_compat; auto using Rabs_pos; apply Rabs_le; lra. }
  apply Rabs_between in H.
  assert (t * roundoff <= t * / 1000) by (apply Rmult_le_compat_l; lra). assert (underflow * roundoff <= underflow * / 1000) by (apply Rmult_le_compat_l; lra).
  replace (s * (1 + d) - e) with ((s - e) + s * d) by ring.
  assert (Mt : M * roundoff = t) by (unfold t; ring). 
  assert (He' : (M + 12 * t + 2 * underflow) * roundoff = t + 12 * (t * roundoff) + 2 * (underflow * roundoff)) by (rewrite <- Mt at 2; ring).
  rewrite He' in H. apply Rabs_le. replace (14 * roundoff * M) with (14 * t) by (unfold t; ring). lra.
Qed.
