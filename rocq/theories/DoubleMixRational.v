(* The affine combinations of weights and weighted points in knot insertion, in doubles. *)
From Coq Require Import ZArith List Bool Lia Reals Floats Lra Psatz.
From Verif Require Import Base DoubleSpec DoubleFacts DoubleError DoubleKnots DoubleBasis DoubleMix.
Open Scope R_scope.

(* error of a weighted coordinate; X bounds the coordinates and Y the weights *)
Definition hom_error (X Y : R) : R := 20 * roundoff * (X * Y) + (8 + 2 * Y) * underflow.
(* how far a coordinate can leave the range of the old ones; z bounds the weights from below *)
Definition grow (X Y z : R) : R := (X * mix_error Y + hom_error X Y) / z.

Lemma mix_error_nonneg M : 0 <= M -> 0 <= mix_error M.
Proof.
  intros H. unfold mix_error. pose proof roundoff_pos. pose proof underflow_pos. assert (0 <= roundoff * M) by (apply Rmult_le_pos; lra). lra.
Qed.
Lemma mix_error_le M N : M <= N -> mix_error M <= mix_error N.
Proof.
  intros H. unfold mix_error. pose proof roundoff_pos. assert (roundoff * M <= roundoff * N) by (apply Rmult_le_compat_l; lra). lra.
Qed.
Lemma hom_error_nonneg X Y : 0 <= X -> 0 <= Y -> 0 <= hom_error X Y.
Proof.
  intros HX HY. unfold hom_error. pose proof roundoff_pos. pose proof underflow_pos.
  assert (0 <= X * Y) by (apply Rmult_le_pos; lra). assert (0 <= roundoff * (X * Y)) by (apply Rmult_le_pos; lra).
  assert (0 <= (8 + 2 * Y) * underflow) by (apply Rmult_le_pos; lra). lra.
Qed.
Lemma grow_nonneg X Y z : 0 <= X -> 0 <= Y -> 0 < z -> 0 <= grow X Y z.
Proof.
  intros HX HY Hz. unfold grow. pose proof (hom_error_nonneg X Y HX HY). pose proof (mix_error_nonneg Y HY).
  assert (0 <= X * mix_error Y) by (apply Rmult_le_pos; lra).
  apply Rmult_le_pos; [lra|]. left. now apply Rinv_0_lt_compat.
Qed.

(* x w in doubles *)
Lemma weighted_close x w X Y : finite x -> finite w -> Rabs (dval x) <= X -> Rabs (dval w) <= Y -> X * Y <= 2 ^ 1000 ->
  finite (x * w)%float /\ Rabs (dval (x * w)%float - dval x * dval w) <= roundoff * (X * Y) + underflow.
Proof.
  intros Fx Fw Hx Hw HXY.
  assert (B : Rabs (dval x * dval w) <= X * Y) by (rewrite Rabs_mult; apply Rmult_le_compat; auto using Rabs_pos).
  destruct (mul_exact x w Fx Fw) as [F1 E1].
  { eapply Rle_trans; [exact B|]. eapply Rle_trans; [exact HXY | apply pow2_le; lia]. }
  split; [exact F1|]. rewrite E1. destruct (rnd_error (dval x * dval w)) as (d & h & Hd & Hh & ->).
  replace (dval x * dval w * (1 + d) + h - dval x * dval w) with (dval x * dval w * d + h) by ring.
  eapply Rle_trans; [apply Rabs_triang|]. apply Rplus_le_compat; [|exact Hh]. rewrite Rabs_mult, Rmult_comm.
  apply Rmult_le_compat; auto using Rabs_pos.
Qed.

Lemma rational_mix a al x y wx wy M1 m1 W1 X Y z : finite a -> 0 <= dval a <= 1 -> 0 <= al <= 1 -> Rabs (dval a - al) <= 4 * roundoff ->
  finite x -> finite y -> Rabs (dval x) <= M1 -> Rabs (dval y) <= M1 -> M1 <= X -> X <= 2 ^ 500 ->
  finite wx -> finite wy -> m1 <= dval wx <= W1 -> m1 <= dval wy <= W1 -> W1 <= Y -> Y <= 2 ^ 102 ->
  z <= m1 - mix_error Y -> / 2 ^ 102 <= z ->
  let w := (a * wx + (1 - a) * wy)%float in
  let v := ((a * (x * wx) + (1 - a) * (y * wy)) / w)%float in
  finite w /\ m1 - mix_error Y <= dval w <= W1 + mix_error Y /\ Rabs (dval w - (al * dval wx + (1 - al) * dval wy)) <= mix_error Y /\
  finite v /\ Rabs (dval v) <= M1 + grow X Y z /\
  Rabs (dval w * dval v - (al * (dval wx * dval x) + (1 - al) * (dval wy * dval y))) <= hom_error X Y.
Proof.
  intros Fa Ha Hal Da Fx Fy Hx Hy HMX HX Fwx Fwy Hwx Hwy HWY HY Hz Hz2. cbv zeta.
  pose proof roundoff_pos as Rp. pose proof roundoff_lt as Rl. pose proof underflow_pos as Up. pose proof underflow_tiny as Ut.
  assert (I102 : 0 < / 2 ^ 102) by (apply Rinv_0_lt_compat, pow_lt; lra).
  assert (M0 : 0 <= M1) by (eapply Rle_trans; [apply Rabs_pos | exact Hx]). assert (X0 : 0 <= X) by lra.
  assert (z0 : 0 < z) by lra.
  assert (E0 : 0 <= mix_error Y).
  { destruct (Rle_dec 0 Y) as [H|H]; [now apply mix_error_nonneg|]. exfalso. apply H. clear H.
    destruct (Rle_dec 0 W1); [lra|]. assert (mix_error Y <= m1 - z) by lra. assert (m1 <= W1) by lra.
    assert (Y < 0 -> - mix_error Y <= - 14 * roundoff * Y) by (intros; unfold mix_error; lra).
    destruct (Rle_dec 0 Y); [lra|]. assert (roundoff * - Y <= / 1000 * - Y) by (apply Rmult_le_compat_r; lra). lra. }
  assert (m0 : 0 < m1) by lra. assert (W0 : 0 <= W1) by lra. assert (Y0 : 0 <= Y) by lra.
  assert (BXY : X * Y <= 2 ^ 602).
  { replace (2 ^ 602) with (2 ^ 500 * 2 ^ 102) by (rewrite pow2_mul; reflexivity). apply Rmult_le_compat; lra. }
  assert (XY0 : 0 <= X * Y) by (apply Rmult_le_pos; lra).
  assert (B1 : 2 ^ 602 + 2 ^ 602 <= 2 ^ 1000).
  { replace (2 ^ 602 + 2 ^ 602) with (2 ^ 603) by (rewrite <- (tech_pow_Rmult 2 602); ring). apply pow2_le; lia. }
  assert (P602 : 1 <= 2 ^ 602) by apply pow2_ge1.
  (* the weight *)
  assert (Awx : Rabs (dval wx) <= Y) by (rewrite Rabs_right; lra). assert (Awy : Rabs (dval wy) <= Y) by (rewrite Rabs_right; lra).
  destruct (mix_close a al wx wy Y Fa Ha Hal Da Fwx Fwy Awx Awy) as [Fw Dw].
  { eapply Rle_trans; [exact HY | apply pow2_le; lia]. }
  set (w := (a * wx + (1 - a) * wy)%float) in *. set (we := al * dval wx + (1 - al) * dval wy) in *.
  assert (Rwe : m1 <= we <= W1).
  { unfold we. assert (al * m1 <= al * dval wx <= al * W1) by (split; apply Rmult_le_compat_l; lra).
    assert ((1 - al) * m1 <= (1 - al) * dval wy <= (1 - al) * W1) by (split; apply Rmult_le_compat_l; lra). lra. }
  split; [exact Fw|]. pose proof Dw as Dw'. apply Rabs_between in Dw. split; [lra|]. split; [exact Dw'|].
  (* the weighted points *)
  assert (Hx' : Rabs (dval x) <= X) by lra. assert (Hy' : Rabs (dval y) <= X) by lra.
  destruct (weighted_close x wx X Y Fx Fwx Hx' Awx ltac:(lra)) as [Fpx Dpx].
  destruct (weighted_close y wy X Y Fy Fwy Hy' Awy ltac:(lra)) as [Fpy Dpy].
  set (px := (x * wx)%float) in *. set (py := (y * wy)%float) in *.
  set (t := roundoff * (X * Y)) in *. assert (T0 : 0 <= t) by (apply Rmult_le_pos; lra).
  assert (T1 : t <= / 1000 * (X * Y)) by (apply Rmult_le_compat_r; lra).
  assert (U1 : underflow <= / 1000).
  { apply Rle_trans with (roundoff * roundoff); [exact Ut|]. assert (roundoff * roundoff <= roundoff * 1) by (apply Rmult_le_compat_l; lra). lra. }
  set (B := X * Y + t + underflow).
  assert (Ex : Rabs (dval x * dval wx) <= X * Y) by (rewrite Rabs_mult; apply Rmult_le_compat; auto using Rabs_pos).
  assert (Ey : Rabs (dval y * dval wy) <= X * Y) by (rewrite Rabs_mult; apply Rmult_le_compat; auto using Rabs_pos).
  apply Rabs_between in Dpx. apply Rabs_between in Dpy. 
  assert (Bpx : Rabs (dval px) <= B) by (apply Rabs_between in Ex; apply Rabs_le; unfold B; lra).
  assert (Bpy : Rabs (dval py) <= B) by (apply Rabs_between in Ey; apply Rabs_le; unfold B; lra).
  destruct (mix_close a al px py B Fa Ha Hal Da Fpx Fpy Bpx Bpy) as [Fh Dh].
  { unfold B. revert T1 U1 BXY B1 P602. generalize (2 ^ 602) (2 ^ 1000). intros. lra. }
  set (h := (a * px + (1 - a) * py)%float) in *.
  set (he := al * (dval wx * dval x) + (1 - al) * (dval wy * dval y)).
  apply Rabs_between in Dh.
  assert (Eh : mix_error B <= 15 * t + 4 * underflow).
  { unfold mix_error, B. replace (14 * roundoff * (X * Y + t + underflow)) with (14 * t + 14 * (roundoff * t) + 14 * (roundoff * underflow)) by (unfold t; ring).
    assert (roundoff * t <= / 1000 * t) by (apply Rmult_le_compat_r; lra). assert (roundoff * underflow <= / 1000 * underflow) by (apply Rmult_le_compat_r; lra). lra. }
  assert (Dhe : - (16 * t + 5 * underflow) <= dval h - he <= 16 * t + 5 * underflow).
  { assert (- (al * (t + underflow)) <= al * (dval px - dval x * dval wx) <= al * (t + underflow)).
    { split; [rewrite Ropp_mult_distr_r|]; apply Rmult_le_compat_l; lra. }
    assert (- ((1 - al) * (t + underflow)) <= (1 - al) * (dval py - dval y * dval wy) <= (1 - al) * (t + underflow)).
    { split; [rewrite Ropp_mult_distr_r|]; apply Rmult_le_compat_l; lra. }
    unfold he. replace (dval h - (al * (dval wx * dval x) + (1 - al) * (dval wy * dval y))) with
      ((dval h - (al * dval px + (1 - al) * dval py)) + al * (dval px - dval x * dval wx) + (1 - al) * (dval py - dval y * dval wy)) by ring. lra. }
  assert (Hhe : Rabs he <= M1 * we).
  { unfold he, we. apply Rabs_between in Hx. apply Rabs_between in Hy.
    assert (- (M1 * dval wx) <= dval wx * dval x <= M1 * dval wx) by (split; nra).
    assert (- (M1 * dval wy) <= dval wy * dval y <= M1 * dval wy) by (split; nra).
    assert (al * - (M1 * dval wx) <= al * (dval wx * dval x) <= al * (M1 * dval wx)) by (split; apply Rmult_le_compat_l; lra).
    assert ((1 - al) * - (M1 * dval wy) <= (1 - al) * (dval wy * dval y) <= (1 - al) * (M1 * dval wy)) by (split; apply Rmult_le_compat_l; lra).
    apply Rabs_le. lra. }
  assert (MW : M1 * we <= X * Y) by (apply Rmult_le_compat; lra).
  (* the division *)
  assert (w0 : 0 < dval w) by lra.
  assert (Bh : Rabs (dval h) <= X * Y + 16 * t + 5 * underflow) by (apply Rabs_between in Hhe; apply Rabs_le; lra).
  assert (iw : 0 < / dval w) by (now apply Rinv_0_lt_compat).
  assert (iw2 : / dval w <= 2 ^ 102).
  { rewrite <- (Rinv_inv (2 ^ 102)). apply Rinv_le_contravar; lra. }
  assert (Bq : Rabs (dval h / dval w) <= 2 ^ 1023).
  { unfold Rdiv. rewrite Rabs_mult, (Rabs_right (/ dval w)) by lra.
    apply Rle_trans with (2 ^ 603 * 2 ^ 102); [|rewrite pow2_mul; apply pow2_le; lia].
    apply Rmult_le_compat; [apply Rabs_pos | lra | | exact iw2]. eapply Rle_trans; [exact Bh|]. rewrite <- (tech_pow_Rmult 2 602).
    revert T1 U1 BXY P602. generalize (2 ^ 602). intros. lra. }
  destruct (div_exact h w Fh ltac:(lra) Bq) as [Fv Ev]. split; [exact Fv|].
  assert (Main : Rabs (dval w * dval (h / w)%float - he) <= hom_error X Y).
  { rewrite Ev. destruct (rnd_error (dval h / dval w)) as (d & e & Hd & He & ->).
    replace (dval w * (dval h / dval w * (1 + d) + e) - he) with ((dval h - he) + dval h * d + dval w * e) by (field; lra).
    assert (A1 : Rabs (dval h * d) <= (X * Y + 16 * t + 5 * underflow) * roundoff) by (rewrite Rabs_mult; apply Rmult_le_compat; auto using Rabs_pos).
    assert (Ww : dval w <= 2 * Y + 1).
    { assert (roundoff * Y <= / 1000 * Y) by (apply Rmult_le_compat_r; lra). unfold mix_error in Dw. lra. }
    assert (A2 : Rabs (dval w * e) <= (2 * Y + 1) * underflow).
    { rewrite Rabs_mult, (Rabs_right (dval w)) by lra. apply Rmult_le_compat; auto using Rabs_pos; lra. }
    apply Rabs_between in A1. apply Rabs_between in A2.
    assert (A3 : (X * Y + 16 * t + 5 * underflow) * roundoff <= 2 * t + underflow).
    { replace ((X * Y + 16 * t + 5 * underflow) * roundoff) with (t + 16 * (roundoff * t) + 5 * (roundoff * underflow)) by (unfold t; ring).
      assert (roundoff * t <= / 1000 * t) by (apply Rmult_le_compat_r; lra). assert (roundoff * underflow <= / 1000 * underflow) by (apply Rmult_le_compat_r; lra). lra. }
    unfold hom_error. replace (20 * roundoff * (X * Y)) with (20 * t) by (unfold t; ring). apply Rabs_le. lra. }
  split; [|exact Main].
  set (v := dval (h / w)%float) in *. apply Rabs_between in Main. apply Rabs_between in Hhe.
  assert (Q : Rabs (dval w * v) <= M1 * (dval w + mix_error Y) + hom_error X Y).
  { assert (M1 * we <= M1 * (dval w + mix_error Y)) by (apply Rmult_le_compat_l; lra). apply Rabs_le. lra. }
  rewrite Rabs_mult, (Rabs_right (dval w)) in Q by lra.
  pose proof (hom_error_nonneg X Y X0 Y0) as H0.
  assert (Q2 : dval w * Rabs v <= dval w * (M1 + grow X Y z)).
  { eapply Rle_trans; [exact Q|]. rewrite !Rmult_plus_distr_l. rewrite (Rmult_comm M1 (dval w)), Rplus_assoc. apply Rplus_le_compat_l.
    assert (M1 * mix_error Y <= X * mix_error Y) by (apply Rmult_le_compat_r; lra).
    assert (G : z * grow X Y z <= dval w * grow X Y z) by (apply Rmult_le_compat_r; [now apply grow_nonneg | lra]).
    assert (z * grow X Y z = X * mix_error Y + hom_error X Y) by (unfold grow; field; lra). lra. }
  apply (Rmult_le_reg_l (dval w)); lra.
Qed.
