(* Sums of rounded terms. *)
From Coq Require Import ZArith List Bool Lia Reals Floats Lra Psatz.
From Verif Require Import Base RSum DoubleSpec DoubleFacts DoubleError DoubleKnots DoubleBasis.
Import ListNotations.
Open Scope R_scope.

(* a weight times a coordinate *)
Lemma product_error (b x : float) f S N M : finite b -> moderate x -> Rabs (dval x) <= M -> 1 <= f -> f <= 4 / 3 -> 0 <= S <= / 2 ->
  N <= 1 -> close f S (dval b) N ->
  finite (b * x)%float /\
  Rabs (dval (b * x)%float - N * dval x) <= (f * phi - 1) * N * M + (phi * S * M + underflow).
Proof.
  intros Fb [Fx Mx] HM Hf Hf4 HS HN Cb. pose proof (close_upper _ _ _ _ Cb) as Ub. destruct Cb as (A & B & C).
  assert (Bb : Rabs (dval b) <= 2 ^ 1) by (rewrite Rabs_right by lra; cbn [pow]; nra).
  destruct (mul_exact b x Fb Fx) as [F E].
  { rewrite Rabs_mult. apply Rle_trans with (2 ^ 1 * 2 ^ 500); [apply Rmult_le_compat; auto using Rabs_pos|].
    rewrite pow2_mul. apply pow2_le. lia. }
  split; [exact F|]. rewrite E. destruct (rnd_error (dval b * dval x)) as (d & h & Hd & Hh & ->).
  replace (dval b * dval x * (1 + d) + h - N * dval x) with ((dval b * (1 + d) - N) * dval x + h) by ring.
  eapply Rle_trans; [apply Rabs_triang|]. rewrite Rabs_mult.
  assert (K : Rabs (dval b * (1 + d) - N) <= (f * phi - 1) * N + phi * S).
  { replace (dval b * (1 + d) - N) with ((dval b - N) * (1 + d) + N * d) by ring.
    eapply Rle_trans; [apply Rabs_triang|]. rewrite !Rabs_mult, (Rabs_right N) by lra.
    assert (D : Rabs (1 + d) <= 1 + roundoff) by (eapply Rle_trans; [apply Rabs_triang|]; rewrite Rabs_R1; lra).
    pose proof phi_ge1. pose proof roundoff_pos.
    assert (E1 : Rabs (dval b - N) * Rabs (1 + d) <= ((f - 1) * N + S) * phi) by (apply Rmult_le_compat; auto using Rabs_pos; lra).
    assert (E2 : N * Rabs d <= N * (phi - 1)) by (apply Rmult_le_compat_l; lra). lra. }
  assert (Rabs (dval b * (1 + d) - N) * Rabs (dval x) <= ((f * phi - 1) * N + phi * S) * M)
    by (apply Rmult_le_compat; auto using Rabs_pos). lra.
Qed.

(* the running sum *)
Lemma sum_error {I} (t : I -> float) (N P : I -> R) (M g e : R) (l : list I) :
  0 <= M <= 2 ^ 500 -> 1 <= g -> 0 <= e ->
  (forall i, In i l -> finite (t i) /\ 0 <= N i /\ Rabs (P i) <= M /\ Rabs (dval (t i) - N i * P i) <= (g - 1) * N i * M + e) ->
  forall acc A T k, finite acc -> 0 <= T -> T + lsum N l <= 1 -> Rabs A <= T * M ->
  Rabs (dval acc - A) <= (g * phi ^ k - 1) * T * M + INR k * phi ^ k * e ->
  g * phi ^ (k + length l) <= 4 / 3 -> INR (k + length l) * e <= 2 ^ 500 ->
  let r := fold_left (fun v i => (v + t i)%float) l acc in
  finite r /\
  Rabs (dval r - (A + lsum (fun i => N i * P i) l)) <=
    (g * phi ^ (k + length l) - 1) * (T + lsum N l) * M + INR (k + length l) * phi ^ (k + length l) * e.
Proof.
  intros HM Hg He. induction l as [|i l IH]; intros Ht acc A T k Fa HT Hsum HA Herr Hexp Hk.
  - cbn [fold_left lsum length] in *. rewrite Nat.add_0_r, !Rplus_0_r in *. auto.
  - cbn [fold_left lsum length] in *. destruct (Ht i (or_introl eq_refl)) as (Fi & Ni & Pi & Ei).
    assert (Hl : 0 <= lsum N l) by (apply lsum_nonneg; intros a Ha; apply Ht; now right).
    replace (k + S (length l))%nat with (S k + length l)%nat in * by lia.
    assert (Pk : phi ^ k <= phi ^ (S k + length l)) by (apply Rle_pow; [pose proof phi_gt; lra | lia]).
    assert (PSk : phi ^ S k <= phi ^ (S k + length l)) by (apply Rle_pow; [pose proof phi_gt; lra | lia]).
    pose proof (phi_pow_ge k) as Pk1. pose proof (phi_pow_ge (S k)) as PSk1.
    assert (Gk : g * phi ^ k <= 4 / 3) by nra. assert (Pg : phi ^ k <= 4 / 3) by nra.
    assert (NPi : Rabs (N i * P i) <= N i * M).
    { rewrite Rabs_mult, (Rabs_right (N i)) by lra. apply Rmult_le_compat_l; assumption. }
    assert (Kle : INR k * e <= 2 ^ 500).
    { eapply Rle_trans; [|exact Hk]. apply Rmult_le_compat_r; [exact He|]. apply le_INR. lia. }
    assert (E1le : e <= 2 ^ 500).
    { eapply Rle_trans; [|exact Hk]. rewrite <- (Rmult_1_l e) at 1. apply Rmult_le_compat_r; [exact He|].
      replace 1 with (INR 1) by reflexivity. apply le_INR. lia. }
    assert (Tle : T <= 1) by lra. assert (Nle : N i <= 1) by lra.
    assert (B1 : (g * phi ^ k - 1) * T * M <= / 3 * M).
    { assert ((g * phi ^ k - 1) * T <= / 3 * 1) by (apply Rmult_le_compat; nra). nra. }
    assert (B2 : INR k * phi ^ k * e <= 4 / 3 * 2 ^ 500).
    { replace (INR k * phi ^ k * e) with (phi ^ k * (INR k * e)) by ring. pose proof (pos_INR k).
      apply Rmult_le_compat; nra. }
    assert (G1 : g <= 4 / 3) by nra.
    assert (B3 : (g - 1) * N i * M <= / 3 * M).
    { assert ((g - 1) * N i <= / 3 * 1) by (apply Rmult_le_compat; lra). nra. }
    assert (Bacc : Rabs (dval acc) <= 4 * 2 ^ 500).
    { replace (dval acc) with ((dval acc - A) + A) by ring. eapply Rle_trans; [apply Rabs_triang|].
      assert (T * M <= M) by nra. lra. }
    assert (Bi : Rabs (dval (t i)) <= 4 * 2 ^ 500).
    { replace (dval (t i)) with ((dval (t i) - N i * P i) + N i * P i) by ring. eapply Rle_trans; [apply Rabs_triang|].
      assert (N i * M <= M) by nra. lra. }
    destruct (add_exact acc (t i) Fa Fi) as [F1 E1].
    { eapply Rle_trans; [apply Rabs_triang|]. apply Rle_trans with (2 ^ 503); [|apply pow2_le; lia].
      replace (2 ^ 503) with (8 * 2 ^ 500) by (replace 503%nat with (3 + 500)%nat by lia; rewrite pow_add; ring). lra. }
    destruct (rnd_plus acc (t i)) as (d & Hd & E2).
    assert (Err : Rabs (dval (acc + t i)%float - (A + N i * P i)) <=
       (g * phi ^ S k - 1) * (T + N i) * M + INR (S k) * phi ^ S k * e).
    { rewrite E1, E2.
      replace ((dval acc + dval (t i)) * (1 + d) - (A + N i * P i)) with
        (((dval acc - A) + (dval (t i) - N i * P i)) * (1 + d) + (A + N i * P i) * d) by ring.
      eapply Rle_trans; [apply Rabs_triang|]. rewrite !Rabs_mult.
      assert (D : Rabs (1 + d) <= phi).
      { pose proof phi_ge1. eapply Rle_trans; [apply Rabs_triang|]. rewrite Rabs_R1. lra. }
      assert (U1 : Rabs (dval acc - A + (dval (t i) - N i * P i)) <=
         (g * phi ^ k - 1) * (T + N i) * M + (INR k * phi ^ k + 1) * e).
      { eapply Rle_trans; [apply Rabs_triang|].
        assert ((g - 1) * N i * M <= (g * phi ^ k - 1) * N i * M).
        { apply Rmult_le_compat_r; [lra|]. apply Rmult_le_compat_r; [lra|]. nra. }
        lra. }
      assert (U2 : Rabs (A + N i * P i) <= (T + N i) * M).
      { eapply Rle_trans; [apply Rabs_triang|]. lra. }
      assert (V1 : Rabs (dval acc - A + (dval (t i) - N i * P i)) * Rabs (1 + d) <=
         ((g * phi ^ k - 1) * (T + N i) * M + (INR k * phi ^ k + 1) * e) * phi).
      { apply Rmult_le_compat; auto using Rabs_pos. }
      assert (V2 : Rabs (A + N i * P i) * Rabs d <= (T + N i) * M * (phi - 1)).
      { apply Rmult_le_compat; auto using Rabs_pos. pose proof phi_ge1. lra. }
      assert (V3 : phi * e <= phi ^ S k * e).
      { apply Rmult_le_compat_r; [exact He|]. cbn [pow]. pose proof phi_gt. nra. }
      rewrite S_INR. change (phi ^ S k) with (phi * phi ^ k) in *. lra. }
    destruct (IH (fun a Ha => Ht a (or_intror Ha)) (acc + t i)%float (A + N i * P i) (T + N i) (S k)) as [F2 E3]; auto; try lra.
    { eapply Rle_trans; [apply Rabs_triang|]. lra. }
    split; [exact F2|]. rewrite <- !Rplus_assoc. exact E3.
Qed.
