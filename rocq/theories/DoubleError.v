(* Propagation of rounding errors through products and sums of non-negative numbers. *)
From Coq Require Import Reals Lra Lia Psatz.
From Verif Require Import DoubleSpec DoubleFacts.
Open Scope R_scope.

(* the factor of one rounding *)
Definition phi : R := / (1 - roundoff).
Lemma roundoff_small : roundoff <= / 2 ^ 20.
Proof. unfold roundoff. apply Rinv_le_contravar; [apply pow_lt; lra | apply Rle_pow; [lra | lia]]. Qed.
Lemma roundoff_lt : roundoff < / 1000.
Proof.
  eapply Rle_lt_trans; [apply roundoff_small|]. apply Rinv_lt_contravar; [|]; try lra.
Qed.
Lemma phi_gt : 1 < phi.
Proof.
  unfold phi. pose proof roundoff_pos. pose proof roundoff_lt. rewrite <- Rinv_1 at 1. apply Rinv_lt_contravar; lra.
Qed.
Lemma phi_inv : phi * (1 - roundoff) = 1.
Proof. unfold phi. pose proof roundoff_lt. field. lra. Qed.
Lemma phi_ge1 : 1 + roundoff <= phi.
Proof. pose proof phi_inv. pose proof phi_gt. pose proof roundoff_pos. pose proof roundoff_lt. nra. Qed.
Lemma phi_pow_ge n : 1 <= phi ^ n.
Proof. apply pow_R1_Rle. pose proof phi_gt. lra. Qed.

(* x approximates X up to the factor f *)
Definition within (f x X : R) : Prop := 0 <= X /\ X <= f * x /\ x <= f * X.

Lemma within_nonneg f x X : 1 <= f -> within f x X -> 0 <= x.
Proof. intros Hf (A & B & C). nra. Qed.
Lemma within_refl X : 0 <= X -> within 1 X X.
Proof. unfold within; intros; lra. Qed.
Lemma within_factor d X : 0 <= X -> Rabs d <= roundoff -> within phi (X * (1 + d)) X.
Proof.
  intros HX Hd. apply Rabs_def2b in Hd || idtac. assert (- roundoff <= d <= roundoff) as [D1 D2].
  { split; [|]; unfold Rabs in Hd; destruct (Rcase_abs d) in Hd; lra. }
  pose proof phi_inv as P. pose proof phi_ge1 as Q. pose proof phi_gt. split; [exact HX|]. split.
  - assert (1 <= phi * (1 + d)) by nra. nra.
  - nra.
Qed.
Lemma within_mul f g x X y Y : 1 <= f -> 1 <= g -> within f x X -> within g y Y -> within (f * g) (x * y) (X * Y).
Proof.
  intros Hf Hg Hx Hy. pose proof (within_nonneg f x X Hf Hx). pose proof (within_nonneg g y Y Hg Hy).
  destruct Hx as (A & B & C). destruct Hy as (D & E & G). split; [nra|]. split.
  - replace (f * g * (x * y)) with ((f * x) * (g * y)) by ring. apply Rmult_le_compat; lra.
  - replace (f * g * (X * Y)) with ((f * X) * (g * Y)) by ring. apply Rmult_le_compat; lra.
Qed.
Lemma within_trans f g x y z : 1 <= f -> 1 <= g -> within f x y -> within g y z -> within (f * g) x z.
Proof.
  intros Hf Hg (A & B & C) (D & E & G). split; [exact D|]. split.
  - apply Rle_trans with (g * y); [exact E|]. rewrite (Rmult_comm f g), Rmult_assoc. apply Rmult_le_compat_l; lra.
  - apply Rle_trans with (f * y); [exact C|]. rewrite Rmult_assoc. apply Rmult_le_compat_l; lra.
Qed.
Lemma within_round f d x X : 1 <= f -> within f x X -> Rabs d <= roundoff -> within (f * phi) (x * (1 + d)) X.
Proof.
  intros Hf Hx Hd. pose proof (within_nonneg f x X Hf Hx) as P. pose proof phi_gt.
  rewrite Rmult_comm. apply (within_trans phi f _ x X); try lra; [|exact Hx]. now apply within_factor.
Qed.
Lemma within_inv f x X : 1 <= f -> 0 < X -> within f x X -> within f (/ x) (/ X).
Proof.
  intros Hf HX (A & B & C). assert (Px : 0 < x) by nra. pose proof (Rinv_0_lt_compat x Px). pose proof (Rinv_0_lt_compat X HX).
  split; [lra|]. split.
  - apply (Rmult_le_reg_r (x * X)); [nra|]. replace (/ X * (x * X)) with x by (field; lra).
    replace (f * / x * (x * X)) with (f * X) by (field; lra). exact C.
  - apply (Rmult_le_reg_r (x * X)); [nra|]. replace (/ x * (x * X)) with X by (field; lra).
    replace (f * / X * (x * X)) with (f * x) by (field; lra). exact B.
Qed.
Lemma within_abs f x X : 1 <= f -> within f x X -> Rabs (x - X) <= (f - 1) * X.
Proof.
  intros Hf (A & B & C). apply Rabs_le. split; [|nra].
  assert (0 <= x) by nra. assert (X - x <= (f - 1) * x) by nra. destruct (Rle_dec x X); nra.
Qed.
Lemma within_weaken f g x X : f <= g -> 1 <= f -> within f x X -> within g x X.
Proof. intros H Hf Hx. pose proof (within_nonneg f x X Hf Hx). destruct Hx as (A & B & C). split; [exact A|]. split; nra. Qed.

(* |x - X| <= (f - 1) X + b *)
Definition close (f b x X : R) : Prop := 0 <= X /\ 0 <= x /\ Rabs (x - X) <= (f - 1) * X + b.

Lemma close_upper f b x X : close f b x X -> x <= f * X + b.
Proof. intros (A & B & C). assert (x - X <= Rabs (x - X)) by apply Rle_abs. lra. Qed.
Lemma within_close f x X : 1 <= f -> within f x X -> close f 0 x X.
Proof. intros Hf H. pose proof (within_nonneg f x X Hf H). pose proof (within_abs f x X Hf H). destruct H as (A & _). repeat split; lra. Qed.
Lemma close_weaken f g b c x X : f <= g -> b <= c -> close f b x X -> close g c x X.
Proof. intros H1 H2 (A & B & C). split; [exact A|]. split; [exact B|]. nra. Qed.
Lemma close_exact X : 0 <= X -> close 1 0 X X.
Proof. intros H. split; [exact H|]. split; [exact H|]. replace (X - X) with 0 by ring. rewrite Rabs_R0. lra. Qed.

(* rounding with relative error d and absolute error h *)
Lemma close_round f b x X d h y : 1 <= f -> 0 <= b -> close f b x X -> Rabs d <= roundoff -> Rabs h <= underflow ->
  y = x * (1 + d) + h -> 0 <= y -> close (f * phi) (phi * b + underflow) y X.
Proof.
  intros Hf Hb (A & B & C) Hd Hh -> Hy. split; [exact A|]. split; [exact Hy|].
  replace (x * (1 + d) + h - X) with (x * (1 + d) - X + h) by ring.
  eapply Rle_trans; [apply Rabs_triang|].
  assert (Rabs (x * (1 + d) - X) <= (f * phi - 1) * X + phi * b); [|lra].
  replace (x * (1 + d) - X) with ((x - X) * (1 + d) + X * d) by ring.
  eapply Rle_trans; [apply Rabs_triang|]. rewrite !Rabs_mult. rewrite (Rabs_right X) by lra.
  assert (D : Rabs (1 + d) <= 1 + roundoff).
  { eapply Rle_trans; [apply Rabs_triang|]. rewrite Rabs_R1. lra. }
  pose proof phi_ge1. pose proof roundoff_pos. pose proof (Rabs_pos (x - X)). pose proof (Rabs_pos (1 + d)).
  assert (E1 : Rabs (x - X) * Rabs (1 + d) <= ((f - 1) * X + b) * phi) by (apply Rmult_le_compat; lra).
  assert (E2 : X * Rabs d <= X * (phi - 1)) by (apply Rmult_le_compat_l; lra).
  lra.
Qed.
Lemma close_add f b c x X y Y : 1 <= f -> close f b x X -> close f c y Y -> close f (b + c) (x + y) (X + Y).
Proof.
  intros Hf (A & B & C) (D & E & G). split; [lra|]. split; [lra|].
  replace (x + y - (X + Y)) with ((x - X) + (y - Y)) by ring. eapply Rle_trans; [apply Rabs_triang|]. lra.
Qed.
(* product; the second exact factor is at most 1 *)
Lemma close_mul f g b c x X y Y : 1 <= f -> 1 <= g -> 0 <= b -> 0 <= c -> close f b x X -> close g c y Y -> X <= 1 ->
  close (f * g) (f * c + b * (g * Y + c)) (x * y) (X * Y).
Proof.
  intros Hf Hg Hb Hc Hx Hy HX. pose proof (close_upper _ _ _ _ Hy) as U. destruct Hx as (A & B & C), Hy as (D & E & G).
  split; [nra|]. split; [nra|].
  replace (x * y - X * Y) with ((x - X) * y + X * (y - Y)) by ring. eapply Rle_trans; [apply Rabs_triang|].
  rewrite !Rabs_mult, (Rabs_right y), (Rabs_right X) by lra.
  assert (E1 : Rabs (x - X) * y <= ((f - 1) * X + b) * (g * Y + c)).
  { apply Rmult_le_compat; try lra. apply Rabs_pos. }
  assert (E2 : X * Rabs (y - Y) <= X * ((g - 1) * Y + c)) by (apply Rmult_le_compat_l; lra).
  assert (E3 : X * c <= c) by nra. assert (E4 : (f - 1) * X * c <= (f - 1) * c) by nra. nra.
Qed.

Lemma phi_small n : INR n * roundoff <= / 4 -> phi ^ n - 1 <= (4 / 3) * (INR n * roundoff) /\ phi ^ n <= 4 / 3.
Proof.
  intros H. pose proof roundoff_pos. pose proof roundoff_lt.
  assert (Hb : 1 - INR n * roundoff <= (1 - roundoff) ^ n).
  { clear H. induction n as [|n IH]; [cbn; lra|]. rewrite S_INR. cbn [pow]. pose proof (pos_INR n).
    assert (0 <= INR n * (roundoff * roundoff)) by (apply Rmult_le_pos; nra). nra. }
  assert (Hp : phi ^ n * (1 - roundoff) ^ n = 1) by (rewrite <- Rpow_mult_distr, phi_inv; apply pow1).
  pose proof (phi_pow_ge n). pose proof (pos_INR n). assert (0 <= INR n * roundoff) by nra.
  assert (phi ^ n * (1 - INR n * roundoff) <= 1) by nra. split; nra.
Qed.
Lemma phi_small_const : phi <= 1001 / 1000.
Proof. pose proof phi_inv. pose proof roundoff_pos. pose proof roundoff_small. cbn [pow] in *. pose proof phi_gt. nra. Qed.
