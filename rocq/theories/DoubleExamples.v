(* Concrete cases that meet the hypotheses of the theorems about double arithmetic. *)
From Coq Require Import ZArith List Bool Lia Reals Floats Lra.
From Flocq Require Import Core BinarySingleNaN PrimFloat.
From Verif Require Import Base RSum MultiIndex KnotVec KnotVecSpec SpacesSpec SplineSpec DoubleSpec DoubleFacts.
Import ListNotations.
Open Scope Z_scope.
Notation float := PrimFloat.float.

Lemma half_exact : finite 0.5%float /\ dval 0.5%float = (1 / 2)%R.
Proof.
  split; [reflexivity|]. rewrite dval_SF. change (Prim2SF 0.5) with (S754_finite false 4503599627370496 (-53)).
  unfold SF2R, F2R. cbn [Fnum Fexp cond_Zopp bpow]. change (Z.pow_pos radix2 53) with 9007199254740992. field.
Qed.
(* the double nearest to one tenth *)
Lemma tenth_exact : finite 0x1.999999999999ap-4%float /\ dval 0x1.999999999999ap-4%float = (3602879701896397 / 36028797018963968)%R.
Proof.
  split; [reflexivity|]. rewrite dval_SF.
  change (Prim2SF 0x1.999999999999ap-4) with (S754_finite false 7205759403792794 (-56)).
  unfold SF2R, F2R. cbn [Fnum Fexp cond_Zopp bpow]. change (Z.pow_pos radix2 56) with 72057594037927936. field.
Qed.
Lemma small_moderate x (r : R) : finite x /\ dval x = r -> (Rabs r <= 4)%R -> moderate x.
Proof.
  intros [F E] H. split; [exact F|]. rewrite E. eapply Rle_trans; [exact H|].
  replace 4%R with (2 ^ 2)%R by ring. apply Rle_pow; [lra | lia].
Qed.

Definition kq : list float := [0; 0; 0; 0.5; 1; 1; 1]%float.
Definition kl : list float := [0; 0; 1; 1]%float.
Lemma kq_val : map dval kq = [0; 0; 0; 1 / 2; 1; 1; 1]%R.
Proof. unfold kq. cbn [map]. now rewrite (proj2 half_exact), (proj2 one_exact), (proj2 zero_exact). Qed.
Lemma kl_val : map dval kl = [0; 0; 1; 1]%R.
Proof. unfold kl. cbn [map]. now rewrite (proj2 one_exact), (proj2 zero_exact). Qed.

Lemma m0 : moderate 0%float. Proof. apply (small_moderate _ 0 zero_exact). rewrite Rabs_R0. lra. Qed.
Lemma m1 : moderate 1%float. Proof. apply (small_moderate _ 1 one_exact). rewrite Rabs_R1. lra. Qed.
Lemma mh : moderate 0.5%float. Proof. apply (small_moderate _ (1/2) half_exact). rewrite Rabs_right; lra. Qed.
Lemma mt : moderate 0x1.999999999999ap-4%float.
Proof. apply (small_moderate _ _ tenth_exact). rewrite Rabs_right; lra. Qed.

Lemma tol_small : (tolerance <= 1 / 2)%R.
Proof. unfold tolerance. lra. Qed.

Lemma kq_direction : double_direction kq 2.
Proof.
  split; [repeat (apply Forall_cons; [first [exact m0 | exact m1 | exact mh]|]); apply Forall_nil|].
  rewrite kq_val. unfold good_direction. pose proof tol_small as T. split; [lia|]. split.
  - split; [cbn; lia|]. intros j Hj. assert (j = 0 \/ j = 1 \/ j = 2)%nat as [-> | [-> | ->]] by lia; cbn; split; reflexivity.
  - split; [|split].
    + intros i j Hij Hj. cbn [length] in Hj.
      do 7 (destruct i as [|i]; [do 7 (destruct j as [|j]; [cbn; try lra; lia|]); lia|]). lia.
    + intros i j Hi Hj. cbn [length] in Hi, Hj.
      do 7 (destruct i as [|i]; [do 7 (destruct j as [|j]; [cbn; intros; lra|]); lia|]). lia.
    + cbn. lra.
Qed.
Lemma kl_direction : double_direction kl 1.
Proof.
  split; [repeat (apply Forall_cons; [first [exact m0 | exact m1 | exact mh]|]); apply Forall_nil|].
  rewrite kl_val. unfold good_direction. pose proof tol_small as T. split; [lia|]. split.
  - split; [cbn; lia|]. intros j Hj. assert (j = 0 \/ j = 1)%nat as [-> | ->] by lia; cbn; split; reflexivity.
  - split; [|split].
    + intros i j Hij Hj. cbn [length] in Hj.
      do 4 (destruct i as [|i]; [do 4 (destruct j as [|j]; [cbn; try lra; lia|]); lia|]). lia.
    + intros i j Hi Hj. cbn [length] in Hi, Hj.
      do 4 (destruct i as [|i]; [do 4 (destruct j as [|j]; [cbn; intros; lra|]); lia|]). lia.
    + cbn. lra.
Qed.
Lemma kq_parameter : double_parameter kq 0x1.999999999999ap-4%float.
Proof. split; [apply tenth_exact|]. rewrite kq_val, (proj2 tenth_exact). cbn. lra. Qed.
Lemma kl_parameter : double_parameter kl 1%float.
Proof. split; [apply one_exact|]. rewrite kl_val, (proj2 one_exact). cbn. lra. Qed.
Lemma kl_nan : ~ double_parameter kl nan /\ ~ double_parameter kl infinity.
Proof. split; intros [H _]; vm_compute in H; discriminate. Qed.

Definition dpts : list (list float) :=
  [[0; 1]; [1; 0.5]; [0.5; 0]; [1; 1]; [0; 0]; [0.5; 0.5]; [1; 0]; [0x1.999999999999ap-4; 1]]%float.

Lemma dpts_ok : Forall (fun cp => zlen cp = 2) dpts /\ zlen dpts = total (point_counts [kq; kl] [2; 1]) /\ zlen dpts < 2 ^ 64 /\
  Forall (Forall moderate) dpts /\ Forall (Forall (fun x => Rabs (dval x) <= 1)%R) dpts /\ (1 <= 2 ^ 500)%R /\
  degree_cost [2; 1] + summands [2; 1] + 1 <= 2 ^ 50 /\ depth [2; 1] <= 500.
Proof.
  split; [repeat constructor|]. split; [reflexivity|]. split; [reflexivity|]. split; [|split].
  - repeat (apply Forall_cons; [repeat (apply Forall_cons; [first [exact m0 | exact m1 | exact mh | exact mt]|]); apply Forall_nil|]). apply Forall_nil.
  - assert (A0 : (Rabs (dval 0%float) <= 1)%R) by (rewrite (proj2 zero_exact), Rabs_R0; lra).
    assert (A1 : (Rabs (dval 1%float) <= 1)%R) by (rewrite (proj2 one_exact), Rabs_R1; lra).
    assert (Ah : (Rabs (dval 0.5%float) <= 1)%R) by (rewrite (proj2 half_exact), Rabs_right; lra).
    assert (At : (Rabs (dval 0x1.999999999999ap-4%float) <= 1)%R) by (rewrite (proj2 tenth_exact), Rabs_right; lra).
    repeat (apply Forall_cons; [repeat (apply Forall_cons; [first [exact A0 | exact A1 | exact Ah | exact At]|]); apply Forall_nil|]). apply Forall_nil.
  - split; [apply pow_R1_Rle; lra|]. split; [vm_compute; discriminate | vm_compute; discriminate].
Qed.

Lemma double_ex : Forall2 double_direction [kq; kl] [2; 1] /\
  Forall2 double_parameter [kq; kl] [0x1.999999999999ap-4; 1]%float /\
  ~ Forall2 double_parameter [kq; kl] [0x1.999999999999ap-4; nan]%float /\
  ~ Forall2 double_parameter [kq; kl] [0x1.999999999999ap-4; infinity]%float /\
  Forall (fun cp => zlen cp = 2) dpts /\ zlen dpts = total (point_counts [kq; kl] [2; 1]) /\ zlen dpts < 2 ^ 64 /\
  Forall (Forall moderate) dpts /\ Forall (Forall (fun x => Rabs (dval x) <= 1)%R) dpts /\ (1 <= 2 ^ 500)%R /\
  degree_cost [2; 1] + summands [2; 1] + 1 = 27 /\ depth [2; 1] = 8 /\
  dval 0x1.999999999999ap-4%float <> (1 / 10)%R.
Proof.
  split; [constructor; [exact kq_direction|]; constructor; [exact kl_direction | constructor]|].
  split; [constructor; [exact kq_parameter|]; constructor; [exact kl_parameter | constructor]|].
  split; [intros H; inversion H as [|? ? ? ? _ H2]; inversion H2; now apply (proj1 kl_nan)|].
  split; [intros H; inversion H as [|? ? ? ? _ H2]; inversion H2; now apply (proj2 kl_nan)|].
  destruct dpts_ok as (A1 & A2 & A3 & A4 & A5 & A6 & _).
  split; [exact A1|]. split; [exact A2|]. split; [exact A3|]. split; [exact A4|]. split; [exact A5|]. split; [exact A6|].
  split; [reflexivity|]. split; [reflexivity|]. rewrite (proj2 tenth_exact). lra.
Qed.
Lemma double_ex_domain : Forall2 double_direction [kq; kl] [2; 1] /\
  Forall2 double_parameter [kq; kl] [0x1.999999999999ap-4; 1]%float /\
  ~ Forall2 double_parameter [kq; kl] [0x1.999999999999ap-4; nan]%float /\
  ~ Forall2 double_parameter [kq; kl] [0x1.999999999999ap-4; infinity]%float /\
  Forall (fun cp => zlen cp = 2) dpts /\ zlen dpts = total (point_counts [kq; kl] [2; 1]) /\ zlen dpts < 2 ^ 64.
Proof. pose proof double_ex. tauto. Qed.
Lemma double_ex_evaluate : Forall2 double_direction [kq; kl] [2; 1] /\
  Forall2 double_parameter [kq; kl] [0x1.999999999999ap-4; 1]%float /\
  Forall (fun cp => zlen cp = 2) dpts /\ zlen dpts = total (point_counts [kq; kl] [2; 1]) /\ zlen dpts < 2 ^ 64 /\
  Forall (Forall moderate) dpts /\ Forall (Forall (fun x => Rabs (dval x) <= 1)%R) dpts /\ (1 <= 2 ^ 500)%R /\
  degree_cost [2; 1] + summands [2; 1] + 1 = 27 /\ depth [2; 1] = 8 /\
  dval 0x1.999999999999ap-4%float <> (1 / 10)%R.
Proof. pose proof double_ex. tauto. Qed.
Lemma double_ex_basis : double_direction kq 2 /\ double_parameter kq 0x1.999999999999ap-4%float /\
  (1 + 2 + 1 < length kq)%nat /\ (2 <= 500)%nat /\ (1 <= 2)%nat.
Proof. split; [exact kq_direction|]. split; [exact kq_parameter|]. cbn [kq length]. lia. Qed.
Lemma double_ex_partition : double_direction kq 2 /\ double_parameter kq 0x1.999999999999ap-4%float /\ 2 <= 500.
Proof. split; [exact kq_direction|]. split; [exact kq_parameter|]. lia. Qed.
