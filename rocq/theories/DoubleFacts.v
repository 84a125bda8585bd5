From Coq Require Import ZArith List Reals Floats Lra Lia Psatz Bool.
From Flocq Require Import Core Relative Plus_error BinarySingleNaN PrimFloat.
From Verif Require Import Base KnotVecSpec DoubleSpec.
Open Scope R_scope.

Definition rnd (x : R) : R := round radix2 (FLT_exp (-1074) 53) ZnearestE x.
#[global] Instance flt_valid : Valid_exp (FLT_exp (-1074) 53) := FLT_exp_valid (-1074) 53 (prec_gt_0_ := eq_refl).

Lemma fexp_flt : FLT_exp (3 - emax - prec) prec = FLT_exp (-1074) 53.
Proof. reflexivity. Qed.
Lemma dval_format x : generic_format radix2 (FLT_exp (-1074) 53) (dval x).
Proof. exact (generic_format_B2R prec emax (Prim2B x)). Qed.
Lemma finite_B x : finite x <-> is_finite (Prim2B x) = true.
Proof. unfold finite. now rewrite is_finite_equiv. Qed.

Lemma bpow_pow (n : nat) : bpow radix2 (Z.of_nat n) = 2 ^ n.
Proof. rewrite bpow_powerRZ. cbn. now rewrite <- pow_powerRZ. Qed.

Lemma format_pow (n : nat) : (n <= 1023)%nat -> generic_format radix2 (FLT_exp (-1074) 53) (2 ^ n).
Proof. intros H. rewrite <- bpow_pow. apply generic_format_bpow. unfold FLT_exp. lia. Qed.

Lemma rnd_0 : rnd 0 = 0.
Proof. apply round_0. typeclasses eauto. Qed.
Lemma rnd_le x y : x <= y -> rnd x <= rnd y.
Proof. apply round_le; typeclasses eauto. Qed.
Lemma rnd_nonneg x : 0 <= x -> 0 <= rnd x.
Proof. intros H. rewrite <- rnd_0. now apply rnd_le. Qed.
Lemma rnd_id x : rnd (dval x) = dval x.
Proof. apply round_generic; [typeclasses eauto | apply dval_format]. Qed.
Lemma rnd_abs_le (n : nat) x : (n <= 1023)%nat -> Rabs x <= 2 ^ n -> Rabs (rnd x) <= 2 ^ n.
Proof. intros H Hx. apply abs_round_le_generic; try typeclasses eauto; auto. now apply format_pow. Qed.

Lemma no_overflow x : Rabs x <= 2 ^ 1023 ->
  Rlt_bool (Rabs (round radix2 (SpecFloat.fexp prec emax) (round_mode mode_NE) x)) (bpow radix2 emax) = true.
Proof.
  intros H. apply Rlt_bool_true. apply Rle_lt_trans with (2 ^ 1023).
  - exact (rnd_abs_le 1023 x ltac:(lia) H).
  - change emax with (Z.of_nat 1024). rewrite bpow_pow. apply Rlt_pow; [lra | lia].
Qed.

Lemma add_exact x y : finite x -> finite y -> Rabs (dval x + dval y) <= 2 ^ 1023 ->
  finite (x + y)%float /\ dval (x + y)%float = rnd (dval x + dval y).
Proof.
  rewrite !finite_B. unfold dval. intros Fx Fy H. rewrite add_equiv.
  pose proof (Bplus_correct prec emax Hprec Hmax mode_NE (Prim2B x) (Prim2B y) Fx Fy) as C.
  rewrite (no_overflow _ H) in C. destruct C as (A & B & _). now split.
Qed.
Lemma sub_exact x y : finite x -> finite y -> Rabs (dval x - dval y) <= 2 ^ 1023 ->
  finite (x - y)%float /\ dval (x - y)%float = rnd (dval x - dval y).
Proof.
  rewrite !finite_B. unfold dval. intros Fx Fy H. rewrite sub_equiv.
  pose proof (Bminus_correct prec emax Hprec Hmax mode_NE (Prim2B x) (Prim2B y) Fx Fy) as C.
  rewrite (no_overflow _ H) in C. destruct C as (A & B & _). now split.
Qed.
Lemma mul_exact x y : finite x -> finite y -> Rabs (dval x * dval y) <= 2 ^ 1023 ->
  finite (x * y)%float /\ dval (x * y)%float = rnd (dval x * dval y).
Proof.
  rewrite !finite_B. unfold dval. intros Fx Fy H. rewrite mul_equiv.
  pose proof (Bmult_correct prec emax Hprec Hmax mode_NE (Prim2B x) (Prim2B y)) as C.
  rewrite (no_overflow _ H) in C. destruct C as (A & B & _). split; [|exact A]. now rewrite B, Fx, Fy.
Qed.
Lemma div_exact x y : finite x -> dval y <> 0 -> Rabs (dval x / dval y) <= 2 ^ 1023 ->
  finite (x / y)%float /\ dval (x / y)%float = rnd (dval x / dval y).
Proof.
  rewrite !finite_B. unfold dval. intros Fx Fy H. rewrite div_equiv.
  pose proof (Bdiv_correct prec emax Hprec Hmax mode_NE (Prim2B x) (Prim2B y) Fy) as C.
  rewrite (no_overflow _ H) in C. destruct C as (A & B & _). split; [|exact A]. now rewrite B, Fx.
Qed.
Lemma abs_exact x : dval (PrimFloat.abs x) = Rabs (dval x) /\ (finite x -> finite (PrimFloat.abs x)).
Proof.
  rewrite !finite_B. unfold dval. rewrite abs_equiv, B2R_Babs. split; auto. now rewrite is_finite_Babs.
Qed.
Lemma ltb_exact x y : finite x -> finite y -> PrimFloat.ltb x y = Rltb (dval x) (dval y).
Proof.
  rewrite !finite_B. unfold dval. intros. rewrite ltb_equiv, Bltb_correct by assumption. unfold Rltb.
  destruct (Rlt_dec _ _); [now apply Rlt_bool_true | apply Rlt_bool_false; lra].
Qed.
Lemma leb_exact x y : finite x -> finite y -> PrimFloat.leb x y = Rleb (dval x) (dval y).
Proof.
  rewrite !finite_B. unfold dval. intros. rewrite leb_equiv, Bleb_correct by assumption. unfold Rleb.
  destruct (Rle_dec _ _); [now apply Rle_bool_true | apply Rle_bool_false; lra].
Qed.
Lemma eqb_exact x y : finite x -> finite y -> PrimFloat.eqb x y = Reqb (dval x) (dval y).
Proof.
  rewrite !finite_B. unfold dval. intros. rewrite eqb_equiv, Beqb_correct by assumption. unfold Reqb.
  destruct (Req_EM_T _ _); [now apply Req_bool_true | now apply Req_bool_false].
Qed.

(* relative errors *)
Lemma roundoff_pos : 0 < roundoff.
Proof. unfold roundoff. apply Rinv_0_lt_compat, pow_lt. lra. Qed.
Lemma underflow_pos : 0 < underflow.
Proof. unfold underflow. apply Rinv_0_lt_compat, pow_lt. lra. Qed.
Lemma half_ulp : / 2 * bpow radix2 (- (53) + 1) = roundoff.
Proof.
  unfold roundoff. replace (bpow radix2 (- (53) + 1)) with (/ 2 ^ 52).
  - rewrite <- Rinv_mult. now rewrite <- tech_pow_Rmult.
  - replace (-(53)+1)%Z with (- Z.of_nat 52)%Z by lia. now rewrite bpow_opp, bpow_pow.
Qed.
Lemma half_min : / 2 * bpow radix2 (-1074) = underflow.
Proof.
  unfold underflow. replace (-1074)%Z with (- Z.of_nat 1074)%Z by lia. rewrite bpow_opp, bpow_pow.
  rewrite <- Rinv_mult. now rewrite <- tech_pow_Rmult.
Qed.
(* rounding: relative error, and absolute error where the result is tiny *)
Lemma rnd_error x : exists d h, Rabs d <= roundoff /\ Rabs h <= underflow /\ rnd x = x * (1 + d) + h.
Proof.
  destruct (error_N_FLT radix2 (-1074) 53 eq_refl (fun n => negb (Z.even n)) x) as (d & h & A & B & _ & E).
  rewrite half_ulp in A. rewrite half_min in B. exists d, h. auto.
Qed.
(* sums and differences of doubles have no absolute error *)
Lemma rnd_plus x y : exists d, Rabs d <= roundoff /\ rnd (dval x + dval y) = (dval x + dval y) * (1 + d).
Proof.
  destruct (FLT_plus_error_N_ex radix2 (-1074) 53 (prec_gt_0_ := eq_refl) (fun n => negb (Z.even n)) (dval x) (dval y)
              (dval_format x) (dval_format y)) as (d & A & E).
  exists d. split; [|exact E]. eapply Rle_trans; [exact A|].
  assert (U : u_ro radix2 53 = roundoff) by (unfold u_ro; exact half_ulp). rewrite U.
  pose proof roundoff_pos. apply (Rmult_le_reg_r (1 + roundoff)); [lra|]. unfold Rdiv. rewrite Rmult_assoc, Rinv_l by lra. nra.
Qed.
Lemma rnd_minus x y : exists d, Rabs d <= roundoff /\ rnd (dval x - dval y) = (dval x - dval y) * (1 + d).
Proof.
  destruct (FLT_plus_error_N_ex radix2 (-1074) 53 (prec_gt_0_ := eq_refl) (fun n => negb (Z.even n)) (dval x) (- dval y)
              (dval_format x) (generic_format_opp _ _ _ (dval_format y))) as (d & A & E).
  exists d. split; [|exact E]. eapply Rle_trans; [exact A|].
  assert (U : u_ro radix2 53 = roundoff) by (unfold u_ro; exact half_ulp). rewrite U.
  pose proof roundoff_pos. apply (Rmult_le_reg_r (1 + roundoff)); [lra|]. unfold Rdiv. rewrite Rmult_assoc, Rinv_l by lra. nra.
Qed.
(* no underflow: relative error only *)
Lemma rnd_normal x : / 2 ^ 1022 <= Rabs x -> exists d, Rabs d <= roundoff /\ rnd x = x * (1 + d).
Proof.
  intros H. destruct (relative_error_N_FLT_ex radix2 (-1074) 53 eq_refl (fun n => negb (Z.even n)) x) as (d & A & E).
  - replace (-1074 + 53 - 1)%Z with (- Z.of_nat 1022)%Z by lia. now rewrite bpow_opp, bpow_pow.
  - rewrite half_ulp in A. exists d. auto.
Qed.

(* constants *)
Lemma dval_SF x : dval x = SF2R radix2 (Prim2SF x).
Proof. unfold dval, Prim2B. apply B2R_SF2B. Qed.
Lemma int_format z : (Z.abs z < 2 ^ 53)%Z -> generic_format radix2 (FLT_exp (-1074) 53) (IZR z).
Proof.
  intros H. apply generic_format_FLT. exists (Float radix2 z 0); cbn; [unfold F2R; cbn; ring | exact H | lia].
Qed.
Lemma of_Z_pos p : (Z.pos p < 2 ^ 53)%Z ->
  finite (PrimFloat.of_uint63 (Uint63.of_Z (Z.pos p))) /\ dval (PrimFloat.of_uint63 (Uint63.of_Z (Z.pos p))) = IZR (Z.pos p).
Proof.
  intros H. rewrite finite_B. unfold dval. rewrite of_int63_equiv.
  assert (E : Uint63.to_Z (Uint63.of_Z (Z.pos p)) = Z.pos p).
  { rewrite Uint63.of_Z_spec. apply Z.mod_small. split; [lia|]. eapply Z.lt_trans; [exact H | reflexivity]. }
  rewrite E.
  pose proof (binary_normalize_correct prec emax Hprec Hmax mode_NE (Z.pos p) 0 false) as C. cbn zeta in C.
  assert (V : F2R (Float radix2 (Z.pos p) 0) = IZR (Z.pos p)) by (unfold F2R; cbn [Fnum Fexp bpow]; ring).
  rewrite V in C. rewrite no_overflow in C.
  - destruct C as (A & B & _). split; [exact B|]. rewrite A. apply round_generic; [typeclasses eauto|].
    apply (int_format (Z.pos p)). lia.
  - rewrite Rabs_right by (apply Rle_ge, IZR_le; lia).
    apply Rle_trans with (2 ^ 53).
    + replace 53%nat with (Z.to_nat 53) by reflexivity.
      change (2 ^ Z.to_nat 53) with (2 ^ 53)%R. rewrite <- (IZR_Zpower_pos 2 53) || rewrite pow_IZR. apply IZR_le. cbn. lia.
    + apply Rle_pow; [lra | lia].
Qed.
Lemma of_Z_exact z : (Z.abs z < 2 ^ 53)%Z -> finite (float_of_Z z) /\ dval (float_of_Z z) = IZR z.
Proof.
  intros H. destruct z as [|p|p]; cbn [float_of_Z].
  - split; [reflexivity|]. rewrite dval_SF. reflexivity.
  - apply of_Z_pos. exact H.
  - destruct (of_Z_pos p ltac:(cbn in *; lia)) as [A B]. revert A B. rewrite !finite_B. unfold dval.
    rewrite opp_equiv, B2R_Bopp, is_finite_Bopp. intros A B. split; [exact A|]. rewrite B. change (Z.neg p) with (- Z.pos p)%Z.
    now rewrite opp_IZR.
Qed.
Lemma eps_bits : Prim2SF (@kEpsilon Fops) = S754_finite false 5629499534213120 (-101).
Proof. vm_compute. reflexivity. Qed.
Lemma eps_exact : finite (@kEpsilon Fops) /\ dval (@kEpsilon Fops) = tolerance.
Proof.
  split.
  - vm_compute. reflexivity.
  - rewrite dval_SF, eps_bits. cbn [SF2R]. unfold F2R, tolerance. cbn [Fnum Fexp cond_Zopp bpow].
    change (Z.pow_pos radix2 101) with (2 ^ 101)%Z.
    assert (T : 2 ^ 52 = IZR (2 ^ 52)) by (rewrite (pow_IZR 2 52); reflexivity). rewrite T. clear T.
    assert (P : (0 < 2 ^ 101)%Z) by reflexivity. apply IZR_lt in P. assert (Q : (0 < 2 ^ 52)%Z) by reflexivity. apply IZR_lt in Q.
    apply (Rmult_eq_reg_r (IZR (2 ^ 101) * IZR (2 ^ 52))); [|apply Rmult_integral_contrapositive; split; lra].
    transitivity (IZR 5629499534213120 * IZR (2 ^ 52)); [field; lra|]. transitivity (10 * IZR (2 ^ 101)); [|field; lra].
    rewrite <- !mult_IZR. f_equal.
Qed.
Lemma one_exact : finite 1%float /\ dval 1%float = 1.
Proof. split; [reflexivity|]. rewrite dval_SF. change (Prim2SF 1) with (S754_finite false 4503599627370496 (-52)).
  unfold SF2R, F2R. cbn [Fnum Fexp cond_Zopp bpow]. change (Z.pow_pos radix2 52) with 4503599627370496%Z. field. Qed.
Lemma zero_exact : finite 0%float /\ dval 0%float = 0.
Proof. split; [reflexivity|]. rewrite dval_SF. reflexivity. Qed.
Lemma abs_minus_rnd x : Rabs (rnd x) = rnd (Rabs x).
Proof. unfold rnd. symmetry. apply round_NE_abs. typeclasses eauto. Qed.
Lemma finite_SF x : PrimFloat.is_finite x = true <-> match Prim2SF x with S754_zero _ | S754_finite _ _ _ => True | _ => False end.
Proof.
  change (PrimFloat.is_finite x = true) with (finite x). rewrite finite_B. rewrite <- (B2SF_Prim2B x). destruct (Prim2B x); cbn; split; auto; discriminate || contradiction.
Qed.
