(* Concrete cases that meet the hypotheses of the theorems about derivatives in doubles. *)
From Coq Require Import ZArith List Bool Lia Reals Floats Lra.
From Verif Require Import Base RSum MultiIndex KnotVec KnotVecSpec SpacesSpec SplineSpec DoubleSpec DoubleFacts DoubleDerivSpec DoubleDerivThms DoubleExamples.
Import ListNotations.
Open Scope Z_scope.

Lemma kq_spaced : spaced (1 / 2) (map dval kq).
Proof. rewrite kq_val. intros x y Hx Hy H. cbn [In] in Hx, Hy. intuition (subst; lra). Qed.
Lemma kl_spaced : spaced (1 / 2) (map dval kl).
Proof. rewrite kl_val. intros x y Hx Hy H. cbn [In] in Hx, Hy. intuition (subst; lra). Qed.

Lemma deriv_ex_growth : growth (1 / 2) [2; 1] [1; 1] = 32%R.
Proof. unfold growth, growth1. cbn [map2 fold_right]. change (Z.max 1 2) with 2. change (Z.max 1 1) with 1. change (Z.to_nat 1) with 1%nat. cbn [pow]. field. Qed.

Lemma deriv_ex_basis : double_direction kq 2 /\ double_parameter kq 0x1.999999999999ap-4%float /\ spaced (1 / 2) (map dval kq) /\
  (1 + 2 + 1 < length kq)%nat /\ (2 <= 500)%nat /\ (1 <= 500)%nat /\ growth1 (1 / 2) 2 1 = 8%R.
Proof.
  split; [exact kq_direction|]. split; [exact kq_parameter|]. split; [exact kq_spaced|]. split; [cbn; lia|]. split; [lia|]. split; [lia|].
  unfold growth1. change (Z.max 1 2) with 2. change (Z.to_nat 1) with 1%nat. cbn [pow]. field.
Qed.

Lemma deriv_ex_exact : Forall2 good_direction (map (map dval) [kq; kl]) [2; 1] /\
  (first_knot (map dval kq) <= dval 0x1.999999999999ap-4%float <= final_knot (map dval kq))%R /\
  ~ In (dval 0x1.999999999999ap-4%float) (map dval kq).
Proof.
  split; [constructor; [apply kq_direction|]; constructor; [apply kl_direction | constructor]|]. split; [apply kq_parameter|].
  rewrite kq_val, (proj2 tenth_exact). cbn [In]. intuition lra.
Qed.

Lemma deriv_ex : Forall2 double_direction [kq; kl] [2; 1] /\
  Forall2 double_parameter [kq; kl] [0x1.999999999999ap-4; 1]%float /\
  Forall (fun kv => spaced (1 / 2) (map dval kv)) [kq; kl] /\
  Forall (fun cp => zlen cp = 2) dpts /\ zlen dpts = total (point_counts [kq; kl] [2; 1]) /\ zlen dpts < 2 ^ 64 /\
  Forall (Forall finite) dpts /\ Forall (Forall (fun x => Rabs (dval x) <= 1)%R) dpts /\ (1 <= 2 ^ 400)%R /\
  growth (1 / 2) [2; 1] [1; 1] = 32%R /\ derivative_cost [2; 1] [1; 1] + 2 * summands [2; 1] + 2 = 42.
Proof.
  destruct double_ex as (A1 & A2 & _ & _ & A3 & A4 & A5 & A6 & A7 & _).
  split; [exact A1|]. split; [exact A2|]. split; [constructor; [exact kq_spaced|]; constructor; [exact kl_spaced | constructor]|].
  split; [exact A3|]. split; [exact A4|]. split; [exact A5|]. split.
  - eapply Forall_impl; [|exact A6]. intros cp. apply Forall_impl. intros x [H _]. exact H.
  - split; [exact A7|]. split; [apply pow_R1_Rle; lra|]. split; [exact deriv_ex_growth | reflexivity].
Qed.
Lemma deriv_ex_domain : Forall2 double_direction [kq; kl] [2; 1] /\ ~ Forall2 double_parameter [kq; kl] [0x1.999999999999ap-4; nan]%float /\
  Forall (fun cp => zlen cp = 2) dpts /\ zlen dpts = total (point_counts [kq; kl] [2; 1]) /\ zlen dpts < 2 ^ 64.
Proof. pose proof double_ex. tauto. Qed.
Lemma deriv_ex_exact_basis : nondecreasing (map dval kq) /\ (1 + 2 + 1 < length (map dval kq))%nat /\
  (first_knot (map dval kq) <= dval 0x1.999999999999ap-4%float <= final_knot (map dval kq))%R /\
  ~ In (dval 0x1.999999999999ap-4%float) (map dval kq).
Proof. split; [apply kq_direction|]. split; [cbn; lia|]. apply deriv_ex_exact. Qed.
