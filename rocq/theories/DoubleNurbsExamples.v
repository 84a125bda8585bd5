(* Concrete cases for the theorems about knot insertion into NURBS in double arithmetic. *)
From Coq Require Import ZArith List Bool Lia Reals Floats Lra.
From Verif Require Import Base MultiIndex KnotVec KnotVecSpec SpacesSpec SplineSpec EditSpec DoubleSpec DoubleFacts DoubleExamples
  DoubleRationalSpec DoubleRationalExamples DoubleRationalThms DoubleInsertExamples.
Import ListNotations.
Open Scope Z_scope.

Lemma dwts_range : Forall (fun w => finite w /\ (/ 16 <= dval w <= 1)%R) dwts.
Proof.
  assert (W1 : finite 1%float /\ (/ 16 <= dval 1%float <= 1)%R) by (destruct one_exact as [A ->]; split; [exact A | lra]).
  assert (Wh : finite 0.5%float /\ (/ 16 <= dval 0.5%float <= 1)%R) by (destruct half_exact as [A ->]; split; [exact A | lra]).
  assert (Wt : finite 0x1.999999999999ap-4%float /\ (/ 16 <= dval 0x1.999999999999ap-4%float <= 1)%R) by (destruct tenth_exact as [A ->]; split; [exact A | lra]).
  unfold dwts. repeat (apply Forall_cons; [first [exact W1 | exact Wh | exact Wt]|]). apply Forall_nil.
Qed.
Lemma dwts_bounds : Forall (fun w => finite w /\ (/ 16 <= dval w <= 1)%R) dwts /\ (/ 2 ^ 99 <= / 16)%R /\ (1 <= 2 ^ 99)%R /\ (3 * 1 <= 2 ^ 40 * / 16)%R /\ (1 <= 2 ^ 498)%R.
Proof.
  split; [exact dwts_range|]. split; [|split; [apply pow_R1_Rle; lra|]; split; [|apply pow_R1_Rle; lra]].
  - replace (/ 16)%R with (/ 2 ^ 4)%R by (f_equal; ring). apply inv_pow2_le. lia.
  - assert (Q : (2 ^ 40 = 2 ^ 32 * 256)%R) by ring. rewrite Q. assert (1 <= 2 ^ 32)%R by (apply pow_R1_Rle; lra). lra.
Qed.

Lemma nurbs_ex : Forall2 double_direction [kq; kl] [2; 1] /\ finite tenth /\ insertable (map dval kq) 2 (dval tenth) 2 /\
  zlen kq < 2 ^ 31 /\ Forall (fun cp => zlen cp = 2) dpts /\ zlen dpts = total (point_counts [kq; kl] [2; 1]) /\ zlen dwts = zlen dpts /\ zlen dpts * (1 + 2) < 2 ^ 64 /\
  Forall (Forall (fun x => finite x /\ (Rabs (dval x) <= 1)%R)) dpts /\ (1 <= 2 ^ 498)%R /\
  Forall (fun w => finite w /\ (/ 16 <= dval w <= 1)%R) dwts /\ (/ 2 ^ 99 <= / 16)%R /\ (1 <= 2 ^ 99)%R /\ (2 * 1 <= 2 ^ 40 * / 16)%R /\
  Forall2 double_parameter [kq; kl] [tenth; 1]%float /\ 3 * (degree_cost [2; 1] + summands [2; 1]) + 7 = 85 /\ depth [2; 1] = 8.
Proof.
  destruct double_ex_insert as (A1 & A2 & A3 & A4 & A5 & A6 & A7 & A8 & _ & A10 & _). destruct dwts_bounds as (B1 & B2 & B3 & B4 & B5).
  repeat (split; [first [assumption | reflexivity]|]). split; [lra|]. split; [exact A10|]. split; reflexivity.
Qed.
Lemma nurbs_ex_refine : Forall2 double_direction [kq; kl] [2; 1] /\ Forall finite [tenth; 0.5; tenth]%float /\
  all_insertable (map dval kq) 2 (map dval [tenth; 0.5; tenth]%float) /\
  zlen kq + 3 <= 2 ^ 31 /\ Forall (fun cp => zlen cp = 2) dpts /\ zlen dpts = total (point_counts [kq; kl] [2; 1]) /\ zlen dwts = zlen dpts /\ zlen dpts * (1 + 3) < 2 ^ 64 /\
  Forall (Forall (fun x => finite x /\ (Rabs (dval x) <= 1)%R)) dpts /\ (1 <= 2 ^ 498)%R /\
  Forall (fun w => finite w /\ (/ 16 <= dval w <= 1)%R) dwts /\ (/ 2 ^ 99 <= / 16)%R /\ (1 <= 2 ^ 99)%R /\ (3 * 1 <= 2 ^ 40 * / 16)%R.
Proof.
  destruct double_ex_refine as (A1 & A2 & A3 & A4 & A5 & A6 & A7 & A8 & A9). destruct dwts_bounds as (B1 & B2 & B3 & B4 & B5).
  repeat (split; [first [assumption | reflexivity]|]). exact B4.
Qed.
