(* Concrete cases for the theorems about subdivision in double arithmetic. *)
From Coq Require Import ZArith List Bool Lia Reals Floats Lra.
From Verif Require Import Base MultiIndex KnotVec KnotVecSpec SpacesSpec SplineSpec EditSpec DoubleSpec DoubleFacts DoubleExamples DoubleInsertExamples
  DoubleRationalSpec DoubleRationalExamples DoubleNurbsExamples.
Import ListNotations.
Open Scope Z_scope.

Lemma double_ex_split : Forall2 double_direction [kq; kl] [2; 1] /\ finite tenth /\ insertable (map dval kq) 2 (dval tenth) 0 /\
  occurrences (map dval kq) (dval tenth) = 0%nat /\
  zlen kq < 2 ^ 31 /\ Forall (fun cp => zlen cp = 2) dpts /\ zlen dpts = total (point_counts [kq; kl] [2; 1]) /\ zlen dpts * (2 + 2) < 2 ^ 64 /\
  Forall (Forall (fun x => finite x /\ (Rabs (dval x) <= 1)%R)) dpts /\ (1 <= 2 ^ 499)%R /\
  Forall2 double_parameter [kq; kl] [tenth; 1]%float /\ degree_cost [2; 1] + summands [2; 1] + 1 = 27 /\ depth [2; 1] = 8.
Proof.
  destruct double_ex_insert as (A1 & A2 & (I1 & I2 & I3) & A4 & A5 & A6 & A7 & A8 & A9 & A10 & A11).
  split; [exact A1|]. split; [exact A2|]. split; [split; [exact I1 | split; [exact I2 | lia]]|]. split.
  { unfold tenth. rewrite kq_val, (proj2 tenth_exact). unfold occurrences. cbn [count_occ]. repeat (destruct (Req_EM_T _ _); [exfalso; lra|]). reflexivity. }
  split; [exact A4|]. split; [exact A5|]. split; [exact A6|]. split; [reflexivity|]. split; [exact A8|]. split; [exact A9|]. split; [exact A10|]. exact A11.
Qed.

Lemma nurbs_ex_split : Forall2 double_direction [kq; kl] [2; 1] /\ finite tenth /\ insertable (map dval kq) 2 (dval tenth) 0 /\
  zlen kq < 2 ^ 31 /\ Forall (fun cp => zlen cp = 2) dpts /\ zlen dpts = total (point_counts [kq; kl] [2; 1]) /\ zlen dwts = zlen dpts /\ zlen dpts * (2 + 2) < 2 ^ 64 /\
  Forall (Forall (fun x => finite x /\ (Rabs (dval x) <= 1)%R)) dpts /\ (1 <= 2 ^ 498)%R /\
  Forall (fun w => finite w /\ (/ 16 <= dval w <= 1)%R) dwts /\ (/ 2 ^ 99 <= / 16)%R /\ (1 <= 2 ^ 99)%R /\ (IZR (2 + 1) * 1 <= 2 ^ 40 * / 16)%R /\
  Forall2 double_parameter [kq; kl] [tenth; 1]%float /\ 3 * (degree_cost [2; 1] + summands [2; 1]) + 7 = 85 /\ depth [2; 1] = 8.
Proof.
  destruct double_ex_split as (A1 & A2 & A3 & _ & A4 & A5 & A6 & A7 & A8 & _ & A10 & _). destruct dwts_bounds as (B1 & B2 & B3 & B4 & B5).
  repeat (split; [first [assumption | reflexivity]|]). reflexivity.
Qed.
