(* Vocabulary for the patch test: values of a linear function of the physical coordinates. *)
From Coq Require Import ZArith List Reals.
From Verif Require Import Base RSum SplineEval SplineSpec IgaSystemSpec.
Import ListNotations.
Open Scope R_scope.

(* the linear function with constant part alpha and slopes beta of the first n coordinates x *)
Definition linear_function (n : nat) (alpha : R) (beta : nat -> R) (x : Z -> R) : R :=
  alpha + lsum (fun k => beta k * x (Z.of_nat k)) (seq 0 n).
(* row a of the matrix m applied to the control values c *)
Definition row_applied (npts : list Z) (m : list (list R)) (a : list Z) (c : list Z -> R) : R :=
  lsum (fun b => entry m (position npts a) (position npts b) * c b) (all_indices npts).
