(* Properties of the integration rules: C35. *)
From Coq Require Import ZArith List Reals.
From Verif Require Import Base RSum Gauss GaussSpec GaussThms.
Import ListNotations.
Open Scope R_scope.

(* C35: the rule with n points integrates every polynomial of degree at most 2n-1 exactly over [-1, 1] *)
Theorem C35_gauss_exact : forall dz n points a d (pr : Riemann_integrable (polynomial a d) (-1) 1),
  gauss_rule (F := Rops dz) n = Some points -> (d <= Z.to_nat (2 * n - 1))%nat ->
  quadrature points (polynomial a d) = RiemannInt pr.
Proof. exact gauss_exact. Qed.
Print Assumptions C35_gauss_exact.

Example C35_example : exists points, gauss_rule (F := Rops (fun x => x)) 3 = Some points /\ (5 <= Z.to_nat (2 * 3 - 1))%nat /\
  inhabited (Riemann_integrable (polynomial INR 5) (-1) 1).
Proof. exact ex_gauss. Qed.

(* every polynomial is integrable, so the integral in C35_gauss_exact exists *)
Theorem C35_integrable : forall a d, inhabited (Riemann_integrable (polynomial a d) (-1) 1).
Proof. exact (fun a d => inhabits (polynomial_integrable a d (-1) 1)). Qed.
Print Assumptions C35_integrable.

(* C35: points inside (-1, 1), positive weights with sum 2 *)
Theorem C35_gauss_weights : forall dz n points, gauss_rule (F := Rops dz) n = Some points ->
  length points = Z.to_nat n /\ Forall (fun xw => -1 < fst xw < 1 /\ 0 < snd xw) points /\ lsum snd points = 2.
Proof. exact gauss_weights. Qed.
Print Assumptions C35_gauss_weights.

(* the degree 2n-1 cannot be raised *)
Theorem C35_gauss_sharp : forall dz n points, gauss_rule (F := Rops dz) n = Some points ->
  exists a (pr : Riemann_integrable (polynomial a (Z.to_nat (2 * n))) (-1) 1),
    quadrature points (polynomial a (Z.to_nat (2 * n))) <> RiemannInt pr.
Proof. exact gauss_sharp. Qed.
Print Assumptions C35_gauss_sharp.
