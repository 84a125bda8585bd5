(* Properties C07, C08, C10: basis functions. *)
From Coq Require Import ZArith List Lia Reals Lra.
From Verif Require Import Base KnotVec KnotVecSpec Basis BasisSpec BasisThms.
Import ListNotations.
Open Scope Z_scope.

(* C07.  A degree-0 function on the degenerate support [last, last] is the one exception: it is 1 at
   the last knot, see C07_degenerate_refuted. *)
Theorem C07_basis_is_cox_de_boor : forall dz kv p i,
  nondecreasing kv -> separated kv -> (i + p + 1 < length kv)%nat ->
  exists b, create_dynamic (F := Rops dz) kv (Z.of_nat i) (Z.of_nat p) = Ok b /\
    forall u, (1 <= p)%nat \/ (knot kv i < knot kv (S i))%R \/ u <> final_knot kv ->
              bf_eval b u = cox_de_boor kv p i u.
Proof. exact basis_is_cox. Qed.
Print Assumptions C07_basis_is_cox_de_boor.

Example C07_example : nondecreasing ex_kv /\ separated ex_kv /\ (1 + 2 + 1 < length ex_kv)%nat.
Proof. split; [exact ex_kv_nondec | split; [exact ex_kv_sep | cbn; lia]]. Qed.

Theorem C07_degenerate_refuted : forall dz, exists kv i u b,
  nondecreasing kv /\ separated kv /\ (i + 0 + 1 < length kv)%nat /\
  create_dynamic (F := Rops dz) kv (Z.of_nat i) 0 = Ok b /\
  bf_eval b u = 1%R /\ cox_de_boor kv 0 i u = 0%R.
Proof. exact basis_degenerate. Qed.
Print Assumptions C07_degenerate_refuted.

(* C08 *)
Theorem C08_nonnegative_local_support : forall dz kv p i,
  nondecreasing kv -> (i + p + 1 < length kv)%nat ->
  exists b, create_dynamic (F := Rops dz) kv (Z.of_nat i) (Z.of_nat p) = Ok b /\
    (forall u, (0 <= bf_eval b u)%R) /\
    (forall u, (u < knot kv i)%R \/ (knot kv (i + p + 1) < u)%R -> bf_eval b u = 0%R).
Proof. exact basis_nonneg_local. Qed.
Print Assumptions C08_nonnegative_local_support.

Theorem C08_only_selected_functions : forall dz kv p u,
  nondecreasing kv -> separated kv -> (first_knot kv < final_knot kv)%R ->
  (first_knot kv <= u <= final_knot kv)%R ->
  exists k, knot_span (F := Rops dz) kv u = Ok k /\
    forall i b, (i + p + 1 < length kv)%nat -> (1 <= p)%nat \/ (knot kv i < knot kv (S i))%R ->
      create_dynamic (F := Rops dz) kv (Z.of_nat i) (Z.of_nat p) = Ok b ->
      ~ (k - Z.of_nat p <= Z.of_nat i <= k) -> bf_eval b u = 0%R.
Proof. exact basis_only_span. Qed.
Print Assumptions C08_only_selected_functions.

Example C08_example : nondecreasing ex_kv /\ separated ex_kv /\
  (first_knot ex_kv < final_knot ex_kv)%R /\ (first_knot ex_kv <= 1 <= final_knot ex_kv)%R.
Proof.
  destruct ex_kv_range as [-> ->].
  split; [exact ex_kv_nondec | split; [exact ex_kv_sep | lra]].
Qed.

(* C10 *)
Theorem C10_basis_derivatives : forall dz kv p i,
  nondecreasing kv -> separated kv -> (i + p + 1 < length kv)%nat ->
  exists b, create_dynamic (F := Rops dz) kv (Z.of_nat i) (Z.of_nat p) = Ok b /\
    (forall u, bf_deriv b u 0 = bf_eval b u) /\
    (forall u m, ~ In u kv ->
       derivable_pt_lim (fun v => bf_deriv b v (Z.of_nat m)) u (bf_deriv b u (Z.of_nat (S m)))) /\
    (forall u m, (p < m)%nat -> bf_deriv b u (Z.of_nat m) = 0%R).
Proof. exact basis_derivative. Qed.
Print Assumptions C10_basis_derivatives.

Example C10_example : nondecreasing ex_kv /\ separated ex_kv /\ (1 + 2 + 1 < length ex_kv)%nat /\
  ~ In (1/2)%R ex_kv.
Proof. split; [exact ex_kv_nondec | split; [exact ex_kv_sep | split; [cbn; lia | exact ex_kv_notin]]]. Qed.
