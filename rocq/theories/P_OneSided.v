(* Derivatives at knots: C10, C19, C20 (one-sided) and C67. *)
From Coq Require Import ZArith List Reals.
From Verif Require Import Base KnotVecSpec Basis Spaces SplineEval SplineSpec EvalThms OneSidedSpec OneSidedThms SmoothThms.
Import ListNotations.
Open Scope Z_scope.

(* C10 at every parameter of the domain, knots included; degree 0 on an empty span is excluded, see C07_degenerate_refuted *)
Theorem C10_one_sided : forall dz kv p i, nondecreasing kv -> separated kv -> (i + p + 1 < length kv)%nat ->
  (1 <= p)%nat \/ (knot kv i < knot kv (S i))%R -> (first_knot kv < final_knot kv)%R ->
  exists b, create_dynamic (F := Rops dz) kv (Z.of_nat i) (Z.of_nat p) = Ok b /\
    forall u m, (first_knot kv <= u <= final_knot kv)%R ->
      ((u < final_knot kv)%R -> right_derivative (fun v => bf_deriv b v (Z.of_nat m)) u (bf_deriv b u (Z.of_nat (S m)))) /\
      (u = final_knot kv -> left_derivative (fun v => bf_deriv b v (Z.of_nat m)) u (bf_deriv b u (Z.of_nat (S m)))).
Proof. exact basis_one_sided. Qed.
Print Assumptions C10_one_sided.

(* C19 and C20 at every parameter of the domain, knots included *)
Theorem C19_C20_one_sided : forall dz (s : spline (Rops dz)) us ders d kv u c,
  well_formed s -> in_domain s us ->
  length ders = length (degs_of s) -> Forall (fun m => 0 <= m) ders ->
  nth_error (knots_of s) d = Some kv -> nth_error us d = Some u ->
  0 <= c < ph_dim (sp_ph s) -> is_bspline s \/ weight_function s us <> 0%R ->
  exists l, evaluate_derivative s us [c] (upd ders d (nth d ders 0 + 1)) = Ok [l] /\
    ((u < final_knot kv)%R ->
      right_derivative (fun v => only_value (evaluate_derivative s (upd us d v) [c] ders)) u l) /\
    (u = final_knot kv ->
      left_derivative (fun v => only_value (evaluate_derivative s (upd us d v) [c] ders)) u l).
Proof. exact derivative_one_sided. Qed.
Print Assumptions C19_C20_one_sided.

(* C67 *)
Theorem C67_basis_smooth : forall dz kv p i, nondecreasing kv -> separated kv -> (i + p + 1 < length kv)%nat ->
  exists b, create_dynamic (F := Rops dz) kv (Z.of_nat i) (Z.of_nat p) = Ok b /\
    forall u m, (first_knot kv < u < final_knot kv)%R ->
      ((m + occurrences kv u <= p)%nat -> continuity_pt (fun v => bf_deriv b v (Z.of_nat m)) u) /\
      ((S m + occurrences kv u <= p)%nat ->
         derivable_pt_lim (fun v => bf_deriv b v (Z.of_nat m)) u (bf_deriv b u (Z.of_nat (S m)))).
Proof. exact basis_smooth. Qed.
Print Assumptions C67_basis_smooth.

Theorem C67_derivatives_smooth : forall dz (s : spline (Rops dz)) us ders d kv p u c,
  well_formed s -> in_domain s us ->
  length ders = length (degs_of s) -> Forall (fun m => 0 <= m) ders ->
  nth_error (knots_of s) d = Some kv -> nth_error (degs_of s) d = Some p -> nth_error us d = Some u ->
  (first_knot kv < u < final_knot kv)%R ->
  0 <= c < ph_dim (sp_ph s) -> is_bspline s \/ weight_function s us <> 0%R ->
  (nth d ders 0 + Z.of_nat (occurrences kv u) <= p ->
     continuity_pt (fun v => only_value (evaluate_derivative s (upd us d v) [c] ders)) u) /\
  (nth d ders 0 + 1 + Z.of_nat (occurrences kv u) <= p ->
   exists l, evaluate_derivative s us [c] (upd ders d (nth d ders 0 + 1)) = Ok [l] /\
     derivable_pt_lim (fun v => only_value (evaluate_derivative s (upd us d v) [c] ders)) u l).
Proof. exact derivative_smooth. Qed.
Print Assumptions C67_derivatives_smooth.

Theorem C67_evaluate_continuous : forall dz (s : spline (Rops dz)) us d kv p u c,
  well_formed s -> in_domain s us ->
  nth_error (knots_of s) d = Some kv -> nth_error (degs_of s) d = Some p -> nth_error us d = Some u ->
  (first_knot kv < u < final_knot kv)%R -> Z.of_nat (occurrences kv u) <= p ->
  0 <= c < ph_dim (sp_ph s) -> is_bspline s \/ positive_weights s ->
  continuity_pt (fun v => only_value (evaluate s (upd us d v) [c])) u.
Proof. exact evaluate_continuous. Qed.
Print Assumptions C67_evaluate_continuous.

(* a rational surface of degree 2 in the first direction at its inner knot 1, met once *)
Example C67_C19_C20_example : exists s : spline (Rops (fun x => x)), well_formed s /\ in_domain s [1; 1/4]%R /\
  length [0; 2] = length (degs_of s) /\ nth_error (knots_of s) 0 = Some [0; 0; 0; 1; 2; 2; 2]%R /\
  nth_error (degs_of s) 0 = Some 2 /\ In 1%R [0; 0; 0; 1; 2; 2; 2]%R /\
  occurrences [0; 0; 0; 1; 2; 2; 2]%R 1 = 1%nat /\ 0 <= 1 < ph_dim (sp_ph s) /\
  positive_weights s /\ weight_function s [1; 1/4]%R <> 0%R.
Proof. exact ex_onesided. Qed.

(* one order more and the derivatives may jump *)
Theorem C67_next_order_refuted : exists (kv : list R) (p i : nat) (b : bf (Rops (fun x => x))) (u : R) (m : nat),
  nondecreasing kv /\ separated kv /\ (i + p + 1 < length kv)%nat /\
  create_dynamic (F := Rops (fun x => x)) kv (Z.of_nat i) (Z.of_nat p) = Ok b /\
  (first_knot kv < u < final_knot kv)%R /\ (m + occurrences kv u = S p)%nat /\
  ~ continuity_pt (fun v => bf_deriv b v (Z.of_nat m)) u.
Proof. exact smooth_sharp. Qed.
Print Assumptions C67_next_order_refuted.
