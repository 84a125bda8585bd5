(* C74: derivatives in IEEE double arithmetic. *)
From Coq Require Import ZArith List Bool Reals Floats.
From Verif Require Import Base RSum MultiIndex KnotVec KnotVecSpec Basis BasisSpec Spaces SpacesSpec SplineSpec SplineEval DoubleSpec DoubleDerivSpec
  DoubleDerivThms DoubleExamples DoubleDerivExamples.
Import ListNotations.
Open Scope Z_scope.

(* What the computed values are compared to: order 0 is the spline itself, and every further order is the derivative. *)
Theorem C74_exact_derivative_zero : forall (knots : list (list R)) (degs : list Z) (cps : list (list R)) (us : list R) (c : Z),
  length degs = length knots -> length us = length knots ->
  exact_derivative knots degs cps us (repeat 0 (length knots)) c = exact_coordinate knots degs cps us c.
Proof. exact exact_derivative_zero. Qed.
Print Assumptions C74_exact_derivative_zero.

Example C74_exact_derivative_zero_example : length [2; 1] = length [kq; kl] /\ length [0x1.999999999999ap-4; 1]%float = length [kq; kl].
Proof. split; reflexivity. Qed.

Theorem C74_exact_derivative : forall (knots : list (list R)) (degs : list Z) (cps : list (list R)) (us : list R) (ders : list Z) (d : nat) (kv : list R) (u : R) (c : Z),
  Forall2 good_direction knots degs -> length us = length knots -> length ders = length knots ->
  Forall (fun m => 0 <= m) ders ->
  nth_error knots d = Some kv -> nth_error us d = Some u -> (first_knot kv <= u <= final_knot kv)%R -> ~ In u kv ->
  derivable_pt_lim (fun v => exact_derivative knots degs cps (upd us d v) ders c) u
    (exact_derivative knots degs cps us (upd ders d (nth d ders 0 + 1)) c).
Proof. exact exact_derivative_is. Qed.
Print Assumptions C74_exact_derivative.

Example C74_exact_derivative_example : Forall2 good_direction (map (map dval) [kq; kl]) [2; 1] /\
  (first_knot (map dval kq) <= dval 0x1.999999999999ap-4%float <= final_knot (map dval kq))%R /\
  ~ In (dval 0x1.999999999999ap-4%float) (map dval kq).
Proof. exact deriv_ex_exact. Qed.

(* The derivative of a basis function of any order. *)
Theorem C74_double_basis_derivative : forall (kv : list float) (p : nat) (u : float) (i : nat) (q : Z) (m : nat) (h : R),
  double_direction kv q -> double_parameter kv u -> spaced h (map dval kv) -> (0 < h <= 1)%R ->
  (i + p + 1 < length kv)%nat -> (p <= 500)%nat -> (m <= 500)%nat ->
  (1 <= p)%nat \/ (1 <= m)%nat \/ (knot (map dval kv) i < knot (map dval kv) (S i))%R ->
  (growth1 h (Z.of_nat p) (Z.of_nat m) <= 2 ^ 900)%R ->
  exists b, create_dynamic (F := Fops) kv (Z.of_nat i) (Z.of_nat p) = Ok b /\
    let v := bf_deriv b u (Z.of_nat m) in
    finite v /\ (Rabs (dval v - cox_derivative (map dval kv) m p i (dval u)) <=
       INR (6 * p + 2 * m + 1) * / 2 ^ 52 * growth1 h (Z.of_nat p) (Z.of_nat m))%R.
Proof. exact double_basis_derivative. Qed.
Print Assumptions C74_double_basis_derivative.

Theorem C74_exact_basis_derivative : forall (kv : list R) (m p i : nat) (u : R), nondecreasing kv -> (i + p + 1 < length kv)%nat ->
  (first_knot kv <= u <= final_knot kv)%R -> ~ In u kv ->
  cox_derivative kv 0 p i u = cox_de_boor kv p i u /\
  derivable_pt_lim (cox_derivative kv m p i) u (cox_derivative kv (S m) p i u).
Proof. exact (fun kv m p i u H1 H2 H3 H4 => conj (cox_derivative_0 kv p i u) (cox_derivative_is kv m p i u H1 H2 H3 H4)). Qed.
Print Assumptions C74_exact_basis_derivative.

Example C74_exact_basis_derivative_example : nondecreasing (map dval kq) /\ (1 + 2 + 1 < length (map dval kq))%nat /\
  (first_knot (map dval kq) <= dval 0x1.999999999999ap-4%float <= final_knot (map dval kq))%R /\
  ~ In (dval 0x1.999999999999ap-4%float) (map dval kq).
Proof. exact deriv_ex_exact_basis. Qed.

Example C74_double_basis_derivative_example : double_direction kq 2 /\ double_parameter kq 0x1.999999999999ap-4%float /\ spaced (1 / 2) (map dval kq) /\
  (1 + 2 + 1 < length kq)%nat /\ (2 <= 500)%nat /\ (1 <= 500)%nat /\ growth1 (1 / 2) 2 1 = 8%R.
Proof. exact deriv_ex_basis. Qed.

(* EvaluateDerivative: the result is finite and differs from the exact derivative by rounding only. *)
Theorem C74_double_derivative : forall (knots : list (list float)) (degs : list Z) (cps : list (list float)) (us : list float) (ders : list Z)
    (dim : Z) (dims : list Z) (M h : R),
  Forall2 double_direction knots degs -> Forall2 double_parameter knots us ->
  Forall (fun kv => spaced h (map dval kv)) knots -> (0 < h <= 1)%R ->
  length ders = length degs -> Forall (fun m => 0 <= m) ders -> Forall (fun p => p <= 500) degs ->
  Forall (fun cp => zlen cp = dim) cps -> zlen cps = total (point_counts knots degs) -> zlen cps < 2 ^ 64 ->
  Forall (fun c => 0 <= c < dim) dims ->
  Forall (Forall finite) cps -> Forall (Forall (fun x => Rabs (dval x) <= M)%R) cps -> (1 <= M <= 2 ^ 400)%R ->
  (growth h degs ders <= 2 ^ 400)%R ->
  derivative_cost degs ders + 2 * summands degs + 2 <= 2 ^ 50 ->
  exists s vs, spline_new (F := Fops) knots degs cps None = Ok s /\ evaluate_derivative s us dims ders = Ok vs /\
    Forall2 (fun c v => finite v /\
      (Rabs (dval v - exact_derivative (map (map dval) knots) degs (map (map dval) cps) (map dval us) ders c) <=
        IZR (derivative_cost degs ders + 2 * summands degs + 2) * / 2 ^ 52 * (IZR (summands degs) * growth h degs ders * M))%R) dims vs.
Proof. exact double_derivative. Qed.
Print Assumptions C74_double_derivative.

Example C74_double_derivative_example : Forall2 double_direction [kq; kl] [2; 1] /\
  Forall2 double_parameter [kq; kl] [0x1.999999999999ap-4; 1]%float /\
  Forall (fun kv => spaced (1 / 2) (map dval kv)) [kq; kl] /\
  Forall (fun cp => zlen cp = 2) dpts /\ zlen dpts = total (point_counts [kq; kl] [2; 1]) /\ zlen dpts < 2 ^ 64 /\
  Forall (Forall finite) dpts /\ Forall (Forall (fun x => Rabs (dval x) <= 1)%R) dpts /\ (1 <= 2 ^ 400)%R /\
  growth (1 / 2) [2; 1] [1; 1] = 32%R /\ derivative_cost [2; 1] [1; 1] + 2 * summands [2; 1] + 2 = 42.
Proof. exact deriv_ex. Qed.

(* Parameters outside the domain, NaN and infinities are rejected. *)
Theorem C74_double_derivative_domain : forall (knots : list (list float)) (degs : list Z) (cps : list (list float)) (us : list float) (ders : list Z) (dim : Z) (dims : list Z),
  Forall2 double_direction knots degs -> length us = length knots ->
  Forall (fun cp => zlen cp = dim) cps -> zlen cps = total (point_counts knots degs) -> zlen cps < 2 ^ 64 ->
  ~ Forall2 double_parameter knots us ->
  exists s, spline_new (F := Fops) knots degs cps None = Ok s /\ evaluate_derivative s us dims ders = Throw RangeError.
Proof. exact double_derivative_domain. Qed.
Print Assumptions C74_double_derivative_domain.

Example C74_double_derivative_domain_example : Forall2 double_direction [kq; kl] [2; 1] /\ ~ Forall2 double_parameter [kq; kl] [0x1.999999999999ap-4; nan]%float /\
  Forall (fun cp => zlen cp = 2) dpts /\ zlen dpts = total (point_counts [kq; kl] [2; 1]) /\ zlen dpts < 2 ^ 64.
Proof. exact deriv_ex_domain. Qed.
