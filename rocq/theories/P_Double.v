(* C63-C66: evaluation in IEEE double arithmetic. *)
From Coq Require Import ZArith List Bool Reals Floats.
From Verif Require Import Base RSum MultiIndex KnotVec KnotVecSpec Basis BasisSpec Spaces SpacesSpec SplineSpec SplineEval DoubleSpec DoubleThms DoubleExamples
  DoubleRationalSpec DoubleRationalThms DoubleRationalExamples.
Import ListNotations.
Open Scope Z_scope.

(* The span found in doubles is the exact one: it is not empty and holds the parameter. *)
Theorem C63_double_span : forall (kv : list float) (p : Z) (u : float), double_direction kv p -> double_parameter kv u ->
  exists k, knot_span (F := Fops) kv u = Ok (Z.of_nat k) /\ (S k < length kv)%nat /\
    (knot (map dval kv) k < knot (map dval kv) (S k))%R /\ (knot (map dval kv) k <= dval u)%R /\
    ((dval u < knot (map dval kv) (S k))%R \/
     (dval u = knot (map dval kv) (S k) /\ dval u = final_knot (map dval kv))).
Proof. exact double_span. Qed.
Print Assumptions C63_double_span.

Example C63_double_span_example : double_direction kq 2 /\ double_parameter kq 0x1.999999999999ap-4%float.
Proof. exact (conj kq_direction kq_parameter). Qed.

(* Evaluation has a result exactly for the parameters of the domain; all others, also NaN and the infinities, are rejected. *)
Theorem C63_double_domain : forall (knots : list (list float)) (degs : list Z) (cps : list (list float)) (us : list float) (dim : Z) (dims : list Z),
  Forall2 double_direction knots degs -> length us = length knots ->
  Forall (fun cp => zlen cp = dim) cps -> zlen cps = total (point_counts knots degs) -> zlen cps < 2 ^ 64 ->
  Forall (fun c => 0 <= c < dim) dims ->
  exists s, spline_new (F := Fops) knots degs cps None = Ok s /\
    (Forall2 double_parameter knots us -> exists vs, evaluate s us dims = Ok vs /\ length vs = length dims) /\
    (~ Forall2 double_parameter knots us -> evaluate s us dims = Throw RangeError).
Proof. exact double_domain. Qed.
Print Assumptions C63_double_domain.

Example C63_double_domain_example : Forall2 double_direction [kq; kl] [2; 1] /\
  Forall2 double_parameter [kq; kl] [0x1.999999999999ap-4; 1]%float /\
  ~ Forall2 double_parameter [kq; kl] [0x1.999999999999ap-4; nan]%float /\
  ~ Forall2 double_parameter [kq; kl] [0x1.999999999999ap-4; infinity]%float /\
  Forall (fun cp => zlen cp = 2) dpts /\ zlen dpts = total (point_counts [kq; kl] [2; 1]) /\ zlen dpts < 2 ^ 64.
Proof. exact double_ex_domain. Qed.

(* Every basis function value computed is finite, not negative, close to the exact value relatively, and 0 outside the support. *)
Theorem C64_double_basis : forall (kv : list float) (p : nat) (u : float) (i : nat) (q : Z),
  double_direction kv q -> double_parameter kv u ->
  (i + p + 1 < length kv)%nat -> (p <= 500)%nat -> (1 <= p)%nat \/ (knot (map dval kv) i < knot (map dval kv) (S i))%R ->
  exists b, create_dynamic (F := Fops) kv (Z.of_nat i) (Z.of_nat p) = Ok b /\
    let v := bf_eval b u in
    finite v /\ (0 <= dval v)%R /\
    (Rabs (dval v - cox_de_boor (map dval kv) p i (dval u)) <=
       INR p * / 2 ^ 50 * cox_de_boor (map dval kv) p i (dval u) + 4 ^ (p + 2) * underflow)%R /\
    (~ (knot (map dval kv) i <= dval u <= knot (map dval kv) (i + p + 1))%R -> v = 0%float).
Proof. exact double_basis. Qed.
Print Assumptions C64_double_basis.

Example C64_double_basis_example : double_direction kq 2 /\ double_parameter kq 0x1.999999999999ap-4%float /\
  (1 + 2 + 1 < length kq)%nat /\ (2 <= 500)%nat /\ (1 <= 2)%nat.
Proof. exact double_ex_basis. Qed.

(* The p+1 values of a span add up to 1 up to rounding. *)
Theorem C64_double_partition : forall (kv : list float) (p : Z) (u : float), double_direction kv p -> double_parameter kv u -> p <= 500 ->
  exists ps vs, ps_new (F := Fops) [kv] [p] = Ok ps /\ eval_all_nonzero ps 0 u = Ok vs /\ zlen vs = p + 1 /\
    Forall (fun v => finite v /\ (0 <= dval v)%R) vs /\
    (Rabs (lsum dval vs - 1) <= IZR p * / 2 ^ 50 + IZR (p + 1) * (4 ^ Z.to_nat (p + 2) * underflow))%R.
Proof. exact double_partition. Qed.
Print Assumptions C64_double_partition.

Example C64_double_partition_example : double_direction kq 2 /\ double_parameter kq 0x1.999999999999ap-4%float /\ 2 <= 500.
Proof. exact double_ex_partition. Qed.

(* The point computed is finite and differs from the exact one by rounding only. *)
Theorem C65_double_evaluate : forall (knots : list (list float)) (degs : list Z) (cps : list (list float)) (us : list float) (dim : Z) (dims : list Z) (M : R),
  Forall2 double_direction knots degs -> Forall2 double_parameter knots us ->
  Forall (fun cp => zlen cp = dim) cps -> zlen cps = total (point_counts knots degs) -> zlen cps < 2 ^ 64 ->
  Forall (fun c => 0 <= c < dim) dims ->
  Forall (Forall moderate) cps -> Forall (Forall (fun x => Rabs (dval x) <= M)%R) cps -> (M <= 2 ^ 500)%R ->
  degree_cost degs + summands degs + 1 <= 2 ^ 50 -> depth degs <= 500 ->
  exists s vs, spline_new (F := Fops) knots degs cps None = Ok s /\ evaluate s us dims = Ok vs /\
    Forall2 (fun c v => finite v /\
      (Rabs (dval v - exact_coordinate (map (map dval) knots) degs (map (map dval) cps) (map dval us) c) <=
        IZR (degree_cost degs + summands degs + 1) * / 2 ^ 52 * M +
        2 * IZR (summands degs) * (4 ^ Z.to_nat (depth degs) * M + 1) * underflow)%R) dims vs.
Proof. exact double_evaluate. Qed.
Print Assumptions C65_double_evaluate.

(* the double nearest to one tenth is not one tenth: the exact point is that of the double *)
Example C65_double_evaluate_example : Forall2 double_direction [kq; kl] [2; 1] /\
  Forall2 double_parameter [kq; kl] [0x1.999999999999ap-4; 1]%float /\
  Forall (fun cp => zlen cp = 2) dpts /\ zlen dpts = total (point_counts [kq; kl] [2; 1]) /\ zlen dpts < 2 ^ 64 /\
  Forall (Forall moderate) dpts /\ Forall (Forall (fun x => Rabs (dval x) <= 1)%R) dpts /\ (1 <= 2 ^ 500)%R /\
  degree_cost [2; 1] + summands [2; 1] + 1 = 27 /\ depth [2; 1] = 8 /\
  dval 0x1.999999999999ap-4%float <> (1 / 10)%R.
Proof. exact double_ex_evaluate. Qed.

(* Exact values at the ends are lost: constant control points are missed at both ends of [0, 49]. *)
Theorem C65_double_ends_refuted : exists (kv : list float) s v w, spline_new (F := Fops) [kv] [1] [[1]; [1]]%float None = Ok s /\
  evaluate s [nth 0 kv 0%float] [0] = Ok [v] /\ evaluate s [last kv 0%float] [0] = Ok [w] /\
  v <> 1%float /\ w <> 1%float.
Proof. exact end_missed. Qed.
Print Assumptions C65_double_ends_refuted.

(* NURBS: the point computed is finite and differs from the exact one by rounding only. *)
Theorem C66_double_rational : forall (knots : list (list float)) (degs : list Z) (cps : list (list float)) (wts us : list float) (dim : Z) (dims : list Z) (M : R),
  Forall2 double_direction knots degs -> Forall2 double_parameter knots us ->
  Forall (fun cp => zlen cp = dim) cps -> zlen cps = total (point_counts knots degs) -> zlen cps < 2 ^ 64 ->
  zlen wts = zlen cps -> Forall double_weight wts -> Forall (fun c => 0 <= c < dim) dims ->
  Forall (Forall moderate) cps -> Forall (Forall (fun x => Rabs (dval x) <= M)%R) cps -> (M <= 2 ^ 500)%R ->
  3 * (degree_cost degs + summands degs) + 7 <= 2 ^ 50 -> depth degs <= 200 ->
  exists s vs, spline_new (F := Fops) knots degs cps (Some wts) = Ok s /\ evaluate s us dims = Ok vs /\
    Forall2 (fun c v => finite v /\
      (Rabs (dval v - exact_rational (map (map dval) knots) degs (map (map dval) cps) (map dval wts) (map dval us) c) <=
        IZR (3 * (degree_cost degs + summands degs) + 7) * / 2 ^ 52 * M +
        2 * IZR (summands degs) * (2 ^ 202 * 4 ^ Z.to_nat (depth degs) * M + 2 ^ 104) * underflow)%R) dims vs.
Proof. exact double_rational. Qed.
Print Assumptions C66_double_rational.

Example C66_double_rational_example : Forall2 double_direction [kq; kl] [2; 1] /\
  Forall2 double_parameter [kq; kl] [0x1.999999999999ap-4; 1]%float /\
  Forall (fun cp => zlen cp = 2) dpts /\ zlen dpts = total (point_counts [kq; kl] [2; 1]) /\ zlen dpts < 2 ^ 64 /\
  zlen dwts = zlen dpts /\ Forall double_weight dwts /\
  Forall (Forall moderate) dpts /\ Forall (Forall (fun x => Rabs (dval x) <= 1)%R) dpts /\ (1 <= 2 ^ 500)%R /\
  3 * (degree_cost [2; 1] + summands [2; 1]) + 7 = 85 /\ depth [2; 1] = 8.
Proof. exact rational_ex. Qed.
