(* C81: the arithmetic on int in evaluation, within its range and beyond. *)
From Coq Require Import ZArith List Reals.
From Verif Require Import Base MultiIndex MultiIndexSpec Spaces SpacesSpec SplineEval SplineSpec IgaBasisThms IntEval IntSpec IntEvalFacts IntFacts IntThms.
Import ListNotations.
Open Scope Z_scope.

(* Get1DIndex computes without overflow in every box of at most 2^31 multi-indices. *)
Theorem C81_index : forall lens idx, in_box lens idx -> total lens <= 2 ^ 31 ->
  get1d_int lens idx = Ok (get1d lens idx) /\ 0 <= get1d lens idx < 2 ^ 31.
Proof. exact index_int. Qed.
Print Assumptions C81_index.

(* So does ExtractDimension. *)
Theorem C81_extract : forall h d, in_box (mlen h) (mcur h) -> total (mlen h) <= 2 ^ 31 -> extract_int h d = Ok (extract_dimension h d).
Proof. exact extract_int_ok. Qed.
Print Assumptions C81_extract.

(* Get1DLength: exactly when the number of multi-indices is an int. *)
Theorem C81_length : forall lens, pos_lens lens ->
  (total lens < 2 ^ 31 -> length_int lens = Ok (total lens)) /\ (2 ^ 31 <= total lens -> length_int lens = UB).
Proof. exact length_int_iff. Qed.
Print Assumptions C81_length.

Example C81_sizes_example : pos_lens [46340; 46340] /\ total [46340; 46340] < 2 ^ 31 /\ in_box [46340; 46340] [46339; 46339] /\
  2 ^ 31 <= total [46341; 46341] /\ pos_lens [46341; 46341].
Proof. exact ex_sizes. Qed.

(* binomialCoefficient: exactly when the coefficient is an int. *)
Theorem C81_binomial : forall n k, (k <= n)%nat ->
  (choose n k < 2 ^ 31 -> binom_int n k = Ok (choose n k)) /\ (2 ^ 31 <= choose n k -> binom_int n k = UB).
Proof. exact binom_int_iff. Qed.
Print Assumptions C81_binomial.

(* Evaluate does no int arithmetic out of range, in any arithmetic of the coordinates and for any parameters,
   if the numbers of knots and the number of coordinates are ints. *)
Theorem C81_evaluate : forall (F : NumOps) (s : spline F), consistent s -> fits s -> forall us dims, length us = length (ph_npts (sp_ph s)) ->
  evaluate_int s us dims = evaluate s us dims.
Proof. exact @evaluate_int_ok. Qed.
Print Assumptions C81_evaluate.

(* Nor does EvaluateDerivative of a B-spline, or of a NURBS for orders that sum up to at most 30. *)
Theorem C81_derivative : forall (F : NumOps) (s : spline F), consistent s -> fits s -> forall us dims ders, length us = length (ph_npts (sp_ph s)) ->
  length ders = length (ph_npts (sp_ph s)) -> (ph_wts (sp_ph s) = None \/ Forall (fun k => 0 <= k) ders /\ fold_right Z.add 0 ders <= 30) ->
  evaluate_derivative_int s us dims ders = evaluate_derivative s us dims ders.
Proof. exact @derivative_30. Qed.
Print Assumptions C81_derivative.

(* For NURBS curves up to order 33. *)
Theorem C81_curve_derivative : forall (F : NumOps) (s : spline F), consistent s -> fits s -> forall us dims n, length (ph_npts (sp_ph s)) = 1%nat -> length us = 1%nat ->
  0 <= n <= 33 -> evaluate_derivative_int s us dims [n] = evaluate_derivative s us dims [n].
Proof. exact @derivative_33. Qed.
Print Assumptions C81_curve_derivative.

(* From order 34 on a binomial coefficient is no int: the derivative of a NURBS curve is never returned. *)
Theorem C81_curve_derivative_refuted : forall (F : NumOps) (s : spline F) us dims n w, consistent s -> fits s -> length (ph_npts (sp_ph s)) = 1%nat ->
  ph_wts (sp_ph s) = Some w -> length us = 1%nat -> dims <> [] -> 34 <= n < 2 ^ 31 - 1 -> forall v, evaluate_derivative_int s us dims [n] <> Ok v.
Proof. exact @derivative_34. Qed.
Print Assumptions C81_curve_derivative_refuted.

Example C81_example : consistent (ex_rational (dz := fun x => x)) /\ fits (ex_rational (dz := fun x => x)) /\
  length (ph_npts (sp_ph (ex_rational (dz := fun x => x)))) = 1%nat /\ ph_wts (sp_ph (ex_rational (dz := fun x => x))) = Some [1; 2]%R /\
  exists v, evaluate_derivative (F := Rops (fun x => x)) ex_rational [1/2]%R [0] [34] = Ok v.
Proof. exact ex_int. Qed.

(* What the constructor makes is consistent ... *)
Theorem C81_constructed : forall (F : NumOps) knots degs cps wts (s : spline F), spline_new knots degs cps wts = Ok s -> length knots = length degs ->
  Forall (fun p => 0 <= p) degs -> nth 0 cps [] <> [] -> consistent s.
Proof. exact @new_consistent. Qed.
Print Assumptions C81_constructed.

(* ... but may be too large: a spline that is accepted and that Evaluate overflows on. *)
Theorem C81_evaluate_refuted : forall dz, exists (s : spline (Rops dz)) v, (exists knots degs cps, spline_new knots degs cps None = Ok s) /\ well_formed s /\ consistent s /\ in_domain s [1/2]%R /\ valid_dims s [0] /\
  evaluate s [1/2]%R [0] = Ok v /\ forall v', evaluate_int s [1/2]%R [0] <> Ok v'.
Proof. exact wide_overflow. Qed.
Print Assumptions C81_evaluate_refuted.
