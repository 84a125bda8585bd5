(* Vocabulary for statements about splines that are polynomials. *)
From Coq Require Import ZArith List Reals.
From Verif Require Import RSum KnotVecSpec.
Import ListNotations.
Open Scope R_scope.

(* u_0^m_0 * u_1^m_1 * ... *)
Fixpoint monomial (us : list R) (ms : list nat) : R :=
  match us, ms with
  | u :: us', m :: ms' => u ^ m * monomial us' ms'
  | _, _ => 1
  end.
(* a polynomial is the list of its coefficients and exponents *)
Definition poly (terms : list (R * list nat)) (us : list R) : R := lsum (fun t => fst t * monomial us (snd t)) terms.
(* exponents at most the degrees, in every term *)
Definition of_degrees (degs : list Z) (terms : list (R * list nat)) : Prop :=
  Forall (fun t => Forall2 (fun m p => (m <= Z.to_nat p)%nat) (snd t) degs) terms.

(* the elementary symmetric polynomials: the sum of all products of m of the numbers *)
Fixpoint symmetric (m : nat) (l : list R) : R :=
  match m, l with
  | O, _ => 1
  | S _, [] => 0
  | S m', x :: l' => symmetric m l' + x * symmetric m' l'
  end.
(* the p knots strictly inside the support of basis function i *)
Definition inner_knots (kv : list R) (p i : nat) : list R := map (fun j => knot kv (i + j)) (seq 1 p).
(* the mean of the products of m of them, for each direction, multiplied *)
Fixpoint dual_monomial (knots : list (list R)) (degs idx : list Z) (ms : list nat) : R :=
  match knots, degs, idx, ms with
  | kv :: knots', p :: degs', i :: idx', m :: ms' =>
      symmetric m (inner_knots kv (Z.to_nat p) (Z.to_nat i)) / C (Z.to_nat p) m * dual_monomial knots' degs' idx' ms'
  | _, _, _, _ => 1
  end.
Definition dual_poly (knots : list (list R)) (degs : list Z) (terms : list (R * list nat)) (idx : list Z) : R :=
  lsum (fun t => fst t * dual_monomial knots degs idx (snd t)) terms.

(* the mean of these knots *)
Definition greville (kv : list R) (p i : Z) : R := lsum (fun x => x) (inner_knots kv (Z.to_nat p) (Z.to_nat i)) / IZR p.
