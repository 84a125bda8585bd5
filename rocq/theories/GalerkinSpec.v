(* Vocabulary for statements about the integrals that the assembled matrices hold. *)
From Coq Require Import ZArith List Reals.
From Verif Require Import Base RSum KnotVecSpec BasisSpec Spaces SplineSpec SplineEval IgaSystemSpec.
Import ListNotations.
Open Scope R_scope.

(* x is the integral of f from a to b *)
Definition integral (f : R -> R) (a b x : R) : Prop := exists pr : Riemann_integrable f a b, x = RiemannInt pr.
(* x is the integral of f_0(u_0) * f_1(u_1) * ... over the domain: the product of the integrals *)
Fixpoint box_integral (knots : list (list R)) (fs : list (R -> R)) (x : R) : Prop :=
  match knots, fs with
  | kv :: knots', f :: fs' => exists y z, integral f (first_knot kv) (final_knot kv) y /\ box_integral knots' fs' z /\ x = y * z
  | _, _ => x = 1
  end.

(* the products of the basis functions of two control points, per direction *)
Fixpoint value_products (knots : list (list R)) (degs a b : list Z) : list (R -> R) :=
  match knots, degs, a, b with
  | kv :: knots', p :: degs', i :: a', j :: b' =>
      (fun u => cox_de_boor kv (Z.to_nat p) (Z.to_nat i) u * cox_de_boor kv (Z.to_nat p) (Z.to_nat j) u) :: value_products knots' degs' a' b'
  | _, _, _, _ => []
  end.
(* g i is the derivative of basis function i, except at the knots *)
Definition slopes (kv : list R) (p : Z) (g : Z -> R -> R) : Prop :=
  forall i u, (0 <= i < Z.of_nat (length kv) - p - 1)%Z -> first_knot kv < u < final_knot kv -> ~ In u kv ->
  derivable_pt_lim (cox_de_boor kv (Z.to_nat p) (Z.to_nat i)) u (g i u).
Fixpoint all_slopes (knots : list (list R)) (degs : list Z) (gs : list (Z -> R -> R)) : Prop :=
  match knots, degs, gs with
  | kv :: knots', p :: degs', g :: gs' => slopes kv p g /\ all_slopes knots' degs' gs'
  | [], [], [] => True
  | _, _, _ => False
  end.
(* the derivative of the first in direction d times that of the second in direction e *)
Fixpoint slope_products (knots : list (list R)) (degs : list Z) (gs : list (Z -> R -> R)) (d e : Z) (a b : list Z) : list (R -> R) :=
  match knots, degs, gs, a, b with
  | kv :: knots', p :: degs', g :: gs', i :: a', j :: b' =>
      (fun u => (if (d =? 0)%Z then g i u else cox_de_boor kv (Z.to_nat p) (Z.to_nat i) u) *
                (if (e =? 0)%Z then g j u else cox_de_boor kv (Z.to_nat p) (Z.to_nat j) u)) :: slope_products knots' degs' gs' (d - 1) (e - 1) a' b'
  | _, _, _, _, _ => []
  end.

(* the map of the spline is b + A u *)
Definition affine_map {dz} (s : spline (Rops dz)) (A : Z -> nat -> R) (b : Z -> R) : Prop :=
  forall us c, in_domain s us -> (0 <= c < ph_dim (sp_ph s))%Z ->
  geometry s us c = b c + lsum (fun d => A c d * nth d us 0) (seq 0 (length us)).
(* a determinant of n x n matrices gains the square of every factor of a row and the column of the same number *)
Definition scales (mdet : list (list R) -> R) (n : nat) : Prop :=
  forall (h : nat -> R) (G : nat -> nat -> R),
  mdet (table n (fun a b => h a * h b * G a b)) = (fold_right Rmult 1 (map h (seq 0 n))) ^ 2 * mdet (table n G).
(* the square root of the Gram determinant of A: the factor of n-dimensional volumes *)
Definition volume_factor (mdet : list (list R) -> R) (n : nat) (dim : Z) (A : Z -> nat -> R) : R :=
  sqrt (Rabs (mdet (table n (fun a b => lsum (fun c => A c a * A c b) (zseq 0 (Z.to_nat dim)))))).
