(* Vocabulary for statements about the degree reduction of splines. *)
From Coq Require Import ZArith List Reals.
From Verif Require Import Base KnotVecSpec Spaces SplineEval SplineSpec.
Import ListNotations.
Open Scope Z_scope.

(* knots strictly between the ends occur at most / exactly m times *)
Definition interior_at_most (kv : list R) (m : Z) : Prop :=
  forall x, (first_knot kv < x < final_knot kv)%R -> Z.of_nat (occurrences kv x) <= m.
Definition interior_exactly (kv : list R) (m : Z) : Prop :=
  forall x, In x kv -> (first_knot kv < x < final_knot kv)%R -> Z.of_nat (occurrences kv x) = m.

(* every knot of kq occurs once more in kp, and kp has no further knots *)
Definition one_copy_more (kq kp : list R) : Prop :=
  forall x, occurrences kp x = (occurrences kq x + if in_dec Req_EM_T x kq then 1 else 0)%nat.

(* with all interior knots filled up to multiplicity p, the number of knots is an int *)
Definition bezier_size (kv : list R) (p : Z) : Prop := p * Z.of_nat (distinct_values kv) + 2 < 2 ^ 31.

Section Spec.
Context {dz : R -> R}.
Implicit Types s : spline (Rops dz).

(* the same numerators and denominators at every point of the domain of s *)
Definition same_sums s s' : Prop :=
  ph_dim (sp_ph s') = ph_dim (sp_ph s) /\ (is_bspline s' <-> is_bspline s) /\
  forall us, in_domain s us -> weight_function s' us = weight_function s us /\
    forall c, 0 <= c < ph_dim (sp_ph s) -> weighted_sum s' us c = weighted_sum s us c.

(* numerators and denominators differ by at most e *)
Definition close_sums s s' (e : R) : Prop :=
  forall us, in_domain s us -> (Rabs (weight_function s' us - weight_function s us) <= e)%R /\
    forall c, 0 <= c < ph_dim (sp_ph s) -> (Rabs (weighted_sum s' us c - weighted_sum s us c) <= e)%R.
End Spec.
