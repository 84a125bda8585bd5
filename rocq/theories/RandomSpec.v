(* Vocabulary for statements about random splines. *)
From Coq Require Import ZArith List Reals.
From Verif Require Import Base KnotVecSpec Spaces SplineEval SplineSpec.
Import ListNotations.
Open Scope Z_scope.

(* the fraction is dropped *)
Definition truncates (trunc : R -> Z) : Prop :=
  forall x, (0 <= x -> IZR (trunc x) <= x < IZR (trunc x) + 1)%R /\ (x <= 0 -> IZR (trunc x) - 1 < x <= IZR (trunc x))%R.
(* every draw is between 0 and the upper limit of the distribution *)
Definition within_limits (pick : Z -> Z -> Z) : Prop := forall i t, 0 <= t -> 0 <= pick i t <= t.

(* knots of degree p from low to high: p+1 at the ends, the others once and equally spaced *)
Definition uniform_between (low high : R) (p : Z) (kv : list R) : Prop :=
  2 * p + 2 <= zlen kv <= Z.max (2 * p + 2) (4 * p) /\
  forall j, (j < length kv)%nat ->
    knot kv j = (low + (high - low) * IZR (Z.max 0 (Z.min (zlen kv - 2 * p - 1) (Z.of_nat j - p))) / IZR (zlen kv - 2 * p - 1))%R.

Section Box.
Context {dz : R -> R}.
(* what all random splines have in common *)
Definition random_result (s : spline (Rops dz)) (dim : nat) (low high : R) (max_degree dimension : Z) : Prop :=
  length (degs_of s) = dim /\ Forall (fun p => 1 <= p <= max_degree) (degs_of s) /\
  Forall2 (uniform_between low high) (degs_of s) (knots_of s) /\
  ph_dim (sp_ph s) = dimension /\ Forall (fun x => -5 <= x <= 5)%R (ph_cps (sp_ph s)).
End Box.
