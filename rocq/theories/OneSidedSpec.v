(* One-sided derivatives and continuity of real functions. *)
From Coq Require Import Reals.
Open Scope R_scope.

Definition right_derivative (f : R -> R) (u l : R) : Prop :=
  forall eps, 0 < eps -> exists delta, 0 < delta /\
    forall h, 0 < h < delta -> Rabs ((f (u + h) - f u) / h - l) < eps.
Definition left_derivative (f : R -> R) (u l : R) : Prop :=
  forall eps, 0 < eps -> exists delta, 0 < delta /\
    forall h, 0 < h < delta -> Rabs ((f u - f (u - h)) / h - l) < eps.
