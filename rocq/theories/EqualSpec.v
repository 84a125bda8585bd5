(* Vocabulary for statements about the tolerant comparison of splines. *)
From Coq Require Import ZArith List Reals.
From Verif Require Import Base Spaces SplineEval SplineSpec.
Import ListNotations.

(* same length, and every pair of entries differs by less than tol *)
Definition close (tol : R) (a b : list R) : Prop := Forall2 (fun x y => (Rabs (x - y) < tol)%R) a b.

(* same kind, same degrees and numbers of points, all stored numbers close *)
Definition close_splines {dz} (tol : R) (a b : spline (Rops dz)) : Prop :=
  degs_of a = degs_of b /\ npts_of a = npts_of b /\
  Forall2 (close tol) (knots_of a) (knots_of b) /\
  close tol (ph_cps (sp_ph a)) (ph_cps (sp_ph b)) /\
  match ph_wts (sp_ph a), ph_wts (sp_ph b) with
  | None, None => True
  | Some v, Some w => close tol v w
  | _, _ => False
  end.
