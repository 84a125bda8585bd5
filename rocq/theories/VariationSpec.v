(* Vocabulary for statements about sign changes along a curve. *)
From Coq Require Import ZArith List Reals.
From Verif Require Import Base RSum Spaces SplineEval SplineSpec.
Import ListNotations.
Open Scope Z_scope.

(* every element is related to the next one *)
Fixpoint linked {A} (P : A -> A -> Prop) (l : list A) : Prop :=
  match l with
  | a :: ((b :: _) as t) => P a b /\ linked P t
  | _ => True
  end.

(* neighbours have strictly opposite signs *)
Definition alternating (l : list R) : Prop := linked (fun x y => x * y < 0)%R l.

(* on which side of the plane b + a x = 0 the point x lies; 0: on the plane *)
Definition side (a : Z -> R) (b : R) (x : list R) : R :=
  (b + lsum (fun c => a c * nth (Z.to_nat c) x 0) (zseq 0 (length x)))%R.

(* control point number i of a curve *)
Definition curve_point {dz} (s : spline (Rops dz)) (i : Z) : list R :=
  map (coordinate s [i]) (zseq 0 (Z.to_nat (ph_dim (sp_ph s)))).
