(* Vocabulary for statements about integration rules. *)
From Coq Require Import List Reals.
From Verif Require Import RSum.
Import ListNotations.
Open Scope R_scope.

(* a_0 + a_1 x + ... + a_d x^d *)
Definition polynomial (a : nat -> R) (d : nat) (x : R) : R := sum_f_R0 (fun k => a k * x ^ k) d.

(* sum of weight * f(coordinate) *)
Definition quadrature (points : list (R * R)) (f : R -> R) : R := lsum (fun xw => snd xw * f (fst xw)) points.
