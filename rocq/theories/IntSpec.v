(* Vocabulary for statements about arithmetic on int. *)
From Coq Require Import ZArith List.
From Verif Require Import Base MultiIndex MultiIndexSpec KnotVec Spaces SplineEval.
Import ListNotations.
Open Scope Z_scope.

(* a number that is an int *)
Definition is_int (z : Z) : Prop := - 2 ^ 31 <= z < 2 ^ 31.

(* The sizes of the parts of a spline agree: per direction the degree, the number of points, of basis functions and of knots. *)
Definition consistent {F} (s : spline F) : Prop :=
  Forall2 (fun q n => 0 <= q < n) (ps_degs (sp_ps s)) (ph_npts (sp_ph s)) /\
  Forall2 (fun fs n => zlen fs = n) (ps_bfs (sp_ps s)) (ph_npts (sp_ph s)) /\
  length (ps_knots (sp_ps s)) = length (ph_npts (sp_ph s)) /\ 1 <= ph_dim (sp_ph s).
(* The numbers of knots and the number of all coordinates are ints. *)
Definition fits {F} (s : spline F) : Prop :=
  Forall (fun kv => is_int (zlen kv)) (ps_knots (sp_ps s)) /\ is_int (ph_dim (sp_ph s) * total (ph_npts (sp_ph s))).

(* n over k *)
Fixpoint choose (n k : nat) : Z :=
  match n, k with
  | _, O => 1
  | O, S _ => 0
  | S n', S k' => choose n' k' + choose n' k
  end.
