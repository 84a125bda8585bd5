(* Vocabulary for the constructors of splines (C51). *)
From Coq Require Import ZArith List Reals.
From Verif Require Import Base.
Import ListNotations.
Open Scope Z_scope.

(* number of control points per direction *)
Definition sizes (knots : list (list R)) (degs : list Z) : list Z := map2 (fun kv p => zlen kv - p - 1) knots degs.
