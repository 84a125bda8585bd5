(* Vocabulary of C94: the size of the cells in a VTK file. *)
From Coq Require Import ZArith List Reals.
From Verif Require Import Base KnotVecSpec.
Import ListNotations.

(* length of a cell in direction d, in the parameter: the domain is divided into equal parts *)
Definition cell_length (knots : list (list R)) (sc : list Z) (d : nat) : R :=
  ((final_knot (nth d knots []) - first_knot (nth d knots [])) / IZR (nth d sc 1%Z))%R.
