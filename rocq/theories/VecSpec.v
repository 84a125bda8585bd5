(* Vocabulary for statements about vectors of numbers. *)
From Coq Require Import ZArith List Reals.
From Verif Require Import Base RSum.
Import ListNotations.

(* a_0 b_0 + a_1 b_1 + ... *)
Definition dot (a b : list R) : R := lsum (fun xy => fst xy * snd xy)%R (combine a b).

(* x a + y b, entry by entry *)
Definition combination (x : R) (a : list R) (y : R) (b : list R) : list R := map2 (fun p q => x * p + y * q)%R a b.
