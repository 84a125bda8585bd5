(* Vocabulary for statements about an affine change of the parameters. *)
From Coq Require Import ZArith List Reals.
From Verif Require Import Base.
Import ListNotations.
Open Scope Z_scope.

(* x becomes a x + b *)
Definition affine (ab : R * R) (x : R) : R := (fst ab * x + snd ab)%R.

(* the factor by which derivatives of the orders ders change *)
Definition chain_factor (abs : list (R * R)) (ders : list Z) : R :=
  fold_right Rmult 1%R (map2 (fun ab m => / fst ab ^ Z.to_nat m)%R abs ders).
