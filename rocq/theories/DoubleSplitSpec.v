(* Vocabulary for the subdivision of splines of doubles. *)
From Coq Require Import ZArith List.
From Verif Require Import Base MultiIndexSpec SplineSpec.
Import ListNotations.
Open Scope Z_scope.

(* the last layer in direction d of a net of sizes n1 is the first layer of a net of sizes n2 *)
Definition layers_meet {A} (default : A) (n1 n2 : list Z) (d : nat) (l1 l2 : list A) : Prop :=
  forall idx, in_box n1 idx ->
    nth (Z.to_nat (position n1 (upd idx d (nth d n1 0 - 1)))) l1 default = nth (Z.to_nat (position n2 (upd idx d 0))) l2 default.
