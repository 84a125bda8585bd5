(* Specification vocabulary for the multi-index handler. *)
From Coq Require Import ZArith List.
From Verif Require Import Base MultiIndex.
Import ListNotations.
Open Scope Z_scope.

(* all lengths at least one *)
Definition pos_lens (lens : list Z) : Prop := Forall (fun l => 1 <= l) lens.
(* a multi-index of the box: 0 <= idx[i] < lens[i] for every i *)
Definition in_box (lens idx : list Z) : Prop := Forall2 (fun l i => 0 <= i < l) lens idx.
Definition origin (lens : list Z) : list Z := map (fun _ => 0) lens.

(* observation: the indices of a fresh handler after k increments *)
Definition nth_index (lens : list Z) (k : nat) : list Z :=
  mcur (iterate k mih_incr (mih_new lens)).
(* observation: the multi-indices seen in a loop of Get1DLength() iterations *)
Definition visited (lens : list Z) : list (list Z) :=
  map (nth_index lens) (seq 0 (Z.to_nat (total lens))).
