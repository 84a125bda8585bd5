(* Vocabulary for statements about repeated calls. *)
From Coq Require Import ZArith List Reals.
From Verif Require Import Base IgaSystem.

(* the object after k calls of GetSteadyStateSolution *)
Fixpoint steady_calls {dz} (mdet : list (list R) -> R) (minv : list (list R) -> Res (list (list R)))
    (msolve : list (list R) -> list R -> Res (list R)) (k : nat) (pr : problem (Rops dz)) : Res (problem (Rops dz)) :=
  match k with
  | O => Ok pr
  | S k' => r <- steady (F := Rops dz) mdet minv msolve pr ;; steady_calls mdet minv msolve k' (snd r)
  end.
