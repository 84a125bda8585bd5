(* Properties of the slope of splines: C93. *)
From Coq Require Import ZArith List Reals.
From Verif Require Import Base RSum Spaces SplineEval SplineSpec SteepSpec Steep SteepExamples.
Import ListNotations.
Open Scope Z_scope.

(* C93: between two parameters a coordinate changes by at most the steepness of the control polygon times the distance *)
Theorem C93_lipschitz : forall dz (s : spline (Rops dz)) us vs c Ks,
  well_formed s -> is_bspline s -> in_domain s us -> in_domain s vs -> Forall (fun p => 1 <= p) (degs_of s) ->
  0 <= c < ph_dim (sp_ph s) -> (forall d, (d < length us)%nat -> polygon_within s d c (nth d Ks 0%R)) ->
  exists x y, evaluate s us [c] = Ok [x] /\ evaluate s vs [c] = Ok [y] /\
    (Rabs (y - x) <= lsum (fun d => nth d Ks 0 * Rabs (nth d vs 0 - nth d us 0)) (seq 0 (length us)))%R.
Proof. exact all_directions. Qed.
Print Assumptions C93_lipschitz.

(* C93: and the first derivatives that EvaluateDerivative returns are within the same bounds *)
Theorem C93_derivative : forall dz (s : spline (Rops dz)) us d c p K,
  well_formed s -> is_bspline s -> in_domain s us -> nth_error (degs_of s) d = Some p -> 1 <= p ->
  0 <= c < ph_dim (sp_ph s) -> polygon_within s d c K ->
  exists l, evaluate_derivative s us [c] (upd (map (fun _ => 0) (degs_of s)) d 1) = Ok [l] /\ (Rabs l <= K)%R.
Proof. exact derivative_bound. Qed.
Print Assumptions C93_derivative.

Example C93_example : exists s : spline (Rops (fun x => x)), well_formed s /\ is_bspline s /\ in_domain s [(1/2)%R; (1/4)%R] /\ in_domain s [(3/2)%R; (3/4)%R] /\
  degs_of s = [2; 1] /\ 0 <= 1 < ph_dim (sp_ph s) /\ forall d, (d < 2)%nat -> polygon_within s d 1 (nth d [4; 3] 0)%R.
Proof. exact ex_steep. Qed.
