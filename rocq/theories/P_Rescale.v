(* C77: affine change of the parameters. *)
From Coq Require Import ZArith List Reals.
From Verif Require Import Base RSum MultiIndex KnotVecSpec BasisSpec Spaces SpacesSpec SplineEval SplineSpec RescaleSpec RescaleFacts RescaleThms.
Import ListNotations.
Open Scope Z_scope.

(* The same control points over knots a t + b: Evaluate at a u + b behaves as Evaluate of the given spline at u, also outside the domain. *)
Theorem C77_rescaled_value : forall (dz : R -> R) (s s' : spline (Rops dz)) (abs : list (R * R)) (us : list R) (dims : list Z),
  well_formed s -> well_formed s' -> Forall (fun ab => 0 < fst ab)%R abs -> length abs = length (knots_of s) ->
  knots_of s' = map2 (fun kv ab => map (affine ab) kv) (knots_of s) abs -> degs_of s' = degs_of s -> sp_ph s' = sp_ph s ->
  length us = length (knots_of s) -> valid_dims s dims -> is_bspline s \/ positive_weights s ->
  evaluate s' (map2 (fun u ab => affine ab u) us abs) dims = evaluate s us dims.
Proof. exact rescaled_value. Qed.
Print Assumptions C77_rescaled_value.

(* Derivatives of order m are divided by a^m in every direction. *)
Theorem C77_rescaled_derivative : forall (dz : R -> R) (s s' : spline (Rops dz)) (abs : list (R * R)) (us : list R) (dims ders : list Z),
  well_formed s -> well_formed s' -> Forall (fun ab => 0 < fst ab)%R abs -> length abs = length (knots_of s) ->
  knots_of s' = map2 (fun kv ab => map (affine ab) kv) (knots_of s) abs -> degs_of s' = degs_of s -> sp_ph s' = sp_ph s ->
  in_domain s us -> valid_dims s dims -> length ders = length (degs_of s) -> Forall (fun m => 0 <= m) ders ->
  is_bspline s \/ weight_function s us <> 0%R ->
  exists vs, evaluate_derivative s us dims ders = Ok vs /\
    evaluate_derivative s' (map2 (fun u ab => affine ab u) us abs) dims ders = Ok (map (fun v => chain_factor abs ders * v)%R vs).
Proof. exact rescaled_derivative. Qed.
Print Assumptions C77_rescaled_derivative.

Example C77_example : exists s s' : spline (Rops (fun x => x)), well_formed s /\ well_formed s' /\ positive_weights s /\
  Forall (fun ab => 0 < fst ab)%R [(2, 1); (1/2, -3)]%R /\
  knots_of s' = map2 (fun kv ab => map (affine ab) kv) (knots_of s) [(2, 1); (1/2, -3)]%R /\
  hd [] (knots_of s) = [0; 0; 0; 1; 2; 2; 2]%R /\ hd [] (knots_of s') = [1; 1; 1; 3; 5; 5; 5]%R /\
  degs_of s' = degs_of s /\ sp_ph s' = sp_ph s /\ in_domain s [1/2; 1/4]%R /\ ~ in_domain s [3; 1/4]%R /\ valid_dims s [0; 1] /\
  chain_factor [(2, 1); (1/2, -3)]%R [1; 2] = 2%R.
Proof. exact ex_rescaled. Qed.
