(* C51: what the constructors of BSpline and NURBS accept and build. *)
From Coq Require Import ZArith List Reals.
From Verif Require Import Base MultiIndex KnotVecSpec Spaces SpacesSpec SplineEval SplineSpec ConstructSpec ConstructThms.
Import ListNotations.
Open Scope Z_scope.

(* Accepted: clamped directions, as many control points as the directions require, all of one dimension and,
   for a NURBS, as many weights.  The control point with multi-index idx is the given point number
   position idx, the first direction running fastest. *)
Theorem C51_accepted : forall dz knots degs (cps : list (list R)) (wts : option (list R)) dim,
  Forall2 (fun kv p => 0 <= p /\ clamped kv p) knots degs ->
  cps <> [] -> Forall (fun cp => zlen cp = dim) cps -> zlen cps = total (sizes knots degs) -> zlen cps < 2 ^ 64 ->
  (forall w, wts = Some w -> zlen w = zlen cps) ->
  exists s : spline (Rops dz), spline_new (F := Rops dz) knots degs cps wts = Ok s /\
    knots_of s = knots /\ degs_of s = degs /\ npts_of s = sizes knots degs /\ ph_dim (sp_ph s) = dim /\
    (is_bspline s <-> wts = None) /\
    forall idx, In idx (all_indices (sizes knots degs)) ->
      (forall c, 0 <= c < dim ->
         coordinate s idx c = nth (Z.to_nat c) (nth (Z.to_nat (position (sizes knots degs) idx)) cps []) 0%R) /\
      weight s idx = match wts with None => 1%R | Some w => nth (Z.to_nat (position (sizes knots degs) idx)) w 0%R end.
Proof. exact construct_ok. Qed.
Print Assumptions C51_accepted.

Example C51_accepted_example : Forall2 (fun kv p => 0 <= p /\ clamped kv p) [[0; 0; 1; 1]%R; [0; 1; 2]%R] [1; 0] /\
  Forall (fun cp => zlen cp = 2) [[0; 0]; [1; 0]; [0; 1]; [1; 1]]%R /\
  zlen [[0; 0]; [1; 0]; [0; 1]; [1; 1]]%R = total (sizes [[0; 0; 1; 1]%R; [0; 1; 2]%R] [1; 0]) /\
  zlen [1; 2; 3; 4]%R = zlen [[0; 0]; [1; 0]; [0; 1]; [1; 1]]%R /\
  position (sizes [[0; 0; 1; 1]%R; [0; 1; 2]%R] [1; 0]) [0; 1] = 2.
Proof. exact cx_accepted. Qed.

(* Everything else throws runtime_error, except that an empty list of control points is accessed before it is
   checked. *)
Theorem C51_rejected : forall dz knots degs (cps : list (list R)) (wts : option (list R)),
  length knots = length degs -> Forall (fun kv => kv <> []) knots -> total (sizes knots degs) < 2 ^ 64 ->
  (~ Forall2 (fun kv p => 0 <= p /\ clamped kv p) knots degs -> spline_new (F := Rops dz) knots degs cps wts = Throw RuntimeError) /\
  (Forall2 (fun kv p => 0 <= p /\ clamped kv p) knots degs ->
     (cps = [] -> spline_new (F := Rops dz) knots degs cps wts = UB) /\
     (cps <> [] ->
      zlen cps <> total (sizes knots degs) \/ (forall dim, ~ Forall (fun cp => zlen cp = dim) cps) \/
      (exists w, wts = Some w /\ zlen w <> zlen cps) ->
      spline_new (F := Rops dz) knots degs cps wts = Throw RuntimeError)).
Proof. exact construct_bad. Qed.
Print Assumptions C51_rejected.

Example C51_rejected_example : length [[0; 0; 1; 1]%R; [0; 1; 2]%R] = length [1; 0] /\
  Forall (fun kv : list R => kv <> []) [[0; 0; 1; 1]%R; [0; 1; 2]%R] /\
  total (sizes [[0; 0; 1; 1]%R; [0; 1; 2]%R] [1; 0]) < 2 ^ 64 /\
  zlen [[0; 0]; [1; 0]; [0; 1]]%R <> total (sizes [[0; 0; 1; 1]%R; [0; 1; 2]%R] [1; 0]) /\
  (forall dim, ~ Forall (fun cp => zlen cp = dim) [[0; 0]; [1; 0]; [0; 1]; [1]]%R) /\
  ~ Forall2 (fun kv p => 0 <= p /\ clamped kv p) [[0; 0; 1; 1]%R; [0; 1; 2]%R] [1; 1].
Proof. exact cx_rejected. Qed.
