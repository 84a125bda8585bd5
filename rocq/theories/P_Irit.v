(* C44 for IRIT files. *)
From Coq Require Import ZArith Ascii List Reals.
From Verif Require Import Base MultiIndex StrSpec Spaces SplineEval SplineSpec Convert FormatSpec Irit IritThms.
Import ListNotations.
Open Scope Z_scope.

(* Any number of splines with one to three directions is written and read back: same objects, same
   structure, knots and weights within the printing error, points within the error that division by the
   printed weight leaves.  fmt is any way of printing numbers with an error of at most tol. *)
Theorem C44_irit_round_trip : forall dz (fmt : R -> list ascii) (tol : R) (os : list (any (spline (Rops dz)))) (ss : list (spline (Rops dz))),
  Forall2 (fun o s => exists d, irit_ready fmt tol d o s) os ss -> zlen os < 2 ^ 31 - 1 ->
  exists text os' ss', write_irit (F := Rops dz) fmt os = Ok text /\ read_irit (F := Rops dz) toward_zero text = Ok os' /\
    Forall2 (fun o' s' => exists d, holds d o' s') os' ss' /\ Forall2 (irit_back fmt tol) ss ss'.
Proof. exact @irit_round. Qed.
Print Assumptions C44_irit_round_trip.

Example C44_irit_round_trip_example : forall dz,
  Forall2 (fun o s => exists d, irit_ready (dz := dz) fixed6 (1 / 2000000) d o s)
    [irit_ex_any None; irit_ex_any (Some (1/3)%R)] [irit_ex_line None; irit_ex_line (Some (1/3)%R)] /\
  (irit_error (dz := dz) (1 / 2000000) (irit_ex_line (Some (1/3)%R)) [1%Z] 1%Z <= 5 / 1000000)%R.
Proof. intros dz. split; [exact (irit_ex_two dz) | exact (irit_ex_error dz)]. Qed.

(* Six decimals are such a way of printing, with an error of 1/2000000, for all numbers below 2^1024. *)
Theorem C44_irit_six_decimals : forall dz d (o : any (spline (Rops dz))) (s : spline (Rops dz)),
  holds d o s -> well_formed s -> 1 <= d <= 3 -> int_sized s ->
  Forall (Forall (fun x => Rabs x < IZR (2 ^ 1024))%R) (knots_of s) ->
  (forall w, ph_wts (sp_ph s) = Some w -> Forall (fun x => Rabs x < IZR (2 ^ 1024))%R w) ->
  (forall idx c, In idx (all_indices (npts_of s)) -> 0 <= c < ph_dim (sp_ph s) -> (Rabs (coordinate s idx c * weight s idx) < IZR (2 ^ 1024))%R) ->
  irit_ready fixed6 (1 / 2000000) d o s.
Proof. exact @irit_ready_fixed6. Qed.
Print Assumptions C44_irit_six_decimals.

Example C44_irit_six_decimals_example : forall dz, let s := irit_ex_line (dz := dz) (Some (1/3)%R) in
  holds 1 (irit_ex_any (Some (1/3)%R)) s /\ well_formed s /\ 1 <= 1 <= 3 /\ int_sized s /\
  Forall (Forall (fun x => Rabs x < IZR (2 ^ 1024))%R) (knots_of s) /\
  (forall w, ph_wts (sp_ph s) = Some w -> Forall (fun x => Rabs x < IZR (2 ^ 1024))%R w) /\
  (forall idx c, In idx (all_indices (npts_of s)) -> 0 <= c < ph_dim (sp_ph s) -> (Rabs (coordinate s idx c * weight s idx) < IZR (2 ^ 1024))%R).
Proof. exact irit_ex_third. Qed.

(* A weight below 1/2000000 is read back as 0, and the control point is divided by it. *)
Theorem C44_irit_tiny_weight_refuted : forall dz, exists (s : spline (Rops dz)) o, irit_ready fixed6 (1 / 2000000) 1 o s /\ positive_weights s /\
  exists text s', write_irit (F := Rops dz) fixed6 [o] = Ok text /\ read_irit (F := Rops dz) toward_zero text = Ok [AnyN 1 s'] /\ weight s' [1%Z] = 0%R.
Proof. exact irit_ex_tiny. Qed.
Print Assumptions C44_irit_tiny_weight_refuted.
