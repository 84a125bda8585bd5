(* C44 for IGES files. *)
From Coq Require Import ZArith Ascii String List Reals.
From Verif Require Import Base MultiIndex StrSpec StrOps Spaces SplineEval SplineSpec Convert FormatSpec IritThms Iges IgesThms.
Import ListNotations.
Open Scope Z_scope.

(* Any number of one-dimensional splines is written and read back: same objects, degrees, numbers of
   knots and control points, all numbers within the printing error.  Points come back with three
   coordinates. *)
Theorem C44_iges_round_trip : forall dz fmt tol filename time1 time2 (os : list (any (spline (Rops dz)))) (ss : list (spline (Rops dz))),
  short_text fmt -> header_text filename -> header_text time1 -> header_text time2 ->
  Forall2 (iges_ready fmt tol 1) os ss -> fold_right Z.add 0 (map iges_numbers ss) < 2000000 ->
  exists text os' ss', write_iges (F := Rops dz) fmt filename time1 time2 os = Ok text /\ read_iges (F := Rops dz) toward_zero text = Ok os' /\
    Forall2 (holds 1) os' ss' /\ Forall2 (iges_back fmt tol) ss ss'.
Proof. exact @iges_round. Qed.
Print Assumptions C44_iges_round_trip.

Example C44_iges_round_trip_example : forall dz,
  Forall2 (iges_ready (dz := dz) short6 (1 / 2000000) 1) [irit_ex_any None; irit_ex_any (Some (1/3)%R)] [irit_ex_line None; irit_ex_line (Some (1/3)%R)] /\
  fold_right Z.add 0 (map iges_numbers [irit_ex_line (dz := dz) None; irit_ex_line (Some (1/3)%R)]) = 44.
Proof. exact iges_ex_two. Qed.
Example C44_iges_texts_example : short_text short6 /\ header_text (of_string "line.iges") /\ header_text (of_string "20260101.000000").
Proof. exact (conj short6_short iges_ex_header). Qed.

(* As soon as one of the splines is a surface the written file makes the reader access numbers past the
   end of the parameter data. *)
Theorem C44_iges_surface_refuted : forall dz fmt tol filename time1 time2 (os : list (any (spline (Rops dz)))) (ss : list (spline (Rops dz))),
  short_text fmt -> header_text filename -> header_text time1 -> header_text time2 ->
  Forall2 (fun o s => exists d, iges_ready fmt tol d o s) os ss -> fold_right Z.add 0 (map iges_numbers ss) < 2000000 ->
  Exists (fun s => zlen (degs_of s) = 2) ss ->
  exists text, write_iges (F := Rops dz) fmt filename time1 time2 os = Ok text /\ read_iges (F := Rops dz) toward_zero text = UB.
Proof. exact @iges_surface. Qed.
Print Assumptions C44_iges_surface_refuted.

Example C44_iges_surface_example : forall dz,
  Forall2 (fun o s => exists d, iges_ready (dz := dz) short6 (1 / 2000000) d o s) [irit_ex_any None; AnyB 2 iges_ex_surface] [irit_ex_line None; iges_ex_surface] /\
  Exists (fun s => zlen (degs_of s) = 2) [irit_ex_line (dz := dz) None; iges_ex_surface] /\
  fold_right Z.add 0 (map iges_numbers [irit_ex_line (dz := dz) None; iges_ex_surface]) = 56.
Proof. exact iges_ex_surfaces. Qed.

(* Splines with more than two directions are refused. *)
Theorem C44_iges_unsupported : forall dz fmt filename time1 time2 (os : list (any (spline (Rops dz)))) (ss : list (spline (Rops dz))),
  Forall2 (fun o s => exists d, 1 <= d /\ holds d o s) os ss -> Exists (fun s => 3 <= zlen (degs_of s)) ss ->
  write_iges (F := Rops dz) fmt filename time1 time2 os = Throw RuntimeError.
Proof. exact @iges_volume. Qed.
Print Assumptions C44_iges_unsupported.

Example C44_iges_unsupported_example : forall dz,
  Forall2 (fun o s => exists d, 1 <= d /\ holds d o s) [irit_ex_any None; AnyB 3 iges_ex_solid] [irit_ex_line (dz := dz) None; iges_ex_solid] /\
  Exists (fun s => 3 <= zlen (degs_of s)) [irit_ex_line (dz := dz) None; iges_ex_solid].
Proof. exact iges_ex_solids. Qed.

(* An ostream with precision 18 prints ten to the 18th as 1e+18.  The coordinate that comes back is ten
   thousand times as large. *)
Theorem C44_iges_exponent_refuted : forall dz fmt tol filename time1 time2,
  short_text fmt -> fmt (10 ^ 18)%R = of_string "1e+18" -> prints fmt tol 0%R -> prints fmt tol 1%R ->
  header_text filename -> header_text time1 -> header_text time2 ->
  exists (s s' : spline (Rops dz)) text, well_formed s /\ holds 1 (AnyB 1 s) s /\ coordinate s [1] 0 = (10 ^ 18)%R /\
    write_iges (F := Rops dz) fmt filename time1 time2 [AnyB 1 s] = Ok text /\
    read_iges (F := Rops dz) toward_zero text = Ok [AnyB 1 s'] /\ coordinate s' [1] 0 = (10 ^ 22)%R.
Proof. exact iges_exponent. Qed.
Print Assumptions C44_iges_exponent_refuted.

Example C44_iges_exponent_example : short_text short6e /\ short6e (10 ^ 18)%R = of_string "1e+18" /\
  prints short6e (1 / 2000000) 0%R /\ prints short6e (1 / 2000000) 1%R.
Proof. exact iges_ex_exponent. Qed.
