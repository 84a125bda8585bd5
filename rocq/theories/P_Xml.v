(* C44 for XML documents. *)
From Coq Require Import ZArith Ascii List Reals.
From Verif Require Import Base MultiIndex StrSpec Spaces SplineEval SplineSpec Convert FormatSpec IritThms Xml XmlThms.
Import ListNotations.
Open Scope Z_scope.

(* Any number of splines with one to four directions is written and read back: same objects, same
   structure, knots, weights and coordinates within the printing error. *)
Theorem C44_xml_round_trip : forall dz (fmt : R -> list ascii) (tol : R) (os : list (any (spline (Rops dz)))) (ss : list (spline (Rops dz))),
  Forall2 (fun o s => exists d, xml_ready fmt tol d o s) os ss ->
  exists doc os' ss', write_xml (F := Rops dz) fmt os = Ok doc /\ read_xml (F := Rops dz) doc = Ok os' /\
    Forall2 (fun o' s' => exists d, holds d o' s') os' ss' /\ Forall2 (plain_back fmt tol) ss ss'.
Proof. exact @xml_round. Qed.
Print Assumptions C44_xml_round_trip.

Example C44_xml_round_trip_example : forall dz,
  Forall2 (fun o s => exists d, xml_ready (dz := dz) fixed6 (1 / 2000000) d o s)
    [irit_ex_any None; irit_ex_any (Some (1/3)%R)] [irit_ex_line None; irit_ex_line (Some (1/3)%R)].
Proof. exact xml_ex_two. Qed.

(* Six decimals are such a way of printing for all numbers below 2^1024. *)
Theorem C44_xml_six_decimals : forall dz d (o : any (spline (Rops dz))) (s : spline (Rops dz)),
  holds d o s -> well_formed s -> 1 <= d <= 4 -> int_sized s ->
  Forall (Forall (fun x => Rabs x < IZR (2 ^ 1024))%R) (knots_of s) ->
  (forall w, ph_wts (sp_ph s) = Some w -> Forall (fun x => Rabs x < IZR (2 ^ 1024))%R w) ->
  (forall idx c, In idx (all_indices (npts_of s)) -> 0 <= c < ph_dim (sp_ph s) -> (Rabs (coordinate s idx c) < IZR (2 ^ 1024))%R) ->
  xml_ready fixed6 (1 / 2000000) d o s.
Proof. exact @xml_ready_fixed6. Qed.
Print Assumptions C44_xml_six_decimals.

Example C44_xml_six_decimals_example : forall dz, let s := irit_ex_line (dz := dz) (Some (1/3)%R) in
  holds 1 (irit_ex_any (Some (1/3)%R)) s /\ well_formed s /\ 1 <= 1 <= 4 /\ int_sized s /\
  Forall (Forall (fun x => Rabs x < IZR (2 ^ 1024))%R) (knots_of s) /\
  (forall w, ph_wts (sp_ph s) = Some w -> Forall (fun x => Rabs x < IZR (2 ^ 1024))%R w) /\
  (forall idx c, In idx (all_indices (npts_of s)) -> 0 <= c < ph_dim (sp_ph s) -> (Rabs (coordinate s idx c) < IZR (2 ^ 1024))%R).
Proof. exact xml_ex_third. Qed.
