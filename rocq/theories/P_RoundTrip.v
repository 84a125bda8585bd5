(* C44: the map of a spline that was written to a file and read again, C16: moving control points. *)
From Coq Require Import ZArith Ascii List Reals.
From Verif Require Import Base Spaces SplineEval SplineSpec EditSpec StrSpec Format FormatSpec Convert Irit IritThms Iges IgesThms Xml XmlThms NearMap NearThms.
Import ListNotations.
Open Scope Z_scope.

(* Moving every control point by at most e in a coordinate moves every point of the spline by at most e in it. *)
Theorem C16_stability : forall dz (s s' : spline (Rops dz)) us c e, well_formed s -> well_formed s' -> regular s -> knots_of s' = knots_of s -> degs_of s' = degs_of s ->
  ph_wts (sp_ph s') = ph_wts (sp_ph s) -> in_domain s us -> 0 <= c < ph_dim (sp_ph s) -> c < ph_dim (sp_ph s') ->
  (forall idx, In idx (all_indices (npts_of s)) -> (Rabs (coordinate s' idx c - coordinate s idx c) <= e)%R) ->
  exists a b, evaluate s us [c] = Ok [a] /\ evaluate s' us [c] = Ok [b] /\ (Rabs (b - a) <= e)%R.
Proof. exact @stability. Qed.
Print Assumptions C16_stability.

Example C16_stability_example : forall dz, let s := irit_ex_line (dz := dz) None in
  exists s' : spline (Rops dz), well_formed s /\ well_formed s' /\ regular s /\ knots_of s' = knots_of s /\ degs_of s' = degs_of s /\ ph_wts (sp_ph s') = ph_wts (sp_ph s) /\
    in_domain s [1/2]%R /\ coordinate s' [0] 0 <> coordinate s [0] 0 /\
    forall idx, In idx (all_indices (npts_of s)) -> (Rabs (coordinate s' idx 0 - coordinate s idx 0) <= 1/6)%R.
Proof. exact stability_ex. Qed.

(* If knots and weights are printed exactly, the spline read back has the same degrees, knots and weights, and its points
   differ from those of the spline that was written by at most the printing error; for IRIT by the printing error divided by
   the smallest weight; for IGES in the coordinates both have. *)
Theorem C44_xml_same_map : forall dz (fmt : R -> list ascii) (tol : R) (os : list (any (spline (Rops dz)))) (ss : list (spline (Rops dz))),
  Forall2 (fun o s => exists d, xml_ready fmt tol d o s) os ss -> Forall (fun s => regular s /\ exact_parts fmt s) ss ->
  exists doc os' ss', write_xml (F := Rops dz) fmt os = Ok doc /\ read_xml (F := Rops dz) doc = Ok os' /\
    Forall2 (fun o' s' => exists d, holds d o' s') os' ss' /\ Forall2 (fun s s' => ph_dim (sp_ph s') = ph_dim (sp_ph s) /\ near_map tol s s') ss ss'.
Proof. exact @xml_maps. Qed.
Print Assumptions C44_xml_same_map.

Theorem C44_irit_same_map : forall dz (fmt : R -> list ascii) (tol e : R) (os : list (any (spline (Rops dz)))) (ss : list (spline (Rops dz))),
  Forall2 (fun o s => exists d, irit_ready fmt tol d o s) os ss -> zlen os < 2 ^ 31 - 1 ->
  Forall (fun s => regular s /\ exact_parts fmt s /\ forall idx, In idx (all_indices (npts_of s)) -> (tol <= e * weight s idx)%R) ss ->
  exists text os' ss', write_irit (F := Rops dz) fmt os = Ok text /\ read_irit (F := Rops dz) toward_zero text = Ok os' /\
    Forall2 (fun o' s' => exists d, holds d o' s') os' ss' /\ Forall2 (fun s s' => ph_dim (sp_ph s') = ph_dim (sp_ph s) /\ near_map e s s') ss ss'.
Proof. exact @irit_maps. Qed.
Print Assumptions C44_irit_same_map.

Example C44_same_map_example : forall dz, let os := [irit_ex_any (dz := dz) None; irit_ex_any (Some (1/2)%R)] in let ss := [irit_ex_line (dz := dz) None; irit_ex_line (Some (1/2)%R)] in
  Forall2 (fun o s => exists d, xml_ready fixed6 (1 / 2000000) d o s) os ss /\ Forall2 (fun o s => exists d, irit_ready fixed6 (1 / 2000000) d o s) os ss /\
  Forall (fun s => regular s /\ exact_parts fixed6 s /\ forall idx, In idx (all_indices (npts_of s)) -> (1 / 2000000 <= 1 / 1000000 * weight s idx)%R) ss.
Proof. exact near_ex. Qed.

Theorem C44_iges_same_map : forall dz fmt tol filename time1 time2 (os : list (any (spline (Rops dz)))) (ss : list (spline (Rops dz))),
  short_text fmt -> header_text filename -> header_text time1 -> header_text time2 ->
  Forall2 (iges_ready fmt tol 1) os ss -> fold_right Z.add 0 (map iges_numbers ss) < 2000000 -> Forall (fun s => regular s /\ exact_parts fmt s) ss ->
  exists text os' ss', write_iges (F := Rops dz) fmt filename time1 time2 os = Ok text /\ read_iges (F := Rops dz) toward_zero text = Ok os' /\
    Forall2 (holds 1) os' ss' /\ Forall2 (fun s s' => ph_dim (sp_ph s') = 3 /\ near_map tol s s') ss ss'.
Proof. exact @iges_maps. Qed.
Print Assumptions C44_iges_same_map.

Example C44_iges_same_map_example : forall dz w, w = None \/ w = Some (1/2)%R -> regular (irit_ex_line (dz := dz) w) /\ exact_parts short6 (irit_ex_line (dz := dz) w).
Proof. exact near_short6. Qed.

(* Numbers with at most six decimals are printed exactly with six decimals. *)
Theorem C44_six_decimals_exact : forall n : Z, (Rabs (IZR n / 1000000) < IZR (2 ^ 1024))%R -> prints fixed6 0 (IZR n / 1000000)%R.
Proof. exact fixed6_exact. Qed.
Print Assumptions C44_six_decimals_exact.
