(* C68: conversion of a file, from the file that is read to the file that is written. *)
From Coq Require Import ZArith Ascii String List Reals.
From Verif Require Import Base StrSpec StrOps Format FormatSpec Spaces SplineEval SplineSpec Irit Iges IgesThms Xml Vtk VtkSpec Convert ConvertSpec ConvertFile ConvertFileSpec ConvertFileThms ConvertFileExamples.
Import ListNotations.
Open Scope Z_scope.

(* A new converter writes those of the requested splines of the input file that the output format can hold, in the order
   requested, and returns their positions.  Read back, they are the splines of the input file up to the printing error. *)
Theorem C68_to_xml : forall dz text tree (irit_fmt iges_fmt xml_fmt : R -> str) time1 time2 tol input name positions scattering (splines : list (any (spline (Rops dz)))) ss,
  has_extension FXml name -> contains text tree input splines ->
  Forall2 (fun o s => is_spline o /\ forall d, spline_dim o d -> ConvertSpec.holds FXml d -> xml_ready xml_fmt tol d o s) splines ss ->
  exists written doc os' ss',
    kept (writable FXml splines) (requested splines positions) written /\
    convert_file (F := Rops dz) toward_zero text tree irit_fmt iges_fmt xml_fmt time1 time2 [] input name positions scattering = (written, Ok (written, OTree doc)) /\
    read_xml (F := Rops dz) doc = Ok os' /\ Forall2 (fun o' s' => exists d, FormatSpec.holds d o' s') os' ss' /\
    Forall2 (fun p s' => exists s, entry_at ss p s /\ plain_back xml_fmt tol s s') written ss'.
Proof. exact @file_to_xml. Qed.
Print Assumptions C68_to_xml.

Theorem C68_to_irit : forall dz text tree (irit_fmt iges_fmt xml_fmt : R -> str) time1 time2 tol input name positions scattering (splines : list (any (spline (Rops dz)))) ss,
  has_extension FIrit name -> contains text tree input splines -> zlen (requested splines positions) < 2 ^ 31 - 1 ->
  Forall2 (fun o s => is_spline o /\ forall d, spline_dim o d -> ConvertSpec.holds FIrit d -> irit_ready irit_fmt tol d o s) splines ss ->
  exists written t os' ss',
    kept (writable FIrit splines) (requested splines positions) written /\
    convert_file (F := Rops dz) toward_zero text tree irit_fmt iges_fmt xml_fmt time1 time2 [] input name positions scattering = (written, Ok (written, OText t)) /\
    read_irit (F := Rops dz) toward_zero t = Ok os' /\ Forall2 (fun o' s' => exists d, FormatSpec.holds d o' s') os' ss' /\
    Forall2 (fun p s' => exists s, entry_at ss p s /\ irit_back irit_fmt tol s s') written ss'.
Proof. exact @file_to_irit. Qed.
Print Assumptions C68_to_irit.

(* curves *)
Theorem C68_to_iges : forall dz text tree (irit_fmt iges_fmt xml_fmt : R -> str) time1 time2 tol most input name positions scattering (splines : list (any (spline (Rops dz)))) ss,
  has_extension FIges name -> contains text tree input splines -> short_text iges_fmt -> header_text name -> header_text time1 -> header_text time2 ->
  Forall2 (fun o s => is_spline o /\ forall d, spline_dim o d -> ConvertSpec.holds FIges d -> iges_ready iges_fmt tol 1 o s /\ iges_numbers s <= most) splines ss ->
  0 <= most -> zlen (requested splines positions) * most < 2000000 ->
  exists written t os' ss',
    kept (writable FIges splines) (requested splines positions) written /\
    convert_file (F := Rops dz) toward_zero text tree irit_fmt iges_fmt xml_fmt time1 time2 [] input name positions scattering = (written, Ok (written, OText t)) /\
    read_iges (F := Rops dz) toward_zero t = Ok os' /\ Forall2 (FormatSpec.holds 1) os' ss' /\
    Forall2 (fun p s' => exists s, entry_at ss p s /\ iges_back iges_fmt tol s s') written ss'.
Proof. exact @file_to_iges. Qed.
Print Assumptions C68_to_iges.

(* the VTK file has the sample points and the cells of the splines written, each with the scattering given for it *)
Theorem C68_to_vtk : forall dz text tree (irit_fmt iges_fmt xml_fmt : R -> str) time1 time2 input name positions scattering (splines : list (any (spline (Rops dz)))),
  has_extension FVtk name -> contains text tree input splines -> Forall is_spline splines ->
  (List.length (requested splines positions) <= List.length scattering)%nat ->
  (forall p row, In (p, row) (combine (requested splines positions) scattering) -> writable FVtk splines p ->
     exists j, good_job (dz := dz) j /\ entry_at splines p (object j) /\ divisions j = row) ->
  exists written jobs v,
    kept (writable FVtk splines) (requested splines positions) written /\
    kept (fun x => writable FVtk splines (fst x)) (combine (requested splines positions) scattering) (combine written (map divisions jobs)) /\
    Forall good_job jobs /\ Forall2 (fun p j => entry_at splines p (object j)) written jobs /\
    convert_file (F := Rops dz) toward_zero text tree irit_fmt iges_fmt xml_fmt time1 time2 [] input name positions scattering = (written, Ok (written, OVtk v)) /\
    vf_rows v = flat_map rows_of jobs /\ vf_cells v = all_cells 0 (map divisions jobs).
Proof. exact @file_to_vtk. Qed.
Print Assumptions C68_to_vtk.

(* an XML document with two curves *)
Example C68_example : forall dz, exists (splines : list (any (spline (Rops dz)))) ss, contains conv_text conv_tree conv_input splines /\ List.length splines = 2%nat /\ Forall is_spline splines /\
  Forall2 (fun o s => is_spline o /\ forall d, spline_dim o d -> ConvertSpec.holds FXml d -> xml_ready fixed6 (1 / 2000000) d o s) splines ss /\
  Forall2 (fun o s => is_spline o /\ forall d, spline_dim o d -> ConvertSpec.holds FIrit d -> irit_ready fixed6 (1 / 2000000) d o s) splines ss /\
  Forall2 (fun o s => is_spline o /\ forall d, spline_dim o d -> ConvertSpec.holds FIges d -> iges_ready short6 (1 / 2000000) 1 o s /\ iges_numbers s <= 22) splines ss /\
  (forall p row, In (p, row) (combine (requested splines [1; 0]) [[3]; [3]]) -> exists j, good_job (dz := dz) j /\ entry_at splines p (object j) /\ divisions j = row).
Proof. exact @conv_example. Qed.
Example C68_example_names : has_extension FXml conv_input /\ has_extension FXml (of_string "out.xml") /\ has_extension FIrit (of_string "out.itd") /\
  has_extension FVtk (of_string "out.vtk") /\ has_extension FIges (of_string "out.iges").
Proof. exact conv_names. Qed.

(* Failures leave the reported positions as they are. *)
Theorem C68_unreadable : forall dz text tree (irit_fmt iges_fmt xml_fmt : R -> str) time1 time2 written input name positions scattering,
  long_name input -> ~ has_extension FIges input -> ~ has_extension FIrit input -> ~ has_extension FXml input ->
  convert_file (F := Rops dz) toward_zero text tree irit_fmt iges_fmt xml_fmt time1 time2 written input name positions scattering = (written, Throw RuntimeError).
Proof. exact @unreadable. Qed.
Print Assumptions C68_unreadable.
Theorem C68_missing : forall dz text tree (irit_fmt iges_fmt xml_fmt : R -> str) time1 time2 written input name positions scattering,
  text input = None -> tree input = None ->
  convert_file (F := Rops dz) toward_zero text tree irit_fmt iges_fmt xml_fmt time1 time2 written input name positions scattering = (written, Throw RuntimeError).
Proof. exact @missing. Qed.
Print Assumptions C68_missing.
Theorem C68_unwritable : forall dz text tree (irit_fmt iges_fmt xml_fmt : R -> str) time1 time2 written input name positions scattering (splines : list (any (spline (Rops dz)))),
  long_name name -> (forall f, ~ has_extension f name) -> contains text tree input splines ->
  convert_file (F := Rops dz) toward_zero text tree irit_fmt iges_fmt xml_fmt time1 time2 written input name positions scattering = (written, Throw RuntimeError).
Proof. exact @unwritable. Qed.
Print Assumptions C68_unwritable.

Example C68_example_no_names : long_name (of_string "model.stl") /\ forall f, ~ has_extension f (of_string "model.stl").
Proof. exact conv_no_names. Qed.
