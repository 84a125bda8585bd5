(* C69: IGES files of any origin. *)
From Coq Require Import ZArith Ascii String List Reals.
From Verif Require Import Base StrSpec StrOps Spaces SplineEval SplineSpec Convert FormatSpec XmlReadSpec Iges IgesReadSpec IgesReadThms.
Import ListNotations.
Open Scope Z_scope.

(* The curves (126) and surfaces (128) of a file are read in the order of the directory, with the degrees,
   knots, weights and control points written down; entities of other types are left out. *)
Theorem C69_iges_document : forall dz text ls es xs,
  text_of_lines text ls -> Forall (fun l => 72 <= zlen l) ls -> zlen text < 2 ^ 63 ->
  lines_in "D" ls = directory es -> Forall2 (says (lines_in "P" ls)) es xs ->
  exists os, read_iges (F := Rops dz) toward_zero text = Ok os /\
    Forall2 (fun x o => exists s, holds (zlen (so_degs x)) o s /\ described x 0 s) (sources xs) os.
Proof. exact iges_document_read. Qed.
Print Assumptions C69_iges_document.

Example C69_iges_document_example :
  (text_of_lines ex_iges_text ex_iges_lines /\ Forall (fun l => 72 <= zlen l) ex_iges_lines /\ zlen ex_iges_text < 2 ^ 63 /\
   lines_in "D" ex_iges_lines = directory [ex_line_entity; ex_curve_entity; ex_patch_entity] /\ lines_in "P" ex_iges_lines = ex_par) /\
  Forall2 (says (lines_in "P" ex_iges_lines)) [ex_line_entity; ex_curve_entity; ex_patch_entity] [None; Some ex_curve_source; Some ex_patch_source].
Proof. exact (conj ex_iges_shape ex_iges_says). Qed.
(* what that means for one coordinate of the surface *)
Example C69_iges_point_example : forall dz (s : spline (Rops dz)), described ex_patch_source 0 s -> coordinate s [1; 1] 2 = 4%R /\ ph_wts (sp_ph s) = None.
Proof. exact ex_patch_point. Qed.

(* An entity with fewer numbers than its header asks for makes the reader access numbers past the end; for
   surfaces this includes two numbers behind the control points. *)
Theorem C69_iges_short : forall dz text ls es e more xs,
  text_of_lines text ls -> Forall (fun l => 72 <= zlen l) ls -> zlen text < 2 ^ 63 ->
  lines_in "D" ls = directory (es ++ e :: more) -> Forall2 (says (lines_in "P" ls)) es xs -> says_too_little (lines_in "P" ls) e ->
  read_iges (F := Rops dz) toward_zero text = UB.
Proof. exact iges_document_short. Qed.
Print Assumptions C69_iges_short.

Example C69_iges_short_example :
  (text_of_lines ex_bare_text ex_bare_lines /\ Forall (fun l => 72 <= zlen l) ex_bare_lines /\ zlen ex_bare_text < 2 ^ 63 /\
   lines_in "D" ex_bare_lines = directory ([] ++ [ex_bare_entity]) /\ lines_in "P" ex_bare_lines = ex_bare_par) /\
  says_too_little (lines_in "P" ex_bare_lines) ex_bare_entity.
Proof. exact (conj ex_bare_shape ex_bare_says). Qed.

(* A line of less than 72 characters, such as an empty line at the end, makes the reader access a character
   past the end of the line. *)
Theorem C69_iges_short_line : forall dz text ls, text_of_lines text ls -> Exists (fun l => zlen l < 72) ls -> read_iges (F := Rops dz) toward_zero text = UB.
Proof. exact IgesReadFacts.short_line. Qed.
Print Assumptions C69_iges_short_line.

Example C69_iges_short_line_example : text_of_lines (ex_iges_text ++ [newline]) (ex_iges_lines ++ [[]]) /\ Exists (fun l => zlen l < 72) (ex_iges_lines ++ [[]]).
Proof. exact ex_empty_line. Qed.
