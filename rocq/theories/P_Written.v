(* C72: what the writers write. *)
From Coq Require Import ZArith Ascii String List Reals.
From Verif Require Import Base MultiIndex StrSpec StrOps Spaces SplineEval SplineSpec Convert FormatSpec XmlReadSpec IgesReadSpec IritDocSpec IritThms Irit Xml XmlThms Iges IgesThms
  IgesLayoutSpec IgesLayoutThms WrittenSpec WrittenThms.
Import ListNotations.
Open Scope Z_scope.

(* An IGES file consists of the sections S, G, D, P and T with lines of 80 columns that end with the letter of
   the section and the number of the line.  The directory has two lines for every spline; they give the type,
   where its parameter data begin and how many lines they have, and these lines point back to the entry.  The
   parameter data are the numbers of the spline in the order of entity 126 or 128.  The last line counts the
   lines of the sections. *)
Theorem C72_iges_layout : forall dz fmt tol name time1 time2 (os : list (any (spline (Rops dz)))) (ss : list (spline (Rops dz))),
  short_text fmt -> header_text name -> header_text time1 -> header_text time2 ->
  Forall2 (fun o s => exists d, iges_ready fmt tol d o s) os ss -> fold_right Z.add 0 (map iges_numbers ss) < 2000000 ->
  exists text st gl di pa te, write_iges (F := Rops dz) fmt name time1 time2 os = Ok text /\ text_of_lines text (st ++ gl ++ di ++ pa ++ te) /\
    iges_layout fmt name time1 time2 ss st gl di pa te.
Proof. exact @iges_layout_ok. Qed.
Print Assumptions C72_iges_layout.

Example C72_iges_layout_example : forall dz, short_text short6 /\ (header_text (of_string "line.iges") /\ header_text (of_string "20260101.000000")) /\
  Forall2 (fun o s => exists d, iges_ready (dz := dz) short6 (1 / 2000000) d o s) [irit_ex_any None; AnyB 2 iges_ex_surface] [irit_ex_line None; iges_ex_surface] /\
  Exists (fun s => zlen (degs_of s) = 2) [irit_ex_line (dz := dz) None; iges_ex_surface] /\
  fold_right Z.add 0 (map iges_numbers [irit_ex_line (dz := dz) None; iges_ex_surface]) = 56.
Proof. exact (fun dz => conj short6_short (conj iges_ex_header (iges_ex_surfaces dz))). Qed.

(* The dates in the header are never dates: the text that is written as a Hollerith constant is one already. *)
Theorem C72_iges_date_refuted : forall year mon mday hour min sec date, Forall date_char date ->
  hollerith_constant (iges_time year mon mday hour min sec) <> hollerith_constant date.
Proof. exact date_twice. Qed.
Print Assumptions C72_iges_date_refuted.

Example C72_iges_date_example : iges_time 126 10 16 9 30 0 = of_string "14H20261116.93000" /\
  hollerith_constant (iges_time 126 10 16 9 30 0) = of_string "17H14H20261116.93000" /\ Forall date_char (of_string "20261116.093000").
Proof. exact date_example. Qed.

(* The maximum coordinate in the header does not bound the coordinates. *)
Theorem C72_iges_extent_refuted : forall dz, exists (s : spline (Rops dz)) idx c h,
  well_formed s /\ holds 1 (AnyB 1 s) s /\ In idx (all_indices (npts_of s)) /\ 0 <= c < ph_dim (sp_ph s) /\
  iges_highest (F := Rops dz) [AnyB 1 s] = Ok h /\ (h < Rabs (coordinate s idx c))%R.
Proof. exact extent_small. Qed.
Print Assumptions C72_iges_extent_refuted.

(* An XML file writes down every spline: all its numbers are in it, at the places where a reader of such
   documents (C62) looks for them. *)
Theorem C72_xml_document : forall dz fmt tol (os : list (any (spline (Rops dz)))) (ss : list (spline (Rops dz))),
  Forall2 (fun o s => exists d, xml_ready fmt tol d o s) os ss -> Forall (fun s => ph_dim (sp_ph s) <= 4) ss ->
  exists doc, write_xml (F := Rops dz) fmt os = Ok doc /\
    Forall2 (fun s e => exists x, writes_down e x /\ written_as tol s (coordinate s) x /\ so_names x = variable_names (ph_dim (sp_ph s))) ss doc.
Proof. exact xml_written_ok. Qed.
Print Assumptions C72_xml_document.

Example C72_xml_document_example : forall dz,
  Forall2 (fun o s => exists d, xml_ready (dz := dz) fixed6 (1 / 2000000) d o s) [irit_ex_any None; irit_ex_any (Some (1/3)%R)] [irit_ex_line None; irit_ex_line (Some (1/3)%R)] /\
  Forall (fun s => ph_dim (sp_ph s) <= 4) [irit_ex_line (dz := dz) None; irit_ex_line (Some (1/3)%R)].
Proof. exact (fun dz => conj (xml_ex_two dz) (ex_two_dim dz)). Qed.

(* With more than four coordinates the variables have no names, although the document says that there are some. *)
Theorem C72_xml_names_refuted : forall dz fmt tol d (o : any (spline (Rops dz))) (s : spline (Rops dz)),
  xml_ready fmt tol d o s -> 4 < ph_dim (sp_ph s) ->
  exists e, write_xml (F := Rops dz) fmt [o] = Ok [e] /\ forall x, ~ writes_down e x.
Proof. exact xml_unnamed. Qed.
Print Assumptions C72_xml_names_refuted.

Example C72_xml_names_example : forall dz, xml_ready (dz := dz) fixed6 (1 / 2000000) 1 (AnyB 1 ex_five) ex_five /\ 4 < ph_dim (sp_ph (ex_five (dz := dz))).
Proof. exact ex_five_ready. Qed.

(* The words of an IRIT file are those of numbered objects, which write down the splines with their control
   points in homogeneous coordinates. *)
Theorem C72_irit_document : forall dz fmt tol (os : list (any (spline (Rops dz)))) (ss : list (spline (Rops dz))),
  Forall2 (fun o s => exists d, irit_ready fmt tol d o s) os ss -> zlen os < 2 ^ 31 - 1 -> ss <> [] ->
  exists text objects, write_irit (F := Rops dz) fmt os = Ok text /\
    words_of_file text ([of_string "[OBJECT"; of_string "SPLINES"] ++ numbered_objects 0 objects) /\
    Forall2 (fun s ws => exists x, object_words x ws /\ written_as tol s (weighted s) x) ss objects.
Proof. exact irit_written_ok. Qed.
Print Assumptions C72_irit_document.

Example C72_irit_document_example : forall dz,
  Forall2 (fun o s => exists d, irit_ready (dz := dz) fixed6 (1 / 2000000) d o s) [irit_ex_any None; irit_ex_any (Some (1/3)%R)] [irit_ex_line None; irit_ex_line (Some (1/3)%R)].
Proof. exact irit_ex_two. Qed.
