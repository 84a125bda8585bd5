(* C62: XML documents of any origin. *)
From Coq Require Import ZArith Ascii String List Bool Reals.
From Verif Require Import Base StrSpec StrOps Format StrThms Spaces SplineEval SplineSpec Convert FormatSpec Xml XmlReadSpec XmlReadThms.
Import ListNotations.
Open Scope Z_scope.

(* Entries written in any layout, with any variables besides the coordinates: the splines with one to four directions are
   read as described, the others are left out. *)
Theorem C62_xml_document : forall dz (es : list xml_entry) (xs : list source),
  Forall2 (fun e x => writes_down e x /\ zlen (so_degs x) < 2 ^ 31 /\ exists first, describes x first) es xs ->
  exists os, read_xml (F := Rops dz) es = Ok os /\
    Forall2 (fun x o => exists first s, describes x first /\ holds (zlen (so_degs x)) o s /\ described x first s)
      (filter (fun x => (1 <=? zlen (so_degs x)) && (zlen (so_degs x) <=? 4)) xs) os.
Proof. exact xml_document_read. Qed.
Print Assumptions C62_xml_document.

Example C62_xml_document_example :
  Forall2 (fun e x => writes_down e x /\ zlen (so_degs x) < 2 ^ 31 /\ exists first, describes x first) [xml_ent; xml_ent] [xml_src; xml_src].
Proof. exact xml_source_example. Qed.
(* with the variables p, x, y, q the coordinates are the second and the third *)
Example C62_xml_document_point : forall dz (s : spline (Rops dz)), describes xml_src 1 /\ (described xml_src 1 s -> coordinate s [0] 1 = (-125 / 100)%R).
Proof. exact (fun dz s => conj xml_src_describes (xml_source_point dz s)). Qed.

(* Fewer values than announced: the values are accessed beyond their end. *)
Theorem C62_xml_short : forall dz (e : xml_entry) (ns : list numeral) (vars dim points : Z),
  text_of_numbers (xe_values e) ns -> Forall good_numeral ns -> split (xe_names e) " " = [s_ "x"] \/ ~ In (s_ "x") (split (xe_names e) " ") ->
  xe_vars e = int_str vars -> xe_space_dim e = int_str dim -> xe_points e = int_str points ->
  1 <= dim <= vars -> vars < 2 ^ 31 -> 0 <= points < 2 ^ 31 -> zlen ns < (points - 1) * vars + dim -> 1 <= points ->
  read_xml (F := Rops dz) [e] = UB.
Proof. exact xml_short. Qed.
Print Assumptions C62_xml_short.

Example C62_xml_short_example : text_of_numbers (xe_values xml_short_ent) [dig 4; dig 5] /\ Forall good_numeral [dig 4; dig 5] /\
  split (xe_names xml_short_ent) " " = [s_ "x"] /\ xe_vars xml_short_ent = int_str 1 /\ xe_space_dim xml_short_ent = int_str 1 /\ xe_points xml_short_ent = int_str 3 /\
  zlen [dig 4; dig 5] < (3 - 1) * 1 + 1.
Proof. exact xml_short_example. Qed.
