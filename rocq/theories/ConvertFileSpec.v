(* Vocabulary for statements about the conversion of files. *)
From Coq Require Import ZArith Ascii String List Reals.
From Verif Require Import Base StrSpec StrOps FormatSpec Spaces SplineEval Convert ConvertSpec Irit Iges Xml.
Import ListNotations.
Open Scope Z_scope.

(* names long enough to be told by their extensions *)
Definition long_name (n : str) : Prop := 5 <= zlen n < 2 ^ 63.
Definition has_extension (f : format) (n : str) : Prop := long_name n /\ f <> FError /\ only_at_end (extension f) n.

Section Spec.
Context {dz : R -> R}.
Notation F := (Rops dz).
(* the contents of the files, and what pugixml makes of them *)
Variable text : str -> option str.
Variable tree : str -> option (list xml_entry).

(* the file n has a format that can be read and contains these objects *)
Inductive contains : str -> list (any (spline F)) -> Prop :=
| contains_iges n t os : has_extension FIges n -> text n = Some t -> read_iges (F := F) toward_zero t = Ok os -> contains n os
| contains_irit n t os : has_extension FIrit n -> text n = Some t -> read_irit (F := F) toward_zero t = Ok os -> contains n os
| contains_xml n d os : has_extension FXml n -> tree n = Some d -> read_xml (F := F) d = Ok os -> contains n os.
End Spec.
