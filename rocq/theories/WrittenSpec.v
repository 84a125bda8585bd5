(* Vocabulary for what the XML and IRIT writers write: documents that write down every number of the splines. *)
From Coq Require Import ZArith Ascii String List Bool Reals.
From Verif Require Import Base MultiIndex StrSpec StrOps Format FormatSpec Spaces SpacesSpec SplineEval SplineSpec VtkSpec XmlReadSpec.
Import ListNotations.
Open Scope Z_scope.

(* a numeral for x *)
Definition near_numeral (tol x : R) (n : numeral) : Prop := good_numeral n /\ (Rabs (numeral_value n - x) <= tol)%R.

Section Spec.
Context {dz : R -> R}.
Implicit Types s : spline (Rops dz).
(* x says the same as s, with these values for the coordinates of the control points, the first index of the
   control points running fastest *)
Record written_as (tol : R) s (value : list Z -> Z -> R) (x : source) : Prop := {
  wa_degs : so_degs x = degs_of s;
  wa_dim : so_dim x = ph_dim (sp_ph s);
  wa_knots : Forall2 (Forall2 (near_numeral tol)) (knots_of s) (so_knots x);
  wa_weights : match ph_wts (sp_ph s), so_weights x with
               | None, None => True
               | Some _, Some ns => Forall2 (near_numeral tol) (map (weight s) (grid (npts_of s))) ns
               | _, _ => False end;
  wa_rows : Forall2 (fun idx row => Forall2 (near_numeral tol) (map (value idx) (zseq 0 (Z.to_nat (ph_dim (sp_ph s))))) row)
                    (grid (npts_of s)) (so_rows x) }.
(* homogeneous coordinates *)
Definition weighted s (idx : list Z) (c : Z) : R := (coordinate s idx c * weight s idx)%R.
End Spec.

(* the names of the variables in an XML file *)
Definition variable_names (dim : Z) : list (list ascii) :=
  firstn (Z.to_nat dim) [of_string "x"; of_string "y"; of_string "z"; of_string "t"].

(* the words of an IRIT file: the objects are numbered from [k] + 1, the last bracket closes the file *)
Fixpoint numbered_objects (k : Z) (objects : list (list (list ascii))) : list (list ascii) :=
  match objects with
  | [] => []
  | [ws] => [of_string "[OBJECT"; of_string "SPLINE" ++ int_str (k + 1)] ++ ws ++ [of_string "]"; of_string "]]"]
  | ws :: more => [of_string "[OBJECT"; of_string "SPLINE" ++ int_str (k + 1)] ++ ws ++ [of_string "]"; of_string "]"] ++ numbered_objects (k + 1) more
  end.
