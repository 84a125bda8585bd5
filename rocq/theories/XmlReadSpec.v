(* Vocabulary for XML documents of any origin: what is meant and how it may be written. *)
From Coq Require Import ZArith Ascii String List Reals.
From Verif Require Import Base MultiIndex KnotVecSpec StrSpec StrOps Format Spaces SpacesSpec SplineEval SplineSpec Convert FormatSpec Xml.
Import ListNotations.
Open Scope Z_scope.

(* what one entry says: the names of the variables, one row of variables for each control point, the
   number of coordinates, weights, degrees and knots *)
Record source := mkSource {
  so_names : list (list ascii); so_dim : Z; so_rows : list (list numeral); so_weights : option (list numeral);
  so_degs : list Z; so_knots : list (list numeral) }.

(* blanks and line feeds *)
Definition blank (c : ascii) : Prop := c = " "%char \/ c = newline.
(* the text consists of these words, separated by any positive number of blanks and line feeds *)
Definition text_of_words (t : list ascii) (ws : list (list ascii)) : Prop := pieces blank t ws.
Definition text_of_numbers (t : list ascii) (ns : list numeral) : Prop := text_of_words t (map show_numeral ns).

(* the entry writes down x *)
Record writes_down (e : xml_entry) (x : source) : Prop := {
  wd_dirs : xe_spl_dim e = int_str (zlen (so_degs x));
  wd_dim : xe_space_dim e = int_str (so_dim x);
  wd_vars : xe_vars e = int_str (zlen (so_names x));
  wd_points : xe_points e = int_str (zlen (so_rows x));
  wd_names : text_of_words (xe_names e) (so_names x);
  wd_values : text_of_numbers (xe_values e) (concat (so_rows x));
  wd_weights : match so_weights x, xe_wght e with
               | None, None => True
               | Some ns, Some t => text_of_numbers t ns
               | _, _ => False end;
  wd_degs : text_of_words (xe_deg e) (map int_str (so_degs x));
  wd_knots : Forall2 text_of_numbers (xe_knots e) (so_knots x) }.

(* the coordinates begin at the variable x, which is the one with number [first]; without such a variable at the first one *)
Definition first_coordinate (names : list (list ascii)) (first : Z) : Prop :=
  (exists before after, names = before ++ of_string "x" :: after /\ ~ In (of_string "x") before /\ zlen before = first) \/
  (~ In (of_string "x") names /\ first = 0).

Definition good_numeral (n : numeral) : Prop := numeral_ok n /\ readable n.
(* x describes a spline whose coordinates begin at the variable [first] *)
Record describes (x : source) (first : Z) : Prop := {
  de_dirs : Forall2 (fun ns p => good_direction (map numeral_value ns) p) (so_knots x) (so_degs x);
  de_count : zlen (so_rows x) = total (map2 (fun ns p => zlen ns - p - 1) (so_knots x) (so_degs x));
  de_rows : Forall (fun r => zlen r = zlen (so_names x)) (so_rows x);
  de_weights : forall ns, so_weights x = Some ns -> zlen ns = zlen (so_rows x) /\ Forall good_numeral ns;
  de_values : Forall (Forall good_numeral) (so_rows x);
  de_knots : Forall (Forall good_numeral) (so_knots x);
  de_dim : 1 <= so_dim x;
  de_first : first_coordinate (so_names x) first;
  de_fits : first + so_dim x <= zlen (so_names x);
  de_small : zlen (so_names x) < 2 ^ 31 /\ zlen (so_rows x) < 2 ^ 31 /\ Forall (fun p => p < 2 ^ 31) (so_degs x) }.

Section Spec.
Context {dz : R -> R}.
(* the spline that x describes *)
Record described (x : source) (first : Z) (s : spline (Rops dz)) : Prop := {
  ds_wf : well_formed s;
  ds_degs : degs_of s = so_degs x;
  ds_knots : knots_of s = map (map numeral_value) (so_knots x);
  ds_dim : ph_dim (sp_ph s) = so_dim x;
  ds_points : forall idx c, In idx (all_indices (npts_of s)) -> 0 <= c < so_dim x -> forall n0,
    coordinate s idx c = numeral_value (nth (Z.to_nat (first + c)) (nth (Z.to_nat (position (npts_of s) idx)) (so_rows x) []) n0);
  ds_weights : match so_weights x with
               | None => ph_wts (sp_ph s) = None
               | Some ns => ph_wts (sp_ph s) = Some (map numeral_value ns) end }.
End Spec.
