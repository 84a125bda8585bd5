(* Vocabulary for the layout of an IGES file: lines of 80 columns in the sections S, G, D, P and T, with
   directory entries that point to their parameter data. *)
From Coq Require Import ZArith Ascii String List Bool Reals.
From Verif Require Import Base MultiIndex StrSpec StrOps Format FormatSpec Spaces SpacesSpec SplineEval SplineSpec VtkSpec IgesReadSpec.
Import ListNotations.
Open Scope Z_scope.

(* a number at the right end of a field of this width *)
Definition right_aligned (width : nat) (n : Z) (t : list ascii) : Prop :=
  List.length t = width /\ exists b, t = repeat " "%char b ++ int_str n.
(* every line has 80 columns, the letter in column 73 and behind it the number of the line in its section *)
Definition numbered (c : ascii) (ls : list (list ascii)) : Prop :=
  forall i l, nth_error ls i = Some l ->
    List.length l = 80%nat /\ columns l 72 1 = [c] /\ right_aligned 7 (Z.of_nat i + 1) (columns l 73 7).
(* the text in the first columns of the lines, filled up with less than a line of blanks *)
Definition holds_text (width : nat) (ls : list (list ascii)) (text : list ascii) : Prop :=
  exists b, flat_map (firstn width) ls = text ++ repeat " "%char b /\ (b < width)%nat.
(* numbers in fields of eight columns, beginning with field number [first] *)
Definition fields (l : list ascii) (first : nat) (ns : list Z) : Prop :=
  forall j n, nth_error ns j = Some n -> right_aligned 8 n (columns l (8 * (first + j)) 8).

(* the two lines of a directory entry *)
Record entry_of (type start count : Z) (one two : list ascii) : Prop := {
  eo_one : fields one 0 [type; start; 0; 0; 0; 0; 0; 0];
  eo_status : columns one 64 8 = of_string " 0 0 0 1";
  eo_two : fields two 0 [type; 0; 0; count; 0];
  eo_reserved : columns two 40 16 = repeat " "%char 16;
  eo_label : columns two 56 8 = of_string "  SPLINE";
  eo_subscript : fields two 8 [0] }.
(* the lines point back to the directory entry in this line *)
Definition belongs_to (entry : Z) (ls : list (list ascii)) : Prop :=
  Forall (fun l => columns l 64 1 = [" "%char] /\ right_aligned 7 entry (columns l 65 7)) ls.

(* nH and the n characters *)
Definition hollerith_constant (t : list ascii) : list ascii := int_str (zlen t) ++ of_string "H" ++ t.
Definition constant (t : string) : list ascii := hollerith_constant (of_string t).

Section Spec.
Context {dz : R -> R}.
Implicit Types s : spline (Rops dz).
Definition type_of s : Z := if zlen (degs_of s) =? 1 then 126 else 128.
(* the parameters of entity 126 or 128: numbers of control points minus one, degrees, flags, knots, weights,
   control points with three coordinates, the first index of the control points running fastest *)
Definition record_of (fmt : R -> list ascii) s : list ascii :=
  let polynomial := match ph_wts (sp_ph s) with None => 1 | Some _ => 0 end in
  let flags := if zlen (degs_of s) =? 1 then [0; 0; polynomial; 0] else [0; 0; polynomial; 0; 0] in
  join ","%char (map int_str ([type_of s] ++ map (fun n => n - 1) (npts_of s) ++ degs_of s ++ flags) ++
                 map fmt (concat (knots_of s) ++ map (weight s) (grid (npts_of s)) ++
                          flat_map (fun idx => map (padded s idx) [0; 1; 2]) (grid (npts_of s)))) ++ of_string ";".

(* the largest coordinate of all control points, at least 0 *)
Definition largest_coordinate (ss : list (spline (Rops dz))) (h : R) : Prop :=
  (0 <= h)%R /\
  (forall s idx c, In s ss -> In idx (all_indices (npts_of s)) -> 0 <= c < ph_dim (sp_ph s) -> (coordinate s idx c <= h)%R) /\
  (h = 0%R \/ exists s idx c, In s ss /\ In idx (all_indices (npts_of s)) /\ 0 <= c < ph_dim (sp_ph s) /\ coordinate s idx c = h).

(* the 25 global parameters *)
Definition global_parameters (fmt : R -> list ascii) (name time1 time2 : list ascii) (high : R) : list (list ascii) :=
  [constant ","; constant ";"; constant "unknown"; name; constant "SplineLib"; constant "pre_release";
   of_string "31"; of_string "128"; of_string "24"; of_string "1024"; of_string "53"; constant "unknown";
   fmt 1%R; of_string "2"; constant "MM"; of_string "1"; fmt (1 / 1000)%R;
   hollerith_constant time1; fmt (1 / 1000000)%R; fmt high;
   constant "unknown"; constant "unknown"; of_string "11"; of_string "0"; hollerith_constant time2].

(* one line with the numbers of lines of the sections *)
Definition terminates (s g d p : Z) (ls : list (list ascii)) : Prop :=
  exists l, ls = [l] /\
    columns l 0 1 = of_string "S" /\ right_aligned 7 s (columns l 1 7) /\ columns l 8 1 = of_string "G" /\ right_aligned 7 g (columns l 9 7) /\
    columns l 16 1 = of_string "D" /\ right_aligned 7 d (columns l 17 7) /\ columns l 24 1 = of_string "P" /\ right_aligned 7 p (columns l 25 7) /\
    columns l 32 40 = repeat " "%char 40.

(* the whole file *)
Record iges_layout (fmt : R -> list ascii) (name time1 time2 : list ascii) (ss : list (spline (Rops dz)))
    (st gl di pa te : list (list ascii)) : Prop := {
  il_start : numbered "S" st /\ zlen st = 1 /\ holds_text 72 st (of_string "IGES file generated by SplineLib");
  il_global : numbered "G" gl /\ exists high, largest_coordinate ss high /\
    holds_text 72 gl (flat_map (fun t => t ++ of_string ",") (global_parameters fmt name time1 time2 high) ++ of_string ";");
  il_directory : numbered "D" di /\ zlen di = 2 * zlen ss;
  il_parameters : numbered "P" pa;
  (* the parameter data of the splines follow each other and fill the section *)
  il_entries : exists counts, List.length counts = List.length ss /\ zlen pa = fold_right Z.add 0 counts /\
    forall k s, nth_error ss k = Some s -> exists one two,
      let start := fold_right Z.add 0 (firstn k counts) in
      let count := nth k counts 0 in
      let data := firstn (Z.to_nat count) (skipn (Z.to_nat start) pa) in
      nth_error di (2 * k) = Some one /\ nth_error di (2 * k + 1) = Some two /\
      entry_of (type_of s) (start + 1) count one two /\ 1 <= count /\
      belongs_to (2 * Z.of_nat k + 1) data /\ holds_text 64 data (record_of fmt s);
  il_terminate : numbered "T" te /\ terminates (zlen st) (zlen gl) (zlen di) (zlen pa) te }.
End Spec.
