(* Vocabulary for statements about the log files of the converter programs. *)
From Coq Require Import ZArith Ascii String List.
From Verif Require Import Base StrOps StrSpec Format ConvertSpec.
Import ListNotations.
Open Scope Z_scope.

(* the text consists of the lines ls; the last line break may be missing *)
Definition one_line (l : str) : Prop := Forall (fun c => c <> newline) l.
Definition file_of (ls : list str) (text : str) : Prop :=
  Forall one_line ls /\
  (text = flat_map (fun l => l ++ [newline]) ls \/
   exists ls' l, ls = ls' ++ [l] /\ l <> [] /\ text = flat_map (fun l => l ++ [newline]) ls' ++ l).

(* a log: settings and other lines *)
Inductive block := BInput (path : str) | BOutput (path : str) | BAll | BPositions (ps : list Z) | BScattering (rows : list (list Z)) | BNote (line : str).
Definition heading (k : string) (l : str) : Prop := prefix_of (of_string k) l.
Definition note (l : str) : Prop := ~ heading "input:" l /\ ~ heading "output:" l /\ ~ heading "options:" l /\ ~ heading "scattering:" l.
Definition blank (l : str) : Prop := Forall white l.
Definition number (p : Z) : Prop := 0 <= p < 2 ^ 31.
Definition row_line (r : list Z) : str := join " "%char (map int_str r).
Definition row_ok (r : list Z) : Prop := r <> [] /\ Forall number r.

(* the lines ls are the blocks bs.  The lists of numbers end with a blank line or with the file; the
   scattering may follow the positions directly. *)
Inductive log_lines : list block -> list str -> Prop :=
| ll_end : log_lines [] []
| ll_note l bs ls : note l -> log_lines bs ls -> log_lines (BNote l :: bs) (l :: ls)
| ll_input h p bs ls : heading "input:" h -> log_lines bs ls -> log_lines (BInput p :: bs) (h :: p :: ls)
| ll_output h p bs ls : heading "output:" h -> log_lines bs ls -> log_lines (BOutput p :: bs) (h :: p :: ls)
| ll_all h bs ls : heading "options:" h -> log_lines bs ls -> log_lines (BAll :: bs) (h :: of_string "all" :: ls)
| ll_positions h ps l bs ls : heading "options:" h -> Forall number ps -> blank l -> log_lines bs ls ->
    log_lines (BPositions ps :: bs) (h :: map int_str ps ++ l :: ls)
| ll_positions_end h ps : heading "options:" h -> Forall number ps -> log_lines [BPositions ps] (h :: map int_str ps)
| ll_positions_scattering h ps rows bs ls : heading "options:" h -> Forall number ps ->
    log_lines (BScattering rows :: bs) (of_string "scattering:" :: ls) ->
    log_lines (BPositions ps :: BScattering rows :: bs) (h :: map int_str ps ++ of_string "scattering:" :: ls)
| ll_scattering h rows l bs ls : heading "scattering:" h -> Forall row_ok rows -> blank l -> log_lines bs ls ->
    log_lines (BScattering rows :: bs) (h :: map row_line rows ++ l :: ls)
| ll_scattering_end h rows : heading "scattering:" h -> Forall row_ok rows -> log_lines [BScattering rows] (h :: map row_line rows).

(* what the blocks say *)
Definition input_paths (bs : list block) : list str := flat_map (fun b => match b with BInput p => [p] | _ => [] end) bs.
Definition output_paths (bs : list block) : list str := flat_map (fun b => match b with BOutput p => [p] | _ => [] end) bs.
Definition listed_positions (bs : list block) : list Z := flat_map (fun b => match b with BPositions ps => ps | _ => [] end) bs.
Definition listed_rows (bs : list block) : list (list Z) := flat_map (fun b => match b with BScattering rows => rows | _ => [] end) bs.

(* what is written into the log *)
Fixpoint commas (l : list str) : str :=
  match l with
  | [] => []
  | [t] => t
  | t :: l' => t ++ of_string ", " ++ commas l'
  end.
Definition sentence (written : list Z) (input output : str) : str :=
  (match written with
   | [] => of_string "No splines in file " ++ input ++ of_string " have"
   | [p] => of_string "The spline at position " ++ int_str p ++ of_string " in file " ++ input ++ of_string " has"
   | _ => of_string "The splines at positions " ++ commas (map int_str written) ++ of_string " in file " ++ input ++ of_string " have"
   end) ++ of_string " been written to " ++ output.
Definition log_lines_written (time : str) (written : list Z) (input output : str) : str :=
  [newline; newline] ++ of_string "log:" ++ [newline] ++ time ++ sentence written input output.
(* a time stamp: one line that is no heading, with its line break *)
Definition time_stamp (time : str) : Prop := exists t, time = t ++ [newline] /\ one_line t /\ note t.
(* the positions asked for; the empty list stands for all splines *)
Definition asks (bs : list block) (request : list Z) : Prop :=
  (In BAll bs /\ request = []) \/ (~ In BAll bs /\ request = listed_positions bs /\ request <> []).
(* the argument that makes a program print its help *)
Definition help_argument (arg : str) : Prop := heading "--help" arg \/ heading "-h" arg.
(* the last line of the text does not announce a path *)
Definition no_open_path (text : str) : Prop :=
  forall ls l, file_of (ls ++ [l]) text -> ~ heading "input:" l /\ ~ heading "output:" l.
