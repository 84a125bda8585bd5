(* Model of src/io/executables: the log file (converter_log.cc) and the nine converter programs.  A file is
   its text; readers and writers of splines are parameters; the clock is a parameter. *)
From Coq Require Import ZArith Ascii String List Bool.
From Verif Require Import Base StrOps Format VecUtils Convert.
Import ListNotations.
Open Scope Z_scope.

(* an input file stream: the characters left, or None once the end has been met *)
Definition stream := option str.
Definition is_newline (c : ascii) : bool := Ascii.eqb c newline.
(* getline(log, line): success, the new line, the rest.  After the end the line stays as it was; if only the end is
   left it is emptied. *)
Definition read_line (s : stream) (line : str) : bool * str * stream :=
  match s with
  | None => (false, line, None)
  | Some [] => (false, [], None)
  | Some t => let (l, r) := until newline t in (true, l, if existsb is_newline t then Some r else None)
  end.

(* members of ConverterLog; log_file_ is left to the programs *)
Record clog := mkLog { lg_input : str; lg_output : str; lg_positions : list Z; lg_scattering : list (list Z);
                       lg_written : list Z; lg_not_written : list Z }.
Definition empty_log : clog := mkLog [] [] [] [] [] [].

Section Log.
Context {F : NumOps} (trunc : F -> Z).

Definition str_eqb (a b : str) : bool := if list_eq_dec ascii_dec a b then true else false.
(* converter_log.cc:42 and 52: the line ends the list *)
Definition stops (line : str) : bool := ends_with (trim line) (of_string ":").

(* converter_log.cc:42-49; every round takes a line, so the length of the text limits the rounds (here and below) *)
Fixpoint options_loop (fuel : nat) (line : str) (s : stream) (positions : list Z) : Res (str * stream * list Z) :=
  match fuel with
  | O => Ok (line, s, positions)
  | S fuel' =>
      match read_line s line with
      | (ok, line', s') =>
          if ok && negb (stops line') then
            if str_eqb line' (of_string "all") then Ok (line', s', [-1])
            else p <- stoi line' ;; options_loop fuel' line' s' (positions ++ [p])
          else Ok (line', s', positions)
      end
  end.

(* converter_log.cc:52-55; string_operations.h:61-68 StringVectorToNumberVector<int> *)
Definition row_of (line : str) : Res (list Z) :=
  mapM (fun t => x <- string_to_double (F := F) t ;; to_int trunc x) (split line " "%char).
Fixpoint scattering_loop (fuel : nat) (line : str) (s : stream) (rows : list (list Z)) : Res (str * stream * list (list Z)) :=
  match fuel with
  | O => Ok (line, s, rows)
  | S fuel' =>
      match read_line s line with
      | (ok, line', s') =>
          if ok && negb (stops line') then r <- row_of line' ;; scattering_loop fuel' line' s' (rows ++ [r])
          else Ok (line', s', rows)
      end
  end.

(* converter_log.cc:34-57 the loop over the lines *)
Fixpoint log_loop (fuel n : nat) (line : str) (s : stream) (lg : clog) : Res clog :=
  match fuel with
  | O => Ok lg
  | S fuel' =>
      match read_line s line with
      | (false, _, _) => Ok lg
      | (true, line, s) =>
          let '(input, s) := if starts_with line (of_string "input:")
                             then match read_line s (lg_input lg) with (_, l, s') => (l, s') end else (lg_input lg, s) in
          let '(output, s) := if starts_with line (of_string "output:")
                              then match read_line s (lg_output lg) with (_, l, s') => (l, s') end else (lg_output lg, s) in
          o <- (if starts_with line (of_string "options:") then options_loop n line s (lg_positions lg) else Ok (line, s, lg_positions lg)) ;;
          let '(line, s, positions) := o in
          c <- (if starts_with line (of_string "scattering:") then scattering_loop n line s (lg_scattering lg) else Ok (line, s, lg_scattering lg)) ;;
          let '(line, s, scattering) := c in
          log_loop fuel' n line s (mkLog input output positions scattering (lg_written lg) (lg_not_written lg))
      end
  end.

(* converter_log.cc:27-58 constructor; None: the file cannot be opened *)
Definition read_log (file : option str) : Res clog :=
  match file with
  | None => Throw RuntimeError
  | Some text => let n := S (List.length text) in log_loop n n [] (Some text) empty_log
  end.

(* converter_log.cc:68-81 GetPositions *)
Definition log_positions (lg : clog) (possible : list Z) : Res (list Z * clog) :=
  p0 <- vget (lg_positions lg) 0 ;;
  let lg' := if p0 =? -1 then mkLog (lg_input lg) (lg_output lg) (lg_positions lg) (lg_scattering lg) possible (lg_not_written lg)
             else mkLog (lg_input lg) (lg_output lg) (lg_positions lg) (lg_scattering lg)
                    (lg_written lg ++ filter (mem possible) (lg_positions lg))
                    (lg_not_written lg ++ filter (fun p => negb (mem possible p)) (lg_positions lg)) in
  Ok (lg_written lg', lg').

(* converter_log.cc:83-95 GetScattering *)
Definition log_scattering (lg : clog) : Res (list (list Z)) :=
  p0 <- vget (lg_positions lg) 0 ;;
  indices <- (if negb (p0 =? -1) then
                for_up 0 (zlen (lg_positions lg)) (fun i acc =>
                  p <- vget (lg_positions lg) i ;; Ok (if mem (lg_written lg) p then acc ++ [i] else acc)) []
              else Ok (lg_written lg)) ;;
  filter_vector (lg_scattering lg) indices.

(* converter_log.cc:97-111 WriteLog: the text appended to the log file; time is what 126-129 GetTime returns *)
Definition one_spline (lg : clog) : bool := zlen (lg_written lg) =? 1.
Definition log_entry (time : str) (lg : clog) : str :=
  of_string (String newline (String newline "log:")) ++ [newline] ++ time ++
  (match lg_written lg with
   | [] => of_string "No splines"
   | w => of_string "The " ++ (if one_spline lg then of_string "spline" else of_string "splines") ++
          of_string " at position" ++ (if one_spline lg then of_string " " else of_string "s ") ++
          flat_map (fun p => int_str p ++ of_string ", ") (removelast w) ++ int_str (last w 0)
   end) ++
  of_string " in file " ++ lg_input lg ++ (if one_spline lg then of_string " has" else of_string " have") ++
  of_string " been written to " ++ lg_output lg.

(* iges_to_vtk.cc:38-42 (the same in all programs): an exception of the reader, whatever its type, becomes a runtime_error;
   a range_error is caught by its base class and thrown again as the base class *)
Definition as_runtime {A} (m : Res A) : Res A := match m with Throw _ => Throw RuntimeError | _ => m end.

(* what a program does: print the help, or write [out] to a file and append to the log file *)
Inductive outcome (O : Type) := Help | Converted (file : str) (out : O) (entry : str).
Arguments Help {O}. Arguments Converted {O}.

(* iges_to_vtk.cc:22-52, iges_to_irit.cc:22-51, iges_to_xml.cc:22-51, irit_to_iges.cc:21-50, irit_to_vtk.cc:21-51,
   irit_to_xml.cc:21-49, xml_to_iges.cc:21-50, xml_to_irit.cc:21-50, xml_to_vtk.cc:21-51: the argument vector without the
   program's name, the files, the reader of the input format, the largest dimension of the output format, whether
   the scattering is used, and the writer of the output format *)
Definition converter {A O : Type} (max_dim : Z) (vtk : bool) (reader : str -> Res (list (any A)))
    (writer : list (any A) -> list (list Z) -> Res O) (open : str -> option str) (time : str) (args : list str) : Res (outcome O) :=
  match args with
  | [log_file] =>
      if starts_with log_file (of_string "--help") || starts_with log_file (of_string "-h") then Ok Help
      else
        lg <- read_log (open log_file) ;;
        splines <- as_runtime (reader (lg_input lg)) ;;
        possible <- positions_of_dimension splines max_dim ;;
        p <- log_positions lg possible ;;
        scattering <- (if vtk then log_scattering (snd p) else Ok []) ;;
        chosen <- filter_vector splines (fst p) ;;
        out <- writer chosen scattering ;;
        Ok (Converted (lg_output (snd p)) out (log_entry time (snd p)))
  | _ => Throw RuntimeError
  end.
(* the dimensions in the programs: iges_to_irit.cc:44, iges_to_vtk.cc:45, iges_to_xml.cc:45, irit_to_iges.cc:43 and the others *)
Definition program_dimension (f : format) : Z := match f with FIges => 2 | FIrit | FVtk => 3 | _ => 4 end.
Definition program {A O : Type} (f : format) := converter (A := A) (O := O) (program_dimension f) (match f with FVtk => true | _ => false end).
End Log.
Arguments Help {O}. Arguments Converted {O}.
