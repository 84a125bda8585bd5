(* C61: the converter programs and their log files. *)
From Coq Require Import ZArith Ascii String List Reals.
From Verif Require Import Base StrSpec StrOps Format FormatSpec Spaces SplineEval SplineSpec Irit IritThms Xml XmlThms Convert ConvertSpec ConvertThms ConvLog ConvLogSpec ConvLogThms ConvLogEnd.
Import ListNotations.
Open Scope Z_scope.

(* A log consisting of the blocks bs is read as what the blocks say: the last paths, all listed positions (or "all"), all rows. *)
Theorem C61_read : forall dz bs ls text, file_of ls text -> log_lines bs ls -> zlen text < 2 ^ 63 ->
  exists lg, read_log (F := Rops dz) toward_zero (Some text) = Ok lg /\
    lg_input lg = last (input_paths bs) [] /\ lg_output lg = last (output_paths bs) [] /\ lg_scattering lg = listed_rows bs /\
    (In BAll bs -> hd_error (lg_positions lg) = Some (-1)) /\ (~ In BAll bs -> lg_positions lg = listed_positions bs) /\
    lg_written lg = [] /\ lg_not_written lg = [].
Proof. exact @log_is_read. Qed.
Print Assumptions C61_read.

Example C61_read_example : file_of ex_lines (text_of ex_lines) /\ log_lines ex_blocks ex_lines.
Proof. exact (conj ex_file ex_log). Qed.

(* A program with such a log writes the splines asked for that the format can hold, in the order asked for, for VTK with their
   scattering, to the output file, and appends an entry that names them to the log. *)
Theorem C61_program : forall dz A O f (reader : str -> Res (list (any A))) (writer : list (any A) -> list (list Z) -> Res O) open time arg text ls bs request splines, f <> FError -> ~ help_argument arg -> open arg = Some text -> file_of ls text -> log_lines bs ls -> zlen text < 2 ^ 63 -> asks bs request ->
  reader (last (input_paths bs) []) = Ok splines -> Forall is_spline splines ->
  (f = FVtk -> (List.length (requested splines request) <= List.length (listed_rows bs))%nat) ->
  exists written chosen sc,
    kept (writable f splines) (requested splines request) written /\ Forall2 (entry_at splines) written chosen /\
    (f = FVtk -> kept (fun x => writable f splines (fst x)) (combine (requested splines request) (listed_rows bs)) (combine written sc) /\
                 List.length sc = List.length written) /\ (f <> FVtk -> sc = []) /\
    program (F := Rops dz) toward_zero f reader writer open time [arg] =
      (out <- writer chosen sc ;;
       Ok (Converted (last (output_paths bs) []) out (log_lines_written time written (last (input_paths bs) []) (last (output_paths bs) [])))).
Proof. exact @program_runs. Qed.
Print Assumptions C61_program.

Example C61_program_example : asks ex_blocks [2; 1; 0; 7] /\ ~ help_argument (of_string "log.txt") /\ Forall is_spline ex_objects /\ forall dz,
  program (F := Rops dz) toward_zero FVtk ex_reader ex_writer ex_open ex_time [of_string "log.txt"] =
  Ok (Converted (of_string "out.vtk") ([AnyN 2 12%nat; AnyB 1 10%nat], [[5; 5]; [4]]) ex_entry).
Proof. exact (conj ex_asks (conj ex_no_help (conj ex_objects_ok ex_program))). Qed.

(* Whatever the log was: a program that has converted does the same again when it is run on the log with its entry. *)
Theorem C61_again : forall dz A O f (reader : str -> Res (list (any A))) (writer : list (any A) -> list (list Z) -> Res O) open open' time time' arg text file out entry, program (F := Rops dz) toward_zero f reader writer open time [arg] = Ok (Converted file out entry) -> open arg = Some text ->
  no_open_path text -> time_stamp time -> open' arg = Some (text ++ entry) ->
  exists written input output, entry = log_lines_written time written input output /\
    program (F := Rops dz) toward_zero f reader writer open' time' [arg] = Ok (Converted file out (log_lines_written time' written input output)).
Proof. exact @program_rerun. Qed.
Print Assumptions C61_again.

Example C61_again_example : no_open_path (text_of ex_lines) /\ time_stamp ex_time.
Proof. exact (conj ex_open_path ex_time_ok). Qed.

(* The XML and IRIT files written that way, read back, are the splines asked for up to the printing error. *)
Theorem C61_to_xml : forall dz (reader : str -> Res (list (any (spline (Rops dz))))) (fmt : R -> list ascii) tol open time arg text ls bs request splines ss, ~ help_argument arg -> open arg = Some text -> file_of ls text -> log_lines bs ls -> zlen text < 2 ^ 63 -> asks bs request ->
  reader (last (input_paths bs) []) = Ok splines ->
  Forall2 (fun o s => is_spline o /\ forall d, spline_dim o d -> ConvertSpec.holds FXml d -> xml_ready fmt tol d o s) splines ss ->
  exists written doc os' ss',
    kept (writable FXml splines) (requested splines request) written /\
    program (F := Rops dz) toward_zero FXml reader (fun chosen _ => write_xml (F := Rops dz) fmt chosen) open time [arg] =
      Ok (Converted (last (output_paths bs) []) doc (log_lines_written time written (last (input_paths bs) []) (last (output_paths bs) []))) /\
    read_xml (F := Rops dz) doc = Ok os' /\ Forall2 (fun o' s' => exists d, FormatSpec.holds d o' s') os' ss' /\
    Forall2 (fun p s' => exists s, entry_at ss p s /\ plain_back fmt tol s s') written ss'.
Proof. exact @to_xml. Qed.
Print Assumptions C61_to_xml.

Theorem C61_to_irit : forall dz (reader : str -> Res (list (any (spline (Rops dz))))) (fmt : R -> list ascii) tol open time arg text ls bs request splines ss, ~ help_argument arg -> open arg = Some text -> file_of ls text -> log_lines bs ls -> zlen text < 2 ^ 63 -> asks bs request ->
  reader (last (input_paths bs) []) = Ok splines -> zlen (requested splines request) < 2 ^ 31 - 1 ->
  Forall2 (fun o s => is_spline o /\ forall d, spline_dim o d -> ConvertSpec.holds FIrit d -> irit_ready fmt tol d o s) splines ss ->
  exists written out os' ss',
    kept (writable FIrit splines) (requested splines request) written /\
    program (F := Rops dz) toward_zero FIrit reader (fun chosen _ => write_irit (F := Rops dz) fmt chosen) open time [arg] =
      Ok (Converted (last (output_paths bs) []) out (log_lines_written time written (last (input_paths bs) []) (last (output_paths bs) []))) /\
    read_irit (F := Rops dz) toward_zero out = Ok os' /\ Forall2 (fun o' s' => exists d, FormatSpec.holds d o' s') os' ss' /\
    Forall2 (fun p s' => exists s, entry_at ss p s /\ irit_back fmt tol s s') written ss'.
Proof. exact @to_irit. Qed.
Print Assumptions C61_to_irit.

Example C61_to_example : file_of end_lines (text_of end_lines) /\ log_lines end_blocks end_lines /\ asks end_blocks [1; 0].
Proof. exact end_log. Qed.
Example C61_to_example_splines : forall dz, Forall2 (fun (o : any (spline (Rops dz))) s => is_spline o /\ forall d, spline_dim o d -> ConvertSpec.holds FXml d -> xml_ready fixed6 (1 / 2000000) d o s)
    [irit_ex_any None; irit_ex_any (Some (1/3)%R)] [irit_ex_line None; irit_ex_line (Some (1/3)%R)] /\
  Forall2 (fun (o : any (spline (Rops dz))) s => is_spline o /\ forall d, spline_dim o d -> ConvertSpec.holds FIrit d -> irit_ready fixed6 (1 / 2000000) d o s)
    [irit_ex_any None; irit_ex_any (Some (1/3)%R)] [irit_ex_line None; irit_ex_line (Some (1/3)%R)].
Proof. exact end_splines. Qed.

(* Failures: the wrong number of arguments; a log or an input that cannot be read (any exception); something that is no spline; the help. *)
Theorem C61_arguments : forall dz A O f (reader : str -> Res (list (any A))) (writer : list (any A) -> list (list Z) -> Res O) open time args, List.length args <> 1%nat -> program (F := Rops dz) toward_zero f reader writer open time args = Throw RuntimeError.
Proof. exact @program_arguments. Qed.
Print Assumptions C61_arguments.
Theorem C61_help : forall dz A O f (reader : str -> Res (list (any A))) (writer : list (any A) -> list (list Z) -> Res O) open time arg, help_argument arg -> program (F := Rops dz) toward_zero f reader writer open time [arg] = Ok Help.
Proof. exact @program_help. Qed.
Print Assumptions C61_help.
Theorem C61_no_log : forall dz A O f (reader : str -> Res (list (any A))) (writer : list (any A) -> list (list Z) -> Res O) open time arg, ~ help_argument arg -> open arg = None -> program (F := Rops dz) toward_zero f reader writer open time [arg] = Throw RuntimeError.
Proof. exact @program_no_log. Qed.
Print Assumptions C61_no_log.
Theorem C61_bad_input : forall dz A O f (reader : str -> Res (list (any A))) (writer : list (any A) -> list (list Z) -> Res O) open time arg text ls bs e, ~ help_argument arg -> open arg = Some text -> file_of ls text -> log_lines bs ls -> zlen text < 2 ^ 63 ->
  reader (last (input_paths bs) []) = Throw e -> program (F := Rops dz) toward_zero f reader writer open time [arg] = Throw RuntimeError.
Proof. exact @program_bad_input. Qed.
Print Assumptions C61_bad_input.
Theorem C61_not_spline : forall dz A O f (reader : str -> Res (list (any A))) (writer : list (any A) -> list (list Z) -> Res O) open time arg text ls bs splines, ~ help_argument arg -> open arg = Some text -> file_of ls text -> log_lines bs ls -> zlen text < 2 ^ 63 ->
  reader (last (input_paths bs) []) = Ok splines -> ~ Forall is_spline splines -> program (F := Rops dz) toward_zero f reader writer open time [arg] = Throw RuntimeError.
Proof. exact @program_not_spline. Qed.
Print Assumptions C61_not_spline.

(* A log that asks for nothing: the first of no positions is accessed. *)
Theorem C61_nothing_asked : forall dz A O f (reader : str -> Res (list (any A))) (writer : list (any A) -> list (list Z) -> Res O) open time arg text ls bs splines, ~ help_argument arg -> open arg = Some text -> file_of ls text -> log_lines bs ls -> zlen text < 2 ^ 63 ->
  ~ In BAll bs -> listed_positions bs = [] -> reader (last (input_paths bs) []) = Ok splines -> Forall is_spline splines -> program (F := Rops dz) toward_zero f reader writer open time [arg] = UB.
Proof. exact @program_nothing_asked. Qed.
Print Assumptions C61_nothing_asked.
Example C61_nothing_asked_example : log_lines [BInput (of_string "in.itd")] [of_string "input:"; of_string "in.itd"] /\ ~ In BAll [BInput (of_string "in.itd")] /\
  listed_positions [BInput (of_string "in.itd")] = [].
Proof. exact nothing_example. Qed.

(* A heading directly behind the positions is lost, except for the scattering. *)
Theorem C61_lost_refuted : forall dz, exists text lg, file_of (map of_string ["input:"; "in.itd"; "options:"; "0"; "output:"; "out.xml"]%string) text /\
  read_log (F := Rops dz) toward_zero (Some text) = Ok lg /\ lg_positions lg = [0] /\ lg_output lg = [].
Proof. exact @lost_refuted. Qed.
Print Assumptions C61_lost_refuted.

(* Lines ended by a carriage return and a line feed are not understood. *)
Theorem C61_carriage_refuted : forall dz, exists text, file_of (map (fun l => of_string l ++ ["013"%char]) ["input:"; "in.itd"; "output:"; "out.xml"; "options:"; "all"]%string) text /\
  read_log (F := Rops dz) toward_zero (Some text) = Throw InvalidArgument.
Proof. exact @carriage_refuted. Qed.
Print Assumptions C61_carriage_refuted.
