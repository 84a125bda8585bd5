(* Model of io::IOConverter as a whole (/repo/src/io/io_converter.cc, io_converter.h): reading a file, choosing
   splines and writing them.

   The files are given by two functions: [text] is the contents of a file, [tree] what pugixml makes of it; None if
   the file cannot be opened or parsed (iges_reader.cc:28-30, irit_reader.cc:27-29, xml_reader.cc:26-28: a runtime_error).
   Files are written completely or not at all: what an ofstream holds when a writer throws halfway is not modelled. *)
From Coq Require Import ZArith Ascii List.
From Verif Require Import Base StrSpec StrOps Spaces SplineEval Convert Irit Iges Xml Vtk.
Import ListNotations.
Open Scope Z_scope.

Section ConvertFile.
Context {F : NumOps}.
Variable trunc : F -> Z.
Variable text : str -> option str.
Variable tree : str -> option (list xml_entry).
(* how the three writers print numbers, and the two time stamps of an IGES file *)
Variables irit_fmt iges_fmt xml_fmt : F -> str.
Variables time1 time2 : str.

Definition or_throw {A} (o : option A) : Res A := match o with Some a => Ok a | None => Throw RuntimeError end.

(* io_converter.cc:25 and 57-68: GetReader()->ReadFile(input_filename_) *)
Definition read_input (input : str) : Res (list (any (spline F))) :=
  f <- get_reader (get_format input) ;;
  match f with
  | FIges => t <- or_throw (text input) ;; read_iges trunc t
  | FIrit => t <- or_throw (text input) ;; read_irit trunc t
  | _ => d <- or_throw (tree input) ;; read_xml d
  end.

(* what a writer leaves in the output file *)
Inductive output := OText (t : str) | OTree (d : list xml_entry) | OVtk (v : vtk_file F).

(* io_converter.cc:70-96: the call of the writer's WriteFile *)
Definition write_output (f : format) (name : str) (h : handed (A := spline F)) : Res output :=
  match f with
  | FIges => t <- write_iges iges_fmt name time1 time2 (fst h) ;; Ok (OText t)
  | FIrit => t <- write_irit irit_fmt (fst h) ;; Ok (OText t)
  | FVtk => v <- write_vtk (fst h) (snd h) ;; Ok (OVtk v)
  | FXml => d <- write_xml xml_fmt (fst h) ;; Ok (OTree d)
  | FError => Throw RuntimeError
  end.

(* io_converter.cc:17-21 constructor and 23-28 ConvertFile: the member written_ afterwards, and the result with the file
   that was written *)
Definition convert_file (written : list Z) (input name : str) (positions : list Z) (scattering : list (list Z)) :
    list Z * Res (list Z * output) :=
  match read_input input with
  | Ok splines =>
      let r := get_writer (get_format name) written splines positions scattering in
      (fst r, h <- snd r ;; o <- write_output (get_format name) name h ;; Ok (fst r, o))
  | Throw e => (written, Throw e)
  | UB => (written, UB)
  end.
End ConvertFile.
Arguments OText {F}. Arguments OTree {F}. Arguments OVtk {F}.
