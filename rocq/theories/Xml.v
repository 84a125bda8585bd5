(* Model of src/io/xml_writer.cc, xml_writer_utils.h, xml_reader.cc and xml_reader_utils.h.
   pugixml is not modelled: the document is the tree that is handed to it, and load_file is taken to
   return the tree that save_file got (pugixml drops text nodes of white space only; reading a missing
   text node gives the empty string, which splits into the same entries).  Attributes and nodes other
   than those below are not looked at.  [fmt] is std::to_string(double). *)
From Coq Require Import ZArith Ascii String List Bool.
From Verif Require Import Base MultiIndex KnotVec Spaces SplineEval Convert StrOps Format.
Import ListNotations.
Open Scope Z_scope.

(* one node SplineEntry: attributes splDim, spaceDim, numOfCntrlPntVars, numCntrlPnts, and the texts of
   cntrlPntVarNames, cntrlPntVars, wght, deg and of the children of kntVecs *)
Record xml_entry := mkXml {
  xe_spl_dim : str; xe_space_dim : str; xe_vars : str; xe_points : str;
  xe_names : str; xe_values : str; xe_wght : option str; xe_deg : str; xe_knots : list str }.

Definition xnl (n : nat) : str := newline :: repeat " "%char n.

Section Xml.
Context {F : NumOps} (fmt : F -> str).

(* xml_writer_utils.h:30-37 AddDegrees *)
Definition xml_degrees (d : Z) (s : spline F) : Res str :=
  t <- concatM (fun i => q <- sp_deg s (Z.to_nat i) ;; Ok (xnl 6 ++ int_str q)) (zseq 0 (Z.to_nat d)) ;;
  Ok (t ++ xnl 4).
(* 39-50 AddKnotVectors *)
Definition xml_knots (d : Z) (s : spline F) : Res (list str) :=
  mapM (fun i => kv <- sp_knots s (Z.to_nat i) ;; Ok (flat_map (fun x => xnl 8 ++ fmt x) kv ++ xnl 6)) (zseq 0 (Z.to_nat d)).
(* 52-64 AddControlPointVars *)
Definition xml_values (s : spline F) : Res str :=
  t <- mih_loop (ph_npts (sp_ph s)) (fun h text =>
         row <- concatM (fun j => x <- cp_value s (mcur h) j ;; Ok (fmt x ++ of_string "  "))
                        (zseq 0 (Z.to_nat (sp_pdim s))) ;;
         Ok (text ++ xnl 6 ++ row)) [] ;;
  Ok (t ++ xnl 4).
(* 66-76 AddWeights *)
Definition xml_weights (s : spline F) : Res str :=
  t <- mih_loop (ph_npts (sp_ph s)) (fun h text =>
         w <- get_weight (sp_ph s) (mcur h) ;; Ok (text ++ xnl 6 ++ fmt w ++ of_string "  ")) [] ;;
  Ok (t ++ xnl 4).
(* xml_writer.cc:109-120 AddControlPointVarNames: no text for other dimensions *)
Definition xml_names (dim : Z) : str :=
  if dim =? 1 then xnl 6 ++ of_string "x" ++ xnl 4
  else if dim =? 2 then xnl 6 ++ of_string "x y" ++ xnl 4
  else if dim =? 3 then xnl 6 ++ of_string "x y z" ++ xnl 4
  else if dim =? 4 then xnl 6 ++ of_string "x y z t" ++ xnl 4 else [].
(* 47-97 Add1DSpline ... Add4DSpline, 99-107 AddSplineAttributes *)
Definition xml_spline (d : Z) (spl : any (spline F)) : Res xml_entry :=
  s <- get_spline d spl ;;
  n <- num_control_points (sp_ph s) ;;
  values <- xml_values s ;;
  rational <- is_rational d spl ;;
  wght <- (if rational then t <- xml_weights s ;; Ok (Some t) else Ok None) ;;
  deg <- xml_degrees d s ;;
  knots <- xml_knots d s ;;
  Ok (mkXml (int_str d) (int_str (sp_pdim s)) (int_str (sp_pdim s)) (int_str n)
              (xml_names (sp_pdim s)) values wght deg knots).
(* 34-45 AddSpline, 24-32 WriteFile *)
Definition write_xml (splines : list (any (spline F))) : Res (list xml_entry) :=
  foldM (fun doc spl =>
    d <- get_dimension spl ;;
    if (1 <=? d) && (d <=? 4) then e <- xml_spline d spl ;; Ok (doc ++ [e]) else Ok doc) splines [].

(* xml_reader.cc:118-126 FindCoordinatePosition *)
Fixpoint find_x (i : Z) (vars : list str) : Z :=
  match vars with
  | [] => 0
  | v :: t => if (zlen v =? 1) && is_prefix (of_string "x") v then i else find_x (i + 1) t
  end.
(* 95-111 GetControlPoints *)
Definition xml_get_points (e : xml_entry) : Res (list (list F)) :=
  vars <- to_numbers (split (xe_values e) " ") ;;
  let start := find_x 0 (split (xe_names e) " ") in
  dim <- stoi (xe_space_dim e) ;;
  nvars <- stoi (xe_vars e) ;;
  n <- stoi (xe_points e) ;;
  mapM (fun i => mapM (fun j => vget vars (i * nvars + j)) (zseq start (Z.to_nat dim))) (zseq 0 (Z.to_nat n)).
(* xml_reader_utils.h:31-33 GetDegrees, 52-59 StringVectorToDegreeArray *)
Definition xml_get_degrees (d : Z) (e : xml_entry) : Res (list Z) :=
  mapM (fun i => t <- vget (split (xe_deg e) " ") i ;; stoi t) (zseq 0 (Z.to_nat d)).
(* 35-50 GetKnotVectors: a missing child has the empty text *)
Definition xml_get_knots (d : Z) (e : xml_entry) : Res (list (list F)) :=
  mapM (fun i => to_numbers (split (nth (Z.to_nat i) (xe_knots e) []) " ")) (zseq 0 (Z.to_nat d)).
(* xml_reader.cc:51-93 Get1DSpline ... Get4DSpline, 113-116 GetWeights *)
Definition xml_get_spline (d : Z) (e : xml_entry) (points : list (list F)) : Res (any (spline F)) :=
  knots <- xml_get_knots d e ;;
  degrees <- xml_get_degrees d e ;;
  match xe_wght e with
  | None => s <- spline_new knots degrees points None ;; Ok (AnyB d s)
  | Some t => w <- to_numbers (split t " ") ;; s <- spline_new knots degrees points (Some w) ;; Ok (AnyN d s)
  end.
(* 37-49 AddSpline, 22-35 ReadFile *)
Definition read_xml (doc : list xml_entry) : Res (list (any (spline F))) :=
  foldM (fun acc e =>
    points <- xml_get_points e ;;
    d <- stoi (xe_spl_dim e) ;;
    if (1 <=? d) && (d <=? 4) then s <- xml_get_spline d e points ;; Ok (acc ++ [s]) else Ok acc) doc [].
End Xml.
