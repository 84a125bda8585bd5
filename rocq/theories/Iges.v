(* Model of src/io/iges_writer.cc and src/io/iges_reader.cc.
   The file is its text; opening files is not modelled, nor what is already in a file when an exception
   is thrown.  [fmt] is ostream << double with precision 18, [trunc] the conversion of a double to an
   integer.  int arithmetic is unbounded.  The clock is read twice: [time1], [time2] are the results of
   GetTime (iges_writer.cc:301-306) for its two calls, whose order C++ does not fix. *)
From Coq Require Import ZArith Ascii String List Bool.
From Verif Require Import Base MultiIndex KnotVec Spaces SplineEval Convert StrOps Format.
Import ListNotations.
Open Scope Z_scope.

(* iges_writer.cc:270-272 GetBlock: the size of the filling is a size_t, so a negative one is too long *)
Definition get_block (s : str) (width : Z) (right : bool) : Res str :=
  if width <? zlen s then Throw LengthError
  else let fill := repeat " "%char (Z.to_nat (width - zlen s)) in
       Ok (if right then fill ++ s else s ++ fill).
(* 274-280 GetString of an integer, right aligned *)
Definition num_block (n width : Z) : Res str := get_block (int_str n) width true.
(* 266-268 GetHollerithFormat *)
Definition hollerith (s : str) : str := int_str (zlen s) ++ of_string "H" ++ s.
(* 301-306 GetTime: the arguments are the members of struct tm *)
Definition iges_time (year mon mday hour min sec : Z) : str :=
  hollerith (int_str ((year + 1900) * 10000 + (mon + 1) * 100 + mday) ++ of_string "." ++ int_str (hour * 10000 + min * 100 + sec)).
(* 258-264 AddToContents *)
Definition add_all (ts : list str) (delimiter : str) : str := flat_map (fun t => t ++ delimiter) ts.
(* 85-93, 110-120, 219-226: the contents in lines of the given width, each followed by a tail made from
   the number of the line *)
Definition layout (width : Z) (tail : Z -> Res str) (contents : str) (line : Z) : Res (list str) :=
  mapM (fun i => c <- substr contents (i * width) width ;; b <- get_block c width false ;;
                 t <- tail (line + i + 1) ;; Ok (b ++ t))
       (zseq 0 (Z.to_nat (u64 (zlen contents - 1) / width + 1))).
(* 'G', 'D' and the number of the line; entity position, 'P' and the number of the line *)
Definition tail_of (c : ascii) (line : Z) : Res str := n <- num_block line 7 ;; Ok (c :: n).
Definition tail_p (entity line : Z) : Res str :=
  e <- num_block entity 7 ;; n <- num_block line 7 ;; Ok (" "%char :: e ++ "P"%char :: n).

Section Iges.
Context {F : NumOps} (fmt : F -> str) (trunc : F -> Z).

(* 59-61 GetStartSection *)
Definition iges_start : Res (list str) :=
  b <- get_block (of_string "IGES file generated by SplineLib") 72 false ;; t <- tail_of "S" 1 ;; Ok [b ++ t].
(* 234-242 GetDimension *)
Definition iges_dimension (spl : any (spline F)) : Res Z :=
  d <- get_dimension spl ;; if d =? 1 then Ok 126 else if d =? 2 then Ok 128 else Throw RuntimeError.
(* 244-256 IsRational *)
Definition iges_rational (spl : any (spline F)) : bool :=
  match spl with AnyN d _ => (d =? 1) || (d =? 2) | _ => false end.
(* 308-340 GetHighestValue *)
Definition iges_highest (splines : list (any (spline F))) : Res F :=
  foldM (fun h spl =>
    e <- iges_dimension spl ;;
    s <- get_spline (if e =? 126 then 1 else 2) spl ;;
    Ok (if (h <? expansion (sp_ph s))%num then expansion (sp_ph s) else h)) splines n0.
(* 63-83 GetGlobalSection; the numbers are the limits of int, float and double *)
Definition iges_global (filename time1 time2 : str) (splines : list (any (spline F))) : Res (list str) :=
  high <- iges_highest splines ;;
  let contents := add_all
    [hollerith (of_string ","); hollerith (of_string ";"); hollerith (of_string "unknown"); filename;
     hollerith (of_string "SplineLib"); hollerith (of_string "pre_release");
     int_str 31; int_str 128; int_str 24; int_str 1024; int_str 53; hollerith (of_string "unknown");
     fmt n1; int_str 2; hollerith (of_string "MM"); int_str 1; fmt (n1 / nofZ 1000)%num;
     hollerith time1; fmt (n1 / nofZ 1000000)%num; fmt high;
     hollerith (of_string "unknown"); hollerith (of_string "unknown"); int_str 11; int_str 0; hollerith time2]
    (of_string ",") ++ of_string ";" in
  layout 72 (tail_of "G") contents 0.

(* 195-201 Get3DControlPoint: {index} leaves the other indices 0 *)
Definition iges_coordinate (d : Z) (s : spline F) (i j : Z) : Res F :=
  if j <? sp_pdim s then cp_value s (i :: repeat 0 (Z.to_nat (d - 1))) j else Ok n0.
(* 122-154 GetParameterData1D, 156-193 GetParameterData2D *)
Definition iges_parameters (d : Z) (spl : any (spline F)) : Res str :=
  s <- get_spline d spl ;;
  sizes <- mapM (fun i => kv <- sp_knots s (Z.to_nat i) ;; q <- sp_deg s (Z.to_nat i) ;; Ok (int_str (u64 (zlen kv - q - 2))))
                (zseq 0 (Z.to_nat d)) ;;
  degs <- mapM (fun i => q <- sp_deg s (Z.to_nat i) ;; Ok (int_str q)) (zseq 0 (Z.to_nat d)) ;;
  let flag := int_str (if iges_rational spl then 0 else 1) in
  let header := if d =? 1 then [int_str 126] ++ sizes ++ degs ++ [int_str 0; int_str 0; flag; int_str 0]
                else [int_str 128] ++ sizes ++ degs ++ [int_str 0; int_str 0; flag; int_str 0; int_str 0] in
  knots <- concatM (fun i => kv <- sp_knots s (Z.to_nat i) ;; Ok (flat_map (fun x => fmt x ++ of_string ",") kv))
                   (zseq 0 (Z.to_nat d)) ;;
  n <- num_control_points (sp_ph s) ;;
  weights <- concatM (fun i => w <- get_weight (sp_ph s) (i :: repeat 0 (Z.to_nat (d - 1))) ;; Ok (fmt w ++ of_string ","))
                     (zseq 0 (Z.to_nat n)) ;;
  points <- concatM (fun i => concatM (fun j =>
              x <- iges_coordinate d s i j ;;
              Ok (fmt x ++ (if negb (i =? n - 1) || negb (j =? 2) then of_string "," else []))) (zseq 0 3))
                    (zseq 0 (Z.to_nat n)) ;;
  Ok (add_all header (of_string ",") ++ knots ++ weights ++ points).
(* 95-108 GetParameterData *)
Definition iges_data (spl : any (spline F)) (entity line : Z) : Res (list str) :=
  e <- iges_dimension spl ;;
  t <- iges_parameters (if e =? 126 then 1 else 2) spl ;;
  layout 64 (tail_p entity) (t ++ of_string ";") line.
(* 203-217 GetDataEntry *)
Definition iges_entry (start len : Z) (spl : any (spline F)) (line : Z) : Res (list str) :=
  e <- iges_dimension spl ;;
  fields <- mapM (fun n => num_block n 8) [e; start; 0; 0; 0; 0; 0; 0] ;;
  fields' <- mapM (fun n => num_block n 8) [e; 0; 0; len; 0] ;;
  b <- get_block [] 16 true ;;
  label <- get_block (of_string "SPLINE") 8 true ;;
  z <- num_block 0 8 ;;
  layout 72 (tail_of "D") (concat (fields ++ [of_string " 0 0 0 1"] ++ fields' ++ [b; label; z])) line.
(* 228-232 GetTerminateSection *)
Definition iges_terminate (s g d p : Z) : Res (list str) :=
  ns <- num_block s 7 ;; ng <- num_block g 7 ;; nd <- num_block d 7 ;; np <- num_block p 7 ;;
  t <- get_block (of_string "T") 41 true ;; n <- num_block 1 7 ;;
  Ok [of_string "S" ++ ns ++ of_string "G" ++ ng ++ of_string "D" ++ nd ++ of_string "P" ++ np ++ t ++ n].
(* 37-49: the two sections; the numbers of their lines so far are the sizes of the sections *)
Definition iges_sections (splines : list (any (spline F))) : Res (list str * list str * Z) :=
  foldM (fun st spl =>
    let '(dir, par, entity) := st in
    p <- iges_data spl entity (zlen par) ;;
    e <- iges_entry (zlen par + 1) (zlen p) spl (zlen dir) ;;
    Ok (dir ++ e, par ++ p, entity + 2)) splines ([], [], 1).
(* 25-57, 282-299 WriteFile, AppendToFile *)
Definition write_iges (filename time1 time2 : str) (splines : list (any (spline F))) : Res str :=
  start <- iges_start ;;
  global <- iges_global filename time1 time2 splines ;;
  st <- iges_sections splines ;;
  let '(dir, par, _) := st in
  terminate <- iges_terminate (zlen start) (zlen global) (zlen dir) (zlen par) ;;
  Ok (flat_map (fun l => l ++ [newline]) (start ++ global ++ dir ++ par ++ terminate)).

(* iges_reader.cc:74-77 and the like: the numbers at positions a to b *)
Definition slice (data : list F) (a b : Z) : Res (list F) :=
  mapM (fun i => vget data i) (zseq a (Z.to_nat (b + 1 - a))).
(* 86-90, 140-144: points of three coordinates while i < bound *)
Definition triples (coords : list F) (bound : Z) : Res (list (list F)) :=
  mapM (fun k => slice coords (3 * k) (3 * k + 2)) (zseq 0 (Z.to_nat ((bound + 2) / 3))).
(* 58-101 Create1DSpline *)
Definition iges_create1 (data : list F) : Res (any (spline F)) :=
  x <- vget data 1 ;; upper <- to_int trunc x ;;
  y <- vget data 2 ;; q <- to_int trunc y ;;
  let k1 := 7 + upper + q + 1 in
  let w0 := k1 + 1 in
  let w1 := w0 + upper in
  let c0 := w1 + 1 in
  let c1 := c0 + 3 * upper + 2 in
  knots <- slice data 7 k1 ;;
  weights <- slice data w0 w1 ;;
  coords <- slice data c0 c1 ;;
  points <- triples coords (zlen coords) ;;
  flag <- vget data 5 ;;
  if (flag =? n1)%num then s <- spline_new [knots] [q] points None ;; Ok (AnyB 1 s)
  else s <- spline_new [knots] [q] points (Some weights) ;; Ok (AnyN 1 s).
(* 103-155 Create2DSpline *)
Definition iges_create2 (data : list F) : Res (any (spline F)) :=
  x0 <- vget data 1 ;; u0 <- to_int trunc x0 ;; x1 <- vget data 2 ;; u1 <- to_int trunc x1 ;;
  y0 <- vget data 3 ;; q0 <- to_int trunc y0 ;; y1 <- vget data 4 ;; q1 <- to_int trunc y1 ;;
  let k01 := 10 + u0 + q0 + 1 in
  let k10 := k01 + 1 in
  let k11 := k10 + u1 + q1 + 1 in
  let w0 := k11 + 1 in
  let w1 := w0 - 1 + (1 + u0) * (1 + u1) in
  let c0 := w1 + 1 in
  let c1 := c0 - 1 + 3 * (1 + u0) * (1 + u1) + 2 in
  knots0 <- slice data 10 k01 ;;
  knots1 <- slice data k10 k11 ;;
  weights <- slice data w0 w1 ;;
  coords <- slice data c0 c1 ;;
  points <- triples coords (u64 (zlen coords - 2)) ;;
  flag <- vget data 7 ;;
  if (flag =? n1)%num then s <- spline_new [knots0; knots1] [q0; q1] points None ;; Ok (AnyB 2 s)
  else s <- spline_new [knots0; knots1] [q0; q1] points (Some weights) ;; Ok (AnyN 2 s).

(* 157-166 GetParameterSectionStartEndPointers *)
Definition iges_pointers (dir : list str) (i : Z) : Res (Z * Z) :=
  l0 <- vget dir (i * 2) ;; s0 <- substr l0 8 8 ;;
  l1 <- vget dir (i * 2 + 1) ;; s1 <- substr l1 24 8 ;;
  a <- stoi (trim (trim s0)) ;; n <- stoi (trim (trim s1)) ;; Ok (a, a + n - 1).
(* 168-177 ParameterSectionToVector *)
Definition iges_vector (par : list str) (ptr : Z * Z) : Res (list F) :=
  t <- concatM (fun i => vget par i) (zseq (fst ptr - 1) (Z.to_nat (snd ptr - fst ptr + 1))) ;;
  delimited_to_vector t.
(* 34-41: the directory entry section and the parameter data section *)
Definition iges_lines (text : str) : Res (list str * list str) :=
  foldM (fun st line =>
    c <- char_at line 72 ;;
    if Ascii.eqb c "D" then l <- substr line 0 72 ;; Ok (fst st ++ [l], snd st)
    else if Ascii.eqb c "P" then l <- substr line 0 64 ;; Ok (fst st, snd st ++ [l])
    else Ok st) (getlines (List.length text) newline text) ([], []).
(* 25-56 ReadFile; the loop runs while i < size * 0.5 *)
Definition read_iges (text : str) : Res (list (any (spline F))) :=
  st <- iges_lines text ;;
  let '(dir, par) := st in
  for_up 0 ((zlen dir + 1) / 2) (fun i acc =>
    l <- vget dir (i * 2) ;; t <- substr l 5 3 ;; type <- stoi (trim t) ;;
    if (type =? 126) || (type =? 128) then
      ptr <- iges_pointers dir i ;; data <- iges_vector par ptr ;;
      s <- (if type =? 126 then iges_create1 data else iges_create2 data) ;; Ok (acc ++ [s])
    else Ok acc) [].
End Iges.
