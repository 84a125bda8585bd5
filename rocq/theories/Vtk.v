(* Model of src/io/vtk_writer.cc and vtk_writer_utils.h: the numbers handed to the output stream.  The
   fixed header lines and the decimal rendering of the numbers are not modelled, nor is a file that
   cannot be opened (nothing is written then).  What is already in the file when an exception is
   thrown is not modelled.  int arithmetic is unbounded. *)
From Coq Require Import ZArith List Bool.
From Verif Require Import Base MultiIndex KnotVec Basis VecUtils Spaces SplineEval Convert.
Import ListNotations.
Open Scope Z_scope.

(* the numbers in the file, section by section *)
Record vtk_file (F : NumOps) := mkVtk {
  vf_npoints : Z; vf_rows : list (list F);
  vf_ncells : Z; vf_nentries : Z; vf_cells : list (list Z);
  vf_ntypes : Z; vf_types : list Z
}.
Arguments mkVtk {F}. Arguments vf_npoints {F}. Arguments vf_rows {F}. Arguments vf_ncells {F}.
Arguments vf_nentries {F}. Arguments vf_cells {F}. Arguments vf_ntypes {F}. Arguments vf_types {F}.

(* vtk_writer_utils.h:37-43 NumberOfCells *)
Definition number_of_cells (scattering : list Z) : Z := fold_left Z.mul scattering 1.

(* vtk_writer.cc:133-137 Write1DCells *)
Definition cells_1d (scattering offset : Z) : list (list Z) :=
  map (fun i => [2; i + offset; i + 1 + offset]) (zseq 0 (Z.to_nat scattering)).

(* vtk_writer.cc:139-152 Write2DCells: operator+ and operator- of the handler change it *)
Definition quad_step (s0 s1 offset : Z) (st : mih * list (list Z)) : Res (mih * list (list Z)) :=
  let (h, cells) := st in
  i0 <- vget (mcur h) 0 ;; i1 <- vget (mcur h) 1 ;;
  if negb (i0 =? s0) && negb (i1 =? s1) then
    let h1 := mih_plus h 1 in
    let h2 := mih_plus (mih_plus h1 s0) 1 in
    let h3 := mih_minus h2 1 in
    let h4 := mih_minus h3 (s0 + 1) in
    Ok (h4, cells ++ [[4; mih_get1d h + offset; mih_get1d h1 + offset; mih_get1d h2 + offset; mih_get1d h3 + offset]])
  else Ok (h, cells).
Definition cells_2d (s0 s1 offset : Z) : Res (list (list Z)) :=
  st <- for_up 0 s1 (fun _ st =>
          for_up 0 (s0 + 1) (fun _ st => st' <- quad_step s0 s1 offset st ;; Ok (mih_incr (fst st'), snd st')) st)
          (mih_new [s0 + 1; s1 + 1], []) ;;
  Ok (snd st).

(* vtk_writer.cc:154-169 Write3DCells; the loop runs while Get1DIndex() < Get1DLength() - 1,
   [fuel] bounds the number of rounds (UB stands for a loop that goes on) *)
Definition hexa_step (s0 s1 s2 offset : Z) (st : mih * list (list Z)) : Res (mih * list (list Z)) :=
  let (h, cells) := st in
  i0 <- vget (mcur h) 0 ;; i1 <- vget (mcur h) 1 ;; i2 <- vget (mcur h) 2 ;;
  if negb (i0 =? s0) && negb (i1 =? s1) && negb (i2 =? s2) then
    let h1 := mih_plus h 1 in
    let h2 := mih_plus (mih_plus h1 s0) 1 in
    let h3 := mih_minus h2 1 in
    let h4 := mih_plus h3 (s1 * (s0 + 1)) in
    let h5 := mih_plus h4 1 in
    let h6 := mih_plus (mih_plus h5 s0) 1 in
    let h7 := mih_minus h6 1 in
    let h8 := mih_minus h7 ((s0 + 1) * (s1 + 2)) in
    Ok (h8, cells ++ [[8; mih_get1d h + offset; mih_get1d h1 + offset; mih_get1d h2 + offset; mih_get1d h3 + offset;
                       mih_get1d h4 + offset; mih_get1d h5 + offset; mih_get1d h6 + offset; mih_get1d h7 + offset]])
  else Ok (h, cells).
Fixpoint hexa_loop (fuel : nat) (s0 s1 s2 offset : Z) (st : mih * list (list Z)) : Res (mih * list (list Z)) :=
  match fuel with
  | O => UB
  | S f => if mih_get1d (fst st) <? mih_length (fst st) - 1
           then st' <- hexa_step s0 s1 s2 offset st ;; hexa_loop f s0 s1 s2 offset (mih_incr (fst st'), snd st')
           else Ok st
  end.
Definition cells_3d (s0 s1 s2 offset : Z) : Res (list (list Z)) :=
  let h := mih_new [s0 + 1; s1 + 1; s2 + 1] in
  st <- hexa_loop (S (Z.to_nat (mih_length h))) s0 s1 s2 offset (h, []) ;; Ok (snd st).

(* vtk_writer.cc:113-121 AddCells *)
Definition add_cells (scattering : list Z) (offset d : Z) : Res (list (list Z)) :=
  if d =? 1 then s0 <- vget scattering 0 ;; Ok (cells_1d s0 offset)
  else if d =? 2 then s0 <- vget scattering 0 ;; s1 <- vget scattering 1 ;; cells_2d s0 s1 offset
  else if d =? 3 then s0 <- vget scattering 0 ;; s1 <- vget scattering 1 ;; s2 <- vget scattering 2 ;; cells_3d s0 s1 s2 offset
  else Ok [].

(* vtk_writer.cc:123-131 AddCellTypes, vtk_writer_utils.h:67-71 WriteCellTypes *)
Definition cell_types (scattering : list Z) (cell_type : Z) : list Z :=
  repeat cell_type (Z.to_nat (number_of_cells scattering)).
Definition add_cell_types (scattering : list Z) (d : Z) : Res (list Z) :=
  if d =? 1 then s0 <- vget scattering 0 ;; Ok (cell_types [s0] 3)
  else if d =? 2 then s0 <- vget scattering 0 ;; s1 <- vget scattering 1 ;; Ok (cell_types [s0; s1] 9)
  else if d =? 3 then s0 <- vget scattering 0 ;; s1 <- vget scattering 1 ;; s2 <- vget scattering 2 ;;
    Ok (cell_types [s0; s1; s2] 12)
  else Ok [].

(* vtk_writer.cc:68-77 GetNumberOfAllPoints and 79-88 GetNumberOfAllCells, one spline *)
Definition count_points (d : Z) (sc : list Z) : Res Z :=
  s0 <- vget sc 0 ;;
  if d =? 1 then Ok (number_of_cells [s0 + 1])
  else s1 <- vget sc 1 ;;
    if d =? 2 then Ok (number_of_cells [s0 + 1; s1 + 1])
    else s2 <- vget sc 2 ;; Ok (number_of_cells [s0 + 1; s1 + 1; s2 + 1]).
Definition count_cells (d : Z) (sc : list Z) : Res Z :=
  s0 <- vget sc 0 ;;
  if d =? 1 then Ok (number_of_cells [s0])
  else s1 <- vget sc 1 ;;
    if d =? 2 then Ok (number_of_cells [s0; s1])
    else s2 <- vget sc 2 ;; Ok (number_of_cells [s0; s1; s2]).
(* for (auto i = 0u; i < dimensions.size(); ++i) result[i] = f(dimensions[i], scattering[i]) *)
Definition count_all (f : Z -> list Z -> Res Z) (dims : list Z) (scattering : list (list Z)) : Res (list Z) :=
  mapM (fun i => d <- vget dims i ;; sc <- vget scattering i ;; f d sc) (zseq 0 (length dims)).

(* vtk_writer.cc:90-96 GetNumberOfCellEntries *)
Definition count_entries (dims cells : list Z) : Res Z :=
  for_up 0 (zlen dims) (fun i sum =>
    d <- vget dims i ;; c <- vget cells i ;;
    Ok (sum + c * (if d =? 1 then 3 else if d =? 2 then 5 else 9))) 0.

(* vtk_writer.cc:56-66 ThrowIfScatteringHasWrongSizes *)
Definition check_scattering (scattering : list (list Z)) (dims : list Z) : Res unit :=
  if negb (zlen scattering =? zlen dims) then Throw RuntimeError
  else for_up 0 (zlen dims) (fun i _ =>
         sc <- vget scattering i ;; d <- vget dims i ;;
         if negb (zlen sc =? d) then Throw RuntimeError else Ok tt) tt.

Section Writer.
Context {F : NumOps}.

(* vtk_writer_utils.h:28-35 GetEdgeKnots *)
Definition edge_knots (d : Z) (s : spline F) : Res (list F) :=
  mapM (fun i => if i <? d then kv <- sp_knots s (Z.to_nat i) ;; get_knot kv 0
                 else kv <- sp_knots s (Z.to_nat (i - d)) ;; last_knot kv) (zseq 0 (Z.to_nat (2 * d))).

(* vtk_writer_utils.h:45-50 GetPointHandlerLength and 52-65 WritePoints *)
Definition write_points (d : Z) (spl : any (spline F)) (sc : list Z) : Res (list (list F)) :=
  s <- get_spline d spl ;;
  knots <- edge_knots d s ;;
  mih_loop (map (fun n => n + 1) sc) (fun h rows =>
    coords <- mapM (fun j => a <- vget knots j ;; i <- vget (mcur h) j ;; b <- vget knots (j + d) ;; n <- vget sc j ;;
                             Ok (a + nofZ i * (b - a) / nofZ n)%num) (zseq 0 (Z.to_nat d)) ;;
    row <- mapM (fun k => if k <? sp_pdim s then v <- evaluate s coords [k] ;; vget v 0 else Ok n0) [0; 1; 2] ;;
    Ok (rows ++ [row])) [].

(* vtk_writer.cc:98-111 AddPoints *)
Definition add_points (spl : any (spline F)) (sc : list Z) (d : Z) : Res (list (list F)) :=
  if d =? 1 then s0 <- vget sc 0 ;; write_points 1 spl [s0]
  else if d =? 2 then s0 <- vget sc 0 ;; s1 <- vget sc 1 ;; write_points 2 spl [s0; s1]
  else if d =? 3 then s0 <- vget sc 0 ;; s1 <- vget sc 1 ;; s2 <- vget sc 2 ;; write_points 3 spl [s0; s1; s2]
  else Throw RuntimeError.

(* vtk_writer.cc:20-46 WriteFile and 48-54 GetSplineDimensions *)
Definition write_vtk (splines : list (any (spline F))) (scattering : list (list Z)) : Res (vtk_file F) :=
  dims <- mapM get_dimension splines ;;
  _ <- check_scattering scattering dims ;;
  cells <- count_all count_cells dims scattering ;;
  points <- count_all count_points dims scattering ;;
  rows <- for_up 0 (zlen splines) (fun i acc =>
            spl <- vget splines i ;; sc <- vget scattering i ;; d <- vget dims i ;;
            r <- add_points spl sc d ;; Ok (acc ++ r)) [] ;;
  entries <- count_entries dims cells ;;
  cell_list <- for_up 0 (zlen splines) (fun i acc =>
                 sc <- vget scattering i ;; d <- vget dims i ;;
                 r <- add_cells sc (fold_left Z.add (firstn (Z.to_nat i) points) 0) d ;; Ok (acc ++ r)) [] ;;
  types <- for_up 0 (zlen splines) (fun i acc =>
             sc <- vget scattering i ;; d <- vget dims i ;; r <- add_cell_types sc d ;; Ok (acc ++ r)) [] ;;
  Ok (mkVtk (fold_left Z.add points 0) rows (fold_left Z.add cells 0) entries cell_list
            (fold_left Z.add cells 0) types).
End Writer.
