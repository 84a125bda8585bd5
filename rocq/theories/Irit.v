(* Model of src/io/irit_writer.cc, irit_writer_utils.h, irit_reader.cc and irit_reader_utils.h.
   The file is its text; opening files is not modelled, nor what is already in a file when an exception
   is thrown.  [fmt] is std::to_string(double), [trunc] the conversion of a double to an integer.  int
   arithmetic is unbounded, the text has less than 2^31 entries. *)
From Coq Require Import ZArith Ascii String List Bool.
From Verif Require Import Base MultiIndex KnotVec Spaces SplineEval Convert StrOps Format.
Import ListNotations.
Open Scope Z_scope.

Definition nl : str := [newline].
Definition blank : ascii := " "%char.
Definition bracket_open : str := of_string "[".
Definition bracket_close : str := of_string "]".
Definition str_eqb (a b : str) : bool := (zlen a =? zlen b) && is_prefix a b.

Section Irit.
Context {F : NumOps} (fmt : F -> str) (trunc : F -> Z).

(* irit_writer_utils.h:28-35 GetNumberOfControlPoints *)
Definition irit_sizes (s : spline F) : str := flat_map (fun n => int_str n ++ of_string " ") (ph_npts (sp_ph s)).
(* irit_writer_utils.h:37-43 GetOrder *)
Definition irit_orders (d : Z) (s : spline F) : Res str :=
  concatM (fun i => q <- sp_deg s (Z.to_nat i) ;; Ok (int_str (q + 1) ++ of_string " ")) (zseq 0 (Z.to_nat d)).
(* irit_writer_utils.h:45-56 GetKnotVectors *)
Definition irit_knots (d : Z) (s : spline F) : Res str :=
  concatM (fun i =>
    kv <- sp_knots s (Z.to_nat i) ;;
    t <- concatM (fun k => x <- get_knot kv k ;;
                           Ok (fmt x ++ (if k <? zlen kv - 1 then of_string " " else of_string "]" ++ nl)))
                 (zseq 0 (length kv)) ;;
    Ok (of_string "      [KV " ++ t)) (zseq 0 (Z.to_nat d)).
(* irit_writer_utils.h:58-75 GetControlPoints *)
Definition irit_points (rational : bool) (s : spline F) : Res str :=
  mih_loop (ph_npts (sp_ph s)) (fun h text =>
    head <- (if rational then w <- get_weight (sp_ph s) (mcur h) ;; Ok (fmt w ++ of_string " ") else Ok []) ;;
    row <- concatM (fun j =>
             x <- cp_value s (mcur h) j ;;
             w <- (if rational then get_weight (sp_ph s) (mcur h) else Ok n1) ;;
             Ok (fmt (x * w)%num ++ (if j <? sp_pdim s - 1 then of_string " " else of_string "]" ++ nl)))
           (zseq 0 (Z.to_nat (sp_pdim s))) ;;
    Ok (text ++ of_string "      [" ++ head ++ row)) [].

(* irit_writer.cc:82-84 GetPointType *)
Definition irit_point_type (rational : bool) (dim : Z) : str :=
  (if rational then of_string "P" else of_string "E") ++ int_str dim.
(* irit_writer.cc:55-80 Write1DSpline, Write2DSpline, Write3DSpline *)
Definition irit_kind (d : Z) : str :=
  if d =? 1 then of_string "[CURVE" else if d =? 2 then of_string "[SURFACE" else of_string "[TRIVAR".
Definition irit_body (d : Z) (spl : any (spline F)) : Res str :=
  s <- get_spline d spl ;;
  rational <- is_rational d spl ;;
  orders <- irit_orders d s ;;
  knots <- irit_knots d s ;;
  points <- irit_points rational s ;;
  Ok (irit_kind d ++ of_string " BSPLINE " ++ irit_sizes s ++ orders ++ irit_point_type rational (sp_pdim s) ++ nl
      ++ knots ++ points).
(* irit_writer.cc:40-53 AddSpline *)
Definition irit_spline (spl : any (spline F)) (number : Z) : Res str :=
  d <- get_dimension spl ;;
  body <- (if (d =? 1) || (d =? 2) || (d =? 3) then irit_body d spl else Throw RuntimeError) ;;
  Ok (of_string "  [OBJECT SPLINE" ++ int_str (number + 1) ++ nl ++ of_string "    " ++ body
      ++ of_string "    ]" ++ nl ++ of_string "  ]" ++ nl).
(* irit_writer.cc:24-38 WriteFile *)
Definition write_irit (splines : list (any (spline F))) : Res str :=
  text <- concatM (fun i => spl <- vget splines i ;; t <- irit_spline spl i ;;
                            Ok (t ++ (if i <? zlen splines - 1 then nl else [])))
                  (zseq 0 (length splines)) ;;
  Ok (of_string "[OBJECT SPLINES" ++ nl ++ text ++ of_string "]").

(* irit_reader.cc:49-57 GetSplinePositions *)
Definition irit_positions (entries : list str) : Res (list Z) :=
  for_up 0 (zlen entries) (fun i acc =>
    e <- vget entries i ;; Ok (if str_eqb e (of_string "BSPLINE") then acc ++ [i - 1] else acc)) [].
(* irit_reader.cc:59-61 GetDimension *)
Definition irit_dimension (type : str) : Z :=
  if str_eqb type (of_string "[CURVE") then 1
  else if str_eqb type (of_string "[SURFACE") then 2
  else if str_eqb type (of_string "[TRIVAR") then 3 else 0.

(* the loops below look at one entry per round and leave the vector (undefined behaviour) after
   S (length entries) rounds at the latest *)
(* irit_reader_utils.h:42 *)
Fixpoint skip_to_knots (fuel : nat) (entries : list str) (start : Z) : Res Z :=
  match fuel with
  | O => UB
  | S f => e <- vget entries start ;;
           if starts_with e (of_string "[KV") then Ok (start + 1) else skip_to_knots f entries (start + 1)
  end.
(* irit_reader_utils.h:44-46 *)
Fixpoint read_knots (fuel : nat) (entries : list str) (start : Z) (knots : list F) : Res (Z * list F) :=
  match fuel with
  | O => UB
  | S f => e <- vget entries start ;;
           if starts_with e bracket_open then Ok (start, knots)
           else x <- string_to_double (trim e) ;; read_knots f entries (start + 1) (knots ++ [x])
  end.
(* irit_reader_utils.h:38-50 GetKnotVectors *)
Definition irit_get_knots (d start : Z) (entries : list str) : Res (list (list F)) :=
  st <- for_up 0 d (fun _ st =>
          p <- skip_to_knots (S (length entries)) entries (fst st) ;;
          r <- read_knots (S (length entries)) entries p [] ;;
          Ok (fst r, snd st ++ [snd r])) (start, []) ;;
  Ok (snd st).
(* irit_reader_utils.h:28-36 GetDegrees *)
Definition irit_get_degrees (d start : Z) (entries : list str) : Res (list Z) :=
  mapM (fun i => e <- vget entries (start + d + 2 + i) ;; x <- string_to_double e ;; z <- to_int trunc x ;; Ok (z - 1))
       (zseq 0 (Z.to_nat d)).
(* irit_reader_utils.h:52-55 IsRational *)
Definition irit_is_rational (d start : Z) (entries : list str) : Res bool :=
  e <- vget entries (start + 2 * d + 2) ;; Ok (starts_with e (of_string "P")).

(* irit_reader.cc:105-111 GetNumberOfControlPoints *)
Definition irit_number (start : Z) (entries : list str) : Res Z :=
  e <- vget entries start ;;
  for_up 0 (irit_dimension e) (fun i n =>
    e <- vget entries (start + 2 + i) ;; x <- string_to_double e ;; z <- to_int trunc x ;; Ok (n * z)) 1.
(* irit_reader.cc:151-158 GetPositionOfFirstControlPoint *)
Fixpoint first_point_loop (fuel : nat) (entries : list str) (start : Z) : Res Z :=
  match fuel with
  | O => UB
  | S f => e <- vget entries start ;;
           if negb (starts_with e bracket_open) || starts_with e (of_string "[KV")
           then first_point_loop f entries (start + 1) else Ok start
  end.
Definition irit_first_point (start : Z) (entries : list str) : Res Z :=
  first_point_loop (S (length entries)) entries (start + 1).
(* irit_reader.cc:121-127: the coordinates of one control point, each divided by w *)
Fixpoint read_row (fuel : nat) (entries : list str) (start : Z) (w : F) (row : list F) : Res (Z * list F) :=
  match fuel with
  | O => UB
  | S f => e <- vget entries start ;;
           x <- string_to_double (trim e) ;;
           if ends_with e bracket_close then Ok (start + 1, row ++ [(x / w)%num])
           else read_row f entries (start + 1) w (row ++ [(x / w)%num])
  end.
(* irit_reader.cc:113-134 GetControlPoints *)
Definition irit_get_points (start : Z) (entries : list str) (rational : bool) (weights : list F) : Res (list (list F)) :=
  n <- irit_number start entries ;;
  p <- irit_first_point start entries ;;
  st <- for_up 0 n (fun i st =>
          w <- vget weights i ;;
          r <- read_row (S (length entries)) entries (fst st) w [] ;;
          Ok (fst r, snd st ++ [if rational then skipn 1 (snd r) else snd r])) (p, []) ;;
  Ok (snd st).
(* irit_reader.cc:145: while (!EndsWith(entries[start++], "]")) {} *)
Fixpoint skip_row (fuel : nat) (entries : list str) (start : Z) : Res Z :=
  match fuel with
  | O => UB
  | S f => e <- vget entries start ;;
           if ends_with e bracket_close then Ok (start + 1) else skip_row f entries (start + 1)
  end.
(* irit_reader.cc:136-149 GetWeights *)
Definition irit_get_weights (start : Z) (entries : list str) (rational : bool) : Res (list F) :=
  n <- irit_number start entries ;;
  weights <- vmake n n1 ;;
  if rational then
    p <- irit_first_point start entries ;;
    st <- for_up 0 n (fun i st =>
            e <- vget entries (fst st) ;; x <- string_to_double (trim e) ;;
            ws <- vset (snd st) i x ;;
            p' <- skip_row (S (length entries)) entries (fst st + 1) ;;
            Ok (p', ws)) (p, weights) ;;
    Ok (snd st)
  else Ok weights.

(* irit_reader.cc:63-103 Get1DSpline, Get2DSpline, Get3DSpline *)
Definition irit_get_spline (d start : Z) (entries : list str) : Res (any (spline F)) :=
  knots <- irit_get_knots d start entries ;;
  degrees <- irit_get_degrees d start entries ;;
  rational <- irit_is_rational d start entries ;;
  weights <- irit_get_weights start entries rational ;;
  points <- irit_get_points start entries rational weights ;;
  if rational then s <- spline_new knots degrees points (Some weights) ;; Ok (AnyN d s)
  else s <- spline_new knots degrees points None ;; Ok (AnyB d s).

(* irit_reader.cc:23-47 ReadFile: line ends are dropped, entries are separated by blanks *)
Definition read_irit (text : str) : Res (list (any (spline F))) :=
  let entries := split (concat (getlines (length text) newline text)) blank in
  positions <- irit_positions entries ;;
  foldM (fun acc p =>
    e <- vget entries p ;;
    let d := irit_dimension e in
    if (d =? 1) || (d =? 2) || (d =? 3) then s <- irit_get_spline d p entries ;; Ok (acc ++ [s]) else Ok acc) positions [].
End Irit.
