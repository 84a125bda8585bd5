(* Model of src/util/any_casts.h and src/io/io_converter.cc without the readers and writers. *)
From Coq Require Import ZArith List Bool Ascii String.
From Verif Require Import Base VecUtils StrOps.
Import ListNotations.
Open Scope Z_scope.

(* std::any holding a shared pointer to BSpline<d>, to NURBS<d>, or something else.  A is the type of
   the objects pointed to. *)
Inductive any (A : Type) := AnyB (d : Z) (a : A) | AnyN (d : Z) (a : A) | AnyOther.
Arguments AnyB {A}. Arguments AnyN {A}. Arguments AnyOther {A}.

Section Any.
Context {A : Type}.
(* any_casts.h:27-38 GetSpline<d> *)
Definition get_spline (d : Z) (s : any A) : Res A :=
  match s with
  | AnyB e a | AnyN e a => if e =? d then Ok a else Throw RuntimeError
  | AnyOther => Throw RuntimeError
  end.
(* any_casts.h:40-63 GetSplineDimension *)
Definition catch_runtime {B} (m : Res B) (handler : Res B) : Res B :=
  match m with Throw RuntimeError => handler | _ => m end.
Definition get_dimension (s : any A) : Res Z :=
  catch_runtime (_ <- get_spline 1 s ;; Ok 1)
  (catch_runtime (_ <- get_spline 2 s ;; Ok 2)
  (catch_runtime (_ <- get_spline 3 s ;; Ok 3)
  (catch_runtime (_ <- get_spline 4 s ;; Ok 4)
  (Throw RuntimeError)))).
(* any_casts.h:65-78 IsRational<d> *)
Definition is_rational (d : Z) (s : any A) : Res bool :=
  match s with
  | AnyN e _ => if e =? d then Ok true else Throw RuntimeError
  | AnyB e _ => if e =? d then Ok false else Throw RuntimeError
  | AnyOther => Throw RuntimeError
  end.
End Any.

(* io_converter.h:44 file_format; io_converter.cc:41-55 GetFileFormat *)
Inductive format := FError | FIges | FIrit | FVtk | FXml.
Definition get_format (filename : str) : format :=
  if ends_with filename (of_string ".iges") then FIges
  else if ends_with filename (of_string ".itd") then FIrit
  else if ends_with filename (of_string ".vtk") then FVtk
  else if ends_with filename (of_string ".xml") then FXml
  else FError.

(* 57-68 GetReader: the reader of the format *)
Definition get_reader (f : format) : Res format :=
  match f with FIges => Ok FIges | FIrit => Ok FIrit | FXml => Ok FXml | _ => Throw RuntimeError end.

Section Converter.
Context {A : Type}.

(* 30-39 GetSplinePositionsOfCorrectDimension *)
Definition positions_of_dimension (splines : list (any A)) (max_dim : Z) : Res (list Z) :=
  for_up 0 (zlen splines) (fun i acc =>
    s <- vget splines i ;; d <- get_dimension s ;;
    Ok (if d <=? max_dim then acc ++ [i] else acc)) [].

(* 98-109 GetPositions: the new value of the member written_ *)
Definition mem (l : list Z) (p : Z) : bool := existsb (Z.eqb p) l.
Definition get_positions (written positions possible : list Z) : list Z :=
  match positions with
  | [] => possible
  | _ => written ++ filter (mem possible) positions
  end.

(* 111-125 GetScattering *)
Definition get_scattering (scattering : list (list Z)) (positions written : list Z) : Res (list (list Z)) :=
  indices <- match positions with
             | [] => Ok written
             | _ => for_up 0 (zlen positions) (fun i acc =>
                      p <- vget positions i ;; Ok (if mem written p then acc ++ [i] else acc)) []
             end ;;
  filter_vector scattering indices.

(* what is handed to the writer of the output format: the splines and, for vtk, the scattering *)
Definition handed := (list (any A) * list (list Z))%type.

(* 70-96 GetWriter and WriteFile.  The result is the value of written_ afterwards (it keeps its new
   value when a later step throws) and what the writer gets. *)
Definition write_with (written : list Z) (splines : list (any A)) (positions : list Z) (max_dim : Z)
    (extra : list Z -> Res (list (list Z))) : list Z * Res handed :=
  match positions_of_dimension splines max_dim with
  | Ok possible =>
      let written' := get_positions written positions possible in
      (written', l <- filter_vector splines written' ;; x <- extra written' ;; Ok (l, x))
  | Throw e => (written, Throw e)
  | UB => (written, UB)
  end.
Definition get_writer (f : format) (written : list Z) (splines : list (any A)) (positions : list Z)
    (scattering : list (list Z)) : list Z * Res handed :=
  match f with
  | FIges => write_with written splines positions 2 (fun _ => Ok [])
  | FIrit => write_with written splines positions 3 (fun _ => Ok [])
  | FVtk => write_with written splines positions 3 (get_scattering scattering positions)
  | FXml => write_with written splines positions 4 (fun _ => Ok [])
  | FError => (written, Throw RuntimeError)
  end.
End Converter.
