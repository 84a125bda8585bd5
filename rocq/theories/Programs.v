(* The example programs. Printing to std::cout is left out. *)
From Coq Require Import ZArith String List Bool.
From Verif Require Import Base Spaces SplineEval Convert Vtk.
Import ListNotations.
Open Scope Z_scope.

(* p->f(...) for a smart pointer p that may be empty *)
Definition through {A B} (ptr : option A) (f : A -> Res B) : Res B :=
  match ptr with None => UB | Some a => f a end.

Section Programs.
Context {F : NumOps}.
Local Notation q a b := (ndiv (nofZ a) (nofZ b)).

(* example/ex1.cc:23-44 main; the value that the program throws away is returned *)
Definition ex1_main : Res (list F) :=
  s <- spline_new [[n0; n0; n0; n1; nofZ 2; nofZ 3; nofZ 4; nofZ 4; nofZ 5; nofZ 5; nofZ 5]] [2]
         [[nofZ 4; nofZ 2]; [nofZ 7; q 3 2]; [nofZ 11; nofZ 2]; [q 5 2; q 9 2]; [nofZ 3; q 43 10]; [nofZ 7; nofZ 3];
          [nofZ 8; q 5 2]; [nofZ 8; n1]] None ;;
  evaluate s [n1] [0].

(* example/testcase_optimizer.cc:45-54: the control points; argv[0] is the name of the program, i = 2, 4, ... while i < argc *)
Definition optimizer_points (atof : string -> F) (argv : list string) : Res (list (list F)) :=
  pts <- foldM (fun acc k => a <- vget argv (2 + 2 * k - 1) ;; b <- vget argv (2 + 2 * k) ;; Ok (acc ++ [[atof a; atof b]]))
               (zseq 0 (Z.to_nat ((zlen argv - 1) / 2))) [[nofZ (-1); n0]] ;;
  Ok (pts ++ [[n1; n0]]).

(* example/testcase_optimizer.cc:26-32: the curve and its copy on the heap *)
Definition optimizer_curve (pts : list (list F)) : Res (spline F) :=
  s <- spline_new [[n0; n0; n0; n1; n1; n1]] [2] pts None ;; spline_copy s.

(* example/testcase_optimizer.cc:34-38: WriteFile through the pointer vtk_writer_ *)
Definition optimizer_write (vtk_writer : option unit) (s : spline F) : Res (vtk_file F) :=
  through vtk_writer (fun _ => write_vtk [AnyB 1 s] [[100]]).

(* example/testcase_optimizer.cc:41-57 main; line 36 declares the std::unique_ptr and never sets it *)
Definition optimizer_main (atof : string -> F) (argv : list string) : Res (vtk_file F) :=
  if negb (zlen argv =? 3) then Throw RuntimeError
  else
    pts <- optimizer_points atof argv ;;
    s <- optimizer_curve pts ;;
    optimizer_write None s.
End Programs.
