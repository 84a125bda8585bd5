(* C88: the example programs. *)
From Coq Require Import ZArith String List Reals Floats.
From Verif Require Import Base Spaces SplineEval SplineSpec Vtk Programs ProgramsThms.
Import ListNotations.
Open Scope Z_scope.

(* With any other number of arguments than two the optimizer example throws. *)
Theorem C88_optimizer_refuses : forall (F : NumOps) (atof : string -> F) argv, zlen argv <> 3 -> optimizer_main atof argv = Throw RuntimeError.
Proof. exact optimizer_refuses. Qed.
Print Assumptions C88_optimizer_refuses.

(* With two arguments it builds its curve and then calls WriteFile through an empty pointer, whatever the arguments are. *)
Theorem C88_optimizer_undefined : forall (atof : string -> float) name a b,
  (exists s, optimizer_points (F := Fops) atof [name; a; b] = Ok [[(-1)%float; 0%float]; [atof a; atof b]; [1%float; 0%float]] /\
     optimizer_curve (F := Fops) [[(-1)%float; 0%float]; [atof a; atof b]; [1%float; 0%float]] = Ok s) /\
  optimizer_main (F := Fops) atof [name; a; b] = UB.
Proof. exact optimizer_null. Qed.
Print Assumptions C88_optimizer_undefined.

(* The curve is the parabola with the given middle control point; through a set pointer the file would hold 101 points of it. *)
Theorem C88_optimizer_curve : forall (dz : R -> R) (x y : R), exists s : spline (Rops dz),
  optimizer_curve (F := Rops dz) [[(-1)%R; 0%R]; [x; y]; [1%R; 0%R]] = Ok s /\ well_formed s /\ is_bspline s /\
  (forall t, (0 <= t <= 1)%R ->
    evaluate s [t] [0; 1] = Ok [- (1 - t) ^ 2 + 2 * t * (1 - t) * x + t ^ 2; 2 * t * (1 - t) * y]%R) /\
  exists f, optimizer_write (F := Rops dz) (Some tt) s = Ok f /\ vf_npoints f = 101 /\ vf_ncells f = 100 /\
    forall i, 0 <= i <= 100 -> nth_error (vf_rows f) (Z.to_nat i) =
      Some (let t := (IZR i / 100)%R in [- (1 - t) ^ 2 + 2 * t * (1 - t) * x + t ^ 2; 2 * t * (1 - t) * y; 0]%R).
Proof. exact optimizer_curve_real. Qed.
Print Assumptions C88_optimizer_curve.

(* The first example evaluates its spline without an error: the first coordinate at 1 is 9 in doubles. *)
Theorem C88_first_example : exists v : float, ex1_main (F := Fops) = Ok [v] /\ PrimFloat.eqb v 9 = true.
Proof. exact ex1_runs. Qed.
Print Assumptions C88_first_example.

Example C88_example : exists s : spline (Rops (fun x => x)),
  optimizer_curve (F := Rops (fun x => x)) [[(-1)%R; 0%R]; [0%R; 2%R]; [1%R; 0%R]] = Ok s /\ evaluate s [1 / 2]%R [0; 1] = Ok [0; 1]%R /\
  zlen ["optimizer"; "0"; "2"]%string = 3 /\ zlen ["optimizer"]%string <> 3.
Proof. exact ex_optimizer. Qed.
Print Assumptions C88_example.
