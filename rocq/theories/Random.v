(* Model of src/util/random.h GetBinomialRandom, src/spl/random_spline_utils.h, random_b_spline_generator.h
   and random_nurbs_generator.h.  The random engine is not modelled: [pick i t] is the result of draw
   number i from the binomial distribution with upper limit t, and the number of the next draw is passed
   along.  [trunc] drops the fraction of a double.  The two literals 0.01 and 0.1 are quotients, which
   round to them.  int arithmetic is unbounded. *)
From Coq Require Import ZArith Ascii String List Bool.
From Verif Require Import Base MultiIndex StrOps Format Spaces SplineEval.
Import ListNotations.
Open Scope Z_scope.

(* f for each entry of a list, passing the number of the next draw along *)
Fixpoint draws {A B} (f : A -> Z -> Res (B * Z)) (l : list A) (i : Z) : Res (list B * Z) :=
  match l with
  | [] => Ok ([], i)
  | a :: l' => r <- f a i ;; rs <- draws f l' (snd r) ;; Ok (fst r :: fst rs, snd rs)
  end.

Section Random.
Context {F : NumOps} (trunc : F -> Z) (pick : Z -> Z -> Z).

(* random.h:23-28 GetBinomialRandom<double>; a negative upper limit violates the precondition of
   std::binomial_distribution *)
Definition binomial (low high step : F) (i : Z) : Res (F * Z) :=
  t <- to_int trunc ((high - low) / step)%num ;;
  if t <? 0 then UB else Ok ((nofZ (pick i t) * step + low)%num, i + 1).
(* GetBinomialRandom<int>: the result is converted on return *)
Definition binomial_int (low high step : F) (i : Z) : Res (Z * Z) :=
  r <- binomial low high step i ;; z <- to_int trunc (fst r) ;; Ok (z, snd r).

(* random_spline_utils.h:32-38 GetRandomDegrees *)
Definition random_degrees (dim : nat) (max_degree : Z) : Z -> Res (list Z * Z) :=
  draws (fun _ => binomial_int (nofZ 1) (nofZ max_degree) (nofZ 1)) (seq 0 dim).

(* 95-101 GetNumberOfKnots *)
Definition random_numbers (degs : list Z) : Z -> Res (list Z * Z) :=
  draws (fun p => binomial_int (nofZ (2 * p + 2)) (nofZ (4 * p)) (nofZ 1)) degs.
(* 45-57 the knots of one direction *)
Definition limit_knots (low high : F) (p n : Z) : list F :=
  let number := n - 2 * p - 2 in
  repeat low (Z.to_nat (p + 1)) ++
  map (fun j => ((high - low) / nofZ (number + 1) * nofZ j + low)%num) (zseq 1 (Z.to_nat number)) ++
  repeat high (Z.to_nat (p + 1)).
(* 40-60 GetRandomKnotVectors *)
Definition random_knots (low high : F) (degs : list Z) (i : Z) : Res (list (list F) * Z) :=
  r <- random_numbers degs i ;; Ok (map2 (limit_knots low high) degs (fst r), snd r).

(* 85-92 GetNumberOfPoints *)
Definition numbers_of_points (degs : list Z) (knots : list (list F)) : list Z := map2 (fun p kv => zlen kv - p - 1) degs knots.
(* 62-74 GetRandomControlPoints *)
Definition random_points (dimension : Z) (npts : list Z) : Z -> Res (list (list F) * Z) :=
  draws (fun _ => draws (fun _ => binomial (nofZ (-5)) (nofZ 5) (nofZ 1 / nofZ 100)%num) (seq 0 (Z.to_nat dimension)))
        (seq 0 (Z.to_nat (total npts))).
(* 76-83 GetRandomWeights *)
Definition random_weights (npts : list Z) : Z -> Res (list F * Z) :=
  draws (fun _ => binomial (nofZ 1 / nofZ 10)%num (nofZ 2) (nofZ 1 / nofZ 10)%num) (seq 0 (Z.to_nat (total npts))).

(* random_b_spline_generator.h:31-39 and the B-spline constructed from the generator *)
Definition random_bspline (dim : nat) (low high : F) (max_degree dimension i : Z) : Res (spline F * Z) :=
  d <- random_degrees dim max_degree i ;;
  k <- random_knots low high (fst d) (snd d) ;;
  let npts := numbers_of_points (fst d) (fst k) in
  c <- random_points dimension npts (snd k) ;;
  ph <- phys_new (fst c) npts ;;
  ps <- ps_new (fst k) (fst d) ;;
  Ok (mkSpline ps ph, snd c).
(* random_nurbs_generator.h:31-40 and the NURBS constructed from the generator *)
Definition random_nurbs (dim : nat) (low high : F) (max_degree dimension i : Z) : Res (spline F * Z) :=
  d <- random_degrees dim max_degree i ;;
  k <- random_knots low high (fst d) (snd d) ;;
  let npts := numbers_of_points (fst d) (fst k) in
  c <- random_points dimension npts (snd k) ;;
  w <- random_weights npts (snd c) ;;
  ph <- wphys_new (fst c) (fst w) npts ;;
  ps <- ps_new (fst k) (fst d) ;;
  Ok (mkSpline ps ph, snd w).
End Random.
