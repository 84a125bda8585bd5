(* Model of src/spl/square_generator.cc and of the translational surface in
   src/spl/surface_generator.cc. *)
From Coq Require Import ZArith List Bool.
From Verif Require Import Base KnotVec Spaces SplineEval.
Import ListNotations.
Open Scope Z_scope.

Section Generators.
Context {F : NumOps}.

(* square_generator.cc:27-31 the knots.  With fewer than 2p+2 knots the iterator of the loop in
   line 28 starts behind its end and runs out of the vector.  The degree is not negative (Degree
   is an int). *)
Definition square_knots (p n : Z) : Res (list F) :=
  if n <? 2 * p + 2 then UB
  else
    kv0 <- vmake n n0 ;;
    kv <- for_up (p + 1) (n - p - 1)
            (fun i kv => x <- vget kv (i - 1) ;; vset kv i (x + n1 / (nofZ n - nofZ 2 * nofZ p - n1))%num)
            kv0 ;;
    for_up (n - p - 1) n (fun i kv => vset kv i n1) kv.

(* square_generator.cc:26-37 GenerateParameterSpace *)
Definition square_pspace (p n : Z) : Res (pspace F) :=
  kv <- square_knots p n ;; ps_new [kv; kv] [p; p].

(* square_generator.cc:41-47 val, val + delta, (val + delta) + delta, ... *)
Fixpoint ramp (m : nat) (val delta : F) : list F :=
  match m with O => [] | S m' => val :: ramp m' (val + delta)%num delta end.

(* square_generator.cc:39-56 GeneratePhysicalSpace *)
Definition square_points (m : Z) : Res (list (list F)) :=
  let delta := (nofZ 2 / (nofZ m - n1))%num in
  let coordinates := ramp (Z.to_nat m) (nofZ (-1)) delta in
  cps0 <- vmake (m * m) [n0; n0] ;;
  r <- for_up 0 m
         (fun y acc => for_up 0 m
            (fun x (acc : Z * list (list F)) =>
               cx <- vget coordinates x ;; cy <- vget coordinates y ;;
               cps <- vset (snd acc) (fst acc) [cx; cy] ;; Ok (fst acc + 1, cps))
            acc)
         (0, cps0) ;;
  Ok (snd r).
Definition square_phys (p n : Z) : Res (phys F) :=
  let m := n - p - 1 in
  cps <- square_points m ;; phys_new cps [m; m].

(* square_generator.cc:19-24 CreateSquare; the default constructor (13) is p = 2, n = 6.
   BSplineGenerator (b_spline_generator.h:40-44) and BSpline (b_spline.h:44-46) keep the spaces. *)
Definition create_square (p n : Z) : Res (spline F) :=
  ps <- square_pspace p n ;; ph <- square_phys p n ;; Ok (mkSpline ps ph).

(* control_point.cc:39-46 operator+ *)
Definition cp_plus (a b : list F) : Res (list F) :=
  mapM (fun i => x <- vget a i ;; y <- vget b i ;; Ok (x + y)%num) (zseq 0 (length a)).

(* surface_generator.cc:25-32 JoinParameterSpaces.  make_shared copies the parameter space and with it
   the two KnotVector objects (parameter_space.h:48-61). *)
Definition join_pspaces (t c : spline F) : Res (pspace F) :=
  kt <- dget (ps_knots (sp_ps t)) 0 ;; kc <- dget (ps_knots (sp_ps c)) 0 ;;
  pt <- dget (ps_degs (sp_ps t)) 0 ;; pc <- dget (ps_degs (sp_ps c)) 0 ;;
  ps_new [kt; kc] [pt; pc].

(* surface_generator.cc:34-52 JoinPhysicalSpaces *)
Definition join_phys (t c : spline F) : Res (phys F) :=
  nt <- num_control_points (sp_ph t) ;; nc <- num_control_points (sp_ph c) ;;
  r <- for_up 0 nc
         (fun i acc => for_up 0 nt
            (fun j (acc : list (list F) * list F) =>
               a <- get_control_point (sp_ph t) [j] ;; b <- get_control_point (sp_ph c) [i] ;;
               x <- cp_plus a b ;;
               wa <- get_weight (sp_ph t) [j] ;; wb <- get_weight (sp_ph c) [i] ;;
               Ok (fst acc ++ [x], snd acc ++ [wa * wb]%num))
            acc)
         ([], []) ;;
  wphys_new (fst r) (snd r) [nt; nc].

(* surface_generator.cc:19-23 constructor and nurbs.h:44-46 NURBS from the generator *)
Definition translational_surface (t c : spline F) : Res (spline F) :=
  ps <- join_pspaces t c ;; ph <- join_phys t c ;; Ok (mkSpline ps ph).
End Generators.
