(* Model of the swept surface in src/spl/surface_generator.cc and of what it uses: the constructor of a
   knot vector from averages (src/baf/knot_vector.cc) and ControlPoint::Transform.  A vector of three
   numbers is a triple; std::pow(x, 2) is x * x. *)
From Coq Require Import ZArith List Bool.
From Verif Require Import Base KnotVec Spaces SplineEval.
Import ListNotations.
Open Scope Z_scope.

Section Swept.
Context {F : NumOps}.
Notation vec := (F * F * F)%type.

(* knot_vector.cc:40-44 the mean of the p coordinates from i on *)
Definition mean_of (coords : list F) (p i : Z) : Res F :=
  sum <- for_up i (i + p) (fun j sum => x <- vget coords j ;; Ok (sum + x)%num) n0 ;; Ok (sum / nofZ p)%num.

(* knot_vector.cc:34-50 the constructor from averages; the degree is not negative (Degree is an int) *)
Definition averaged_knots (coords : list F) (p n : Z) : Res (list F) :=
  inner <- mapM (mean_of coords p) (zseq 1 (Z.to_nat (n - 1 - p))) ;;
  last <- vget coords (zlen coords - 1) ;;
  Ok (repeat n0 (Z.to_nat (p + 1)) ++ inner ++ repeat last (Z.to_nat (p + 1))).

(* surface_generator.cc:104-116 CrossProduct (both overloads) *)
Definition cross (a b : vec) : vec :=
  match a, b with
  | (a0, a1, a2), (b0, b1, b2) => (a1 * b2 - a2 * b1, a2 * b0 - a0 * b2, a0 * b1 - a1 * b0)%num
  end.
(* surface_generator.cc:118-132 DotProduct (both overloads) *)
Definition dot (a b : vec) : F :=
  match a, b with (a0, a1, a2), (b0, b1, b2) => (n0 + a0 * b0 + a1 * b1 + a2 * b2)%num end.
(* surface_generator.cc:134-148 ComputeNorm (both overloads) *)
Definition norm (a : vec) : F :=
  match a with (a0, a1, a2) => nsqrt (n0 + a0 * a0 + a1 * a1 + a2 * a2)%num end.
(* surface_generator.cc:158-160 (and 176-178) division of all three numbers *)
Definition divide (a : vec) (x : F) : vec := match a with (a0, a1, a2) => (a0 / x, a1 / x, a2 / x)%num end.

(* surface_generator.cc:150-181 ComputeNormal.  The copy of dT that lines 168-171 normalize is not used. *)
Definition compute_normal (t d1 d2 previous : vec) (index : Z) : Res vec :=
  let c := cross d1 d2 in
  if (n0 <? norm c)%num then
    let z := divide c (norm c) in
    if (dot z previous =? n0)%num && negb (index =? 0) then Throw RuntimeError else Ok z
  else
    let product := dot previous t in
    let c := match previous, t with
             | (p0, p1, p2), (t0, t1, t2) => (p0 - product * t0, p1 - product * t1, p2 - product * t2)%num
             end in
    Ok (divide c (norm c)).

(* the matrix by its columns: x, y, z and the position; the last row is 0 0 0 1 *)
Record frame := mkFrame { fr_x : vec; fr_y : vec; fr_z : vec; fr_t : vec }.

(* surface_generator.cc:183-209 GetTransformation *)
Definition get_transformation (t d1 d2 prev_z : vec) (index : Z) : Res frame :=
  z <- compute_normal t d1 d2 prev_z index ;;
  let x := divide d1 (norm d1) in
  Ok (mkFrame x (cross z x) z t).

(* control_point.cc:64-73 Transform *)
Definition transform (m : frame) (scaling : vec) (cp : list F) : Res (list F) :=
  match fr_x m, fr_y m, fr_z m, fr_t m, scaling with
  | (x0, x1, x2), (y0, y1, y2), (z0, z1, z2), (t0, t1, t2), (s0, s1, s2) =>
      c0 <- vget cp 0 ;; c1 <- vget cp 1 ;; c2 <- vget cp 2 ;;
      Ok [t0 + x0 * s0 * c0 + y0 * s1 * c1 + z0 * s2 * c2;
          t1 + x1 * s0 * c0 + y1 * s1 * c1 + z1 * s2 * c2;
          t2 + x2 * s0 * c0 + y2 * s1 * c1 + z2 * s2 * c2]%num
  end.

(* a std::vector<double> of which the first three numbers are used *)
Definition triple (l : list F) : Res vec :=
  a <- vget l 0 ;; b <- vget l 1 ;; c <- vget l 2 ;; Ok (a, b, c).

(* state of the loop in surface_generator.cc:75-92: v_i, the last matrix' third column, control points, weights *)
Definition sweep_state : Type := list F * vec * list (list F) * list F.

(* surface_generator.cc:76-85 the frame at section i *)
Definition section_frame (t : spline F) (step : F) (prev_z : vec) (i : Z) : Res (F * F * frame) :=
  let v := (nofZ i * step)%num in
  t_v <- evaluate t [v] [0; 1; 2] ;;
  w <- evaluate t [v] [3] ;; weight_v <- vget w 0 ;;
  dt_v <- evaluate_derivative t [v] [0; 1; 2] [1] ;;
  ddt_v <- evaluate_derivative t [v] [0; 1; 2] [2] ;;
  a <- triple t_v ;; b <- triple dt_v ;; c <- triple ddt_v ;;
  m <- get_transformation a b c prev_z i ;; Ok (v, weight_v, m).

(* surface_generator.cc:86-91 the control points and weights of section i *)
Definition place_section (c : spline F) (n m : Z) (scaling : list vec) (i : Z) (weight_v : F) (fr : frame)
    (acc : list (list F) * list F) : Res (list (list F) * list F) :=
  for_up 0 m (fun j acc =>
    cp <- get_control_point (sp_ph c) [j] ;; s <- vget scaling i ;;
    x <- transform fr s cp ;; cps <- vset (fst acc) (j * n + i) x ;;
    w <- get_weight (sp_ph c) [j] ;; ws <- vset (snd acc) (j * n + i) (w * weight_v)%num ;;
    Ok (cps, ws)) acc.

(* surface_generator.cc:54-102 constructor and nurbs.h:44-46 NURBS from the generator *)
Definition swept_surface (t c : spline F) (n : Z) (scaling : list vec) : Res (spline F) :=
  range <- knot_vector_range (sp_ps t) 0 ;;
  let step := (range / nofZ (n - 1))%num in
  m <- num_control_points (sp_ph c) ;;
  cps0 <- vmake (n * m) [n0; n0; n0] ;; ws0 <- vmake (n * m) n0 ;;
  st <- for_up 0 n (fun i (st : sweep_state) =>
          match st with (vs, prev_z, cps, ws) =>
            f <- section_frame t step prev_z i ;;
            r <- place_section c n m scaling i (snd (fst f)) (snd f) (cps, ws) ;;
            Ok (vs ++ [fst (fst f)], fr_z (snd f), fst r, snd r)
          end) ([], (n0, n0, n1), cps0, ws0) ;;
  match st with (vs, _, cps, ws) =>
    pt <- dget (ps_degs (sp_ps t)) 0 ;;
    kv <- averaged_knots vs pt n ;;
    kc <- dget (ps_knots (sp_ps c)) 0 ;; pc <- dget (ps_degs (sp_ps c)) 0 ;;
    ps <- ps_new [kv; kc] [pt; pc] ;;
    ph <- wphys_new cps ws [n; m] ;;
    Ok (mkSpline ps ph)
  end.
End Swept.
