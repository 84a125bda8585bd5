(* Model of the basis function objects: src/baf/basis_function.cc, b_spline_basis_function.cc,
   zero_degree_b_spline_basis_function.cc, basis_function_factory.cc. *)
From Coq Require Import ZArith List Bool.
From Verif Require Import Base KnotVec.
Import ListNotations.
Open Scope Z_scope.

Section BasisFunctions.
Context {F : NumOps}.
Implicit Types (kv : list F) (u : F).

(* The object graph built by the constructors.
   basis_function.h members: degree_, start_knot_, end_knot_, end_knot_is_last_knot_;
   b_spline_basis_function.h members: left_denom_inv_, right_denom_inv_, left/right_lower_degree_. *)
Inductive bf :=
| BF0 (start_knot end_knot : F) (end_is_last : bool)
| BFS (degree : Z) (start_knot end_knot : F) (end_is_last : bool)
      (left_denom_inv right_denom_inv : F) (lo_left lo_right : bf).

(* b_spline_basis_function.cc:62-64 InverseWithPossiblyZeroDenominator *)
Definition inverse_or_zero (d : F) : F :=
  if (nabs d <? kEpsilon)%num then n0 else (n1 / d)%num.

(* basis_function_factory.cc:22-34 CreateDynamic for degree >= 0, with the constructors
   basis_function.cc:26-33, b_spline_basis_function.cc:20-31 and 45-52 inlined *)
Fixpoint create_nat kv (start : Z) (p : nat) : Res bf :=
  s <- get_knot kv start ;;
  e <- get_knot kv (start + Z.of_nat p + 1) ;;
  l <- is_last_knot kv e ;;
  match p with
  | O => Ok (BF0 s e l)
  | S p' =>
      a <- get_knot kv (start + Z.of_nat p) ;;
      b <- get_knot kv (start + 1) ;;
      lo_left <- create_nat kv start p' ;;
      lo_right <- create_nat kv (start + 1) p' ;;
      Ok (BFS (Z.of_nat p) s e l (inverse_or_zero (a - s)%num) (inverse_or_zero (e - b)%num) lo_left lo_right)
  end.

(* basis_function_factory.cc:22-34: a negative degree throws runtime_error *)
Definition create_dynamic kv (start degree : Z) : Res bf :=
  if degree <? 0 then Throw RuntimeError else create_nat kv start (Z.to_nat degree).

(* basis_function.cc:47-50 IsCoordinateInSupport *)
Definition in_support (s e : F) (l : bool) u : bool :=
  ((s <=? u)%num && (u <? e)%num) || (l && (u =? e)%num).

(* basis_function.cc:17-19 Evaluate with EvaluateOnSupport
   (b_spline_basis_function.cc:33-36, 54-60; zero_degree...cc:20-22) *)
Fixpoint bf_eval (b : bf) u : F :=
  match b with
  | BF0 s e l => if in_support s e l u then n1 else n0
  | BFS _ s e l ldi rdi lo_left lo_right =>
      if in_support s e l u
      then ((u - s) * ldi * bf_eval lo_left u + (e - u) * rdi * bf_eval lo_right u)%num
      else n0
  end.

(* basis_function.cc:21-24 EvaluateDerivative with EvaluateDerivativeOnSupport
   (b_spline_basis_function.cc:38-43; zero_degree...cc:24-27) *)
Fixpoint bf_deriv (b : bf) u (k : Z) : F :=
  if k =? 0 then bf_eval b u
  else match b with
       | BF0 _ _ _ => n0
       | BFS degree s e l ldi rdi lo_left lo_right =>
           if in_support s e l u
           then (nofZ degree * (ldi * bf_deriv lo_left u (k - 1) - rdi * bf_deriv lo_right u (k - 1)))%num
           else n0
       end.

(* the vector of basis functions of one direction:
   src/spl/parameter_space.h:40-45, 54-60 and 230-243 (number of functions: knots - degree - 1;
   reserve throws length_error when this number is negative) *)
Definition create_all kv (degree : Z) : Res (list bf) :=
  if zlen kv - degree - 1 <? 0 then Throw LengthError else
  mapM (fun j => create_dynamic kv j degree) (zseq 0 (Z.to_nat (zlen kv - degree - 1))).

End BasisFunctions.
Arguments bf : clear implicits.
