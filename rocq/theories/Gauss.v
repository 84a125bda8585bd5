(* Model of the integration rules in example/iga/src/itg. *)
From Coq Require Import ZArith List.
From Verif Require Import Base.
Import ListNotations.
Open Scope Z_scope.

Section Rules.
Context {F : NumOps}.
Local Notation c := (@nofZ F).
(* unary minus; 0 - x differs from -x only in the sign of zero *)
Definition nneg (x : F) : F := (n0 - x)%num.

(* integration_point.h: coordinate and weight; integration_rule.h:30-55: a rule is the list of its points *)
Definition rule := list (F * F).

(* one_point_gauss_legendre.h:24 *)
Definition one_point : rule := [(c 0, c 2)].

(* two_point_gauss_legendre.h:27-28 *)
Definition two_point : rule :=
  [(nneg (nsqrt (c 1 / c 3)), c 1); (nsqrt (c 1 / c 3), c 1)]%num.

(* three_point_gauss_legendre.h:27-30 *)
Definition three_point : rule :=
  [(nneg (nsqrt (c 3 / c 5)), c 5 / c 9); (c 0, c 8 / c 9); (nsqrt (c 3 / c 5), c 5 / c 9)]%num.

(* four_point_gauss_legendre.h:27-31 *)
Definition four_point : rule :=
  [(nneg (nsqrt (c 3 / c 7 + c 2 / c 7 * nsqrt (c 6 / c 5))), (c 18 - nsqrt (c 30)) / c 36);
   (nneg (nsqrt (c 3 / c 7 - c 2 / c 7 * nsqrt (c 6 / c 5))), (c 18 + nsqrt (c 30)) / c 36);
   (nsqrt (c 3 / c 7 - c 2 / c 7 * nsqrt (c 6 / c 5)), (c 18 + nsqrt (c 30)) / c 36);
   (nsqrt (c 3 / c 7 + c 2 / c 7 * nsqrt (c 6 / c 5)), (c 18 - nsqrt (c 30)) / c 36)]%num.

(* five_point_gauss_legendre.h:27-32 *)
Definition five_point : rule :=
  [(nneg (c 1 / c 3) * nsqrt (c 5 + c 2 * nsqrt (c 10 / c 7)), (c 322 - c 13 * nsqrt (c 70)) / c 900);
   (nneg (c 1 / c 3) * nsqrt (c 5 - c 2 * nsqrt (c 10 / c 7)), (c 322 + c 13 * nsqrt (c 70)) / c 900);
   (c 0, c 128 / c 225);
   (c 1 / c 3 * nsqrt (c 5 - c 2 * nsqrt (c 10 / c 7)), (c 322 + c 13 * nsqrt (c 70)) / c 900);
   (c 1 / c 3 * nsqrt (c 5 + c 2 * nsqrt (c 10 / c 7)), (c 322 - c 13 * nsqrt (c 70)) / c 900)]%num.

(* the five classes by their number of points; there is no other *)
Definition gauss_rule (n : Z) : option rule :=
  if n =? 1 then Some one_point else if n =? 2 then Some two_point else if n =? 3 then Some three_point
  else if n =? 4 then Some four_point else if n =? 5 then Some five_point else None.
End Rules.
Arguments rule F : clear implicits.
