(* Model of src/baf/knot_vector.{h,cc}: a knot vector is the list of its knots (member knots_). *)
From Coq Require Import ZArith List Bool.
From Verif Require Import Base.
Import ListNotations.
Open Scope Z_scope.

Section KnotVector.
Context {F : NumOps}.
Implicit Types (kv : list F) (u : F).

(* knot_vector.cc:88-94 GetKnot(size_t): unchecked access (DEBUG off) *)
Definition get_knot kv (i : Z) : Res F := vget kv i.

(* knot_vector.cc:96-98 GetLastKnot: knots_.back() *)
Definition last_knot kv : Res F := vget kv (zlen kv - 1).

(* knot_vector.cc:143-145 IsLastKnot *)
Definition is_last_knot kv u : Res bool :=
  l <- last_knot kv ;; Ok (num_are_equal kEpsilon u l).

(* std::lower_bound: number of leading knots that are < u.
   Simplification: the result is given by the specification of the algorithm (first position
   whose knot is not < u), which the binary search meets on non-decreasing vectors. *)
Fixpoint lower_bound kv u : Z :=
  match kv with
  | [] => 0
  | x :: t => if (x <? u)%num then 1 + lower_bound t u else 0
  end.

(* std::upper_bound: number of leading knots x with not (u < x); same remark *)
Fixpoint upper_bound kv u : Z :=
  match kv with
  | [] => 0
  | x :: t => if (u <? x)%num then 0 else 1 + upper_bound t u
  end.

(* knot_vector.cc:100-105 GetKnotSpan *)
Definition knot_span kv u : Res Z :=
  b <- is_last_knot kv u ;;
  Ok (if (b : bool) then lower_bound kv u - 1 else upper_bound kv u - 1).

(* knot_vector.cc:107-109 GetMultiplicity: std::count with NamedType::operator== (exact ==) *)
Fixpoint multiplicity kv u : Z :=
  match kv with
  | [] => 0
  | x :: t => (if (x =? u)%num then 1 else 0) + multiplicity t u
  end.

(* knot_vector.cc:115-121 GetNumberOfDifferentKnots: one plus the number of strict ascents *)
Fixpoint ascents kv : Z :=
  match kv with
  | x :: ((y :: _) as t) => (if (x <? y)%num then 1 else 0) + ascents t
  | _ => 0
  end.
Definition num_different kv : Z := 1 + ascents kv.

(* knot_vector.cc:139-141 IsInKnotVectorRange: u >= front && u <= back *)
Definition in_range kv u : Res bool :=
  f <- vget kv 0 ;;
  if (f <=? u)%num then l <- last_knot kv ;; Ok (u <=? l)%num else Ok false.

(* knots_.insert(knots_.begin() + i, x) *)
Definition insert_at kv (i : Z) (x : F) : Res (list F) :=
  if (0 <=? i) && (i <=? zlen kv)
  then Ok (firstn (Z.to_nat i) kv ++ x :: skipn (Z.to_nat i) kv) else UB.

(* knots_.erase(knots_.begin() + i) *)
Definition erase_at kv (i : Z) : Res (list F) :=
  if (0 <=? i) && (i <? zlen kv)
  then Ok (firstn (Z.to_nat i) kv ++ skipn (S (Z.to_nat i)) kv) else UB.

(* knot_vector.cc:147-150 InsertKnot *)
Definition kv_insert kv u : Res (list F) :=
  k <- knot_span kv u ;; insert_at kv (k + 1) u.

(* knot_vector.cc:152-159 RemoveKnot *)
Definition kv_remove kv u : Res (list F) :=
  k <- knot_span kv u ;;
  b <- is_last_knot kv u ;;
  if (b : bool) then erase_at kv (zlen kv - 1) else erase_at kv k.

(* std::equal on two ranges with a predicate (both ends given: lengths must agree) *)
Fixpoint list_equal {A} (p : A -> A -> bool) (l1 l2 : list A) : bool :=
  match l1, l2 with
  | [], [] => true
  | a :: t1, b :: t2 => p a b && list_equal p t1 t2
  | _, _ => false
  end.

(* knot_vector.cc:72-78 AreEqual(rhs, tolerance); operator== (65-70) is the same with kEpsilon *)
Definition kv_are_equal (tolerance : F) kv1 kv2 : bool :=
  list_equal (num_are_equal tolerance) kv1 kv2.

(* std::unique_copy: first of each run of equal neighbours (operator==), as used in
   src/spl/parameter_space.h:173-189 *)
Fixpoint unique_copy kv : list F :=
  match kv with
  | [] => []
  | x :: t => match t with
              | y :: _ => if (x =? y)%num then
                            match unique_copy t with [] => [x] | _ :: r => x :: r end
                          else x :: unique_copy t
              | [] => [x]
              end
  end.

End KnotVector.
