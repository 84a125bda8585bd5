(* Model of src/util/vector_utils.h and of the operators of src/baf/control_point.cc.
   A std::vector<double> and a ControlPoint are lists. *)
From Coq Require Import ZArith List Bool.
From Verif Require Import Base.
Import ListNotations.
Open Scope Z_scope.

Section VectorUtils.
Context {F : NumOps}.
Implicit Types (a b : list F).

(* sum += x in index order, starting from 0 *)
Definition sum_of a : F := fold_left nadd a n0.

(* vector_utils.h:28-35 ComputeTwoNorm *)
Definition two_norm a : F := nsqrt (sum_of (map (fun x => x * x)%num a)).

(* std::transform(a.begin(), a.end(), b.begin(), b.begin(), op): b must be at least as long as a;
   entries of b beyond the length of a are kept *)
Fixpoint transform_into (op : F -> F -> F) a b : Res (list F) :=
  match a, b with
  | [], _ => Ok b
  | x :: a', y :: b' => r <- transform_into op a' b' ;; Ok (op x y :: r)
  | _ :: _, [] => UB
  end.

(* vector_utils.h:37-40 ComputeDifference *)
Definition difference a b : Res (list F) := transform_into nsub a b.

(* vector_utils.h:42-44 ComputeDistance *)
Definition distance a b : Res F := d <- difference a b ;; Ok (two_norm d).

(* vector_utils.h:46-53 ComputeScalarProduct *)
Definition scalar_product a b : Res F := m <- transform_into nmul a b ;; Ok (sum_of m).

(* vector_utils.h:55-59 ScaleVector *)
Definition scale_vector a (factor : F) : list F := map (fun x => factor * x)%num a.

(* vector_utils.h:61-67 CrossProduct: r has the size of a; writes r[0], r[1], r[2] *)
Definition cross_product a b : Res (list F) :=
  a0 <- vget a 0 ;; a1 <- vget a 1 ;; a2 <- vget a 2 ;;
  b0 <- vget b 0 ;; b1 <- vget b 1 ;; b2 <- vget b 2 ;;
  r1 <- vset (repeat n0 (length a)) 0 (a1 * b2 - a2 * b1)%num ;;
  r2 <- vset r1 1 (a2 * b0 - a0 * b2)%num ;;
  vset r2 2 (a0 * b1 - a1 * b0)%num.

(* vector_utils.h:69-79 FilterVector *)
Definition filter_vector {A} (input : list A) (positions : list Z) : Res (list A) :=
  mapM (fun pos => if pos <? zlen input then vget input pos else Throw RuntimeError) positions.

(* control_point.cc:39-46 operator+, 48-55 operator-: over the dimension of the left operand *)
Fixpoint cp_zip (op : F -> F -> F) a b : Res (list F) :=
  match a, b with
  | [], _ => Ok []
  | x :: a', y :: b' => r <- cp_zip op a' b' ;; Ok (op x y :: r)
  | _ :: _, [] => UB
  end.
Definition cp_add a b := cp_zip nadd a b.
Definition cp_sub a b := cp_zip nsub a b.
(* control_point.cc:57-62 operator* *)
Definition cp_scale a (s : F) : list F := map (fun x => x * s)%num a.
(* control_point.cc:75-82 GetEuclideanNorm; pow(x, 2) is modelled as x * x *)
Definition cp_norm a : F := nsqrt (sum_of (map (fun x => x * x)%num a)).

End VectorUtils.
