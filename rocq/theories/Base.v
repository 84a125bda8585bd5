(* Base of the model: result type, checked vector access, counting loops and the
   record of numeric operations with its two instances (reals, IEEE doubles). *)
From Coq Require Import ZArith List Bool Reals.
From Coq Require Import Floats Uint63.
Import ListNotations.
Open Scope Z_scope.

(* ------------------------------------------------------------------ *)
(* Outcomes of C++ code.  [UB] = undefined behaviour (out-of-range access);
   [Throw e] = an exception; e tells the C++ exception type. *)
Inductive exn := RuntimeError | RangeError | InvalidArgument | OutOfRange | BadAnyCast | LengthError.

Inductive Res (A : Type) :=
| Ok (a : A)
| Throw (e : exn)
| UB.
Arguments Ok {A} _.
Arguments Throw {A} _.
Arguments UB {A}.

Definition bind {A B} (m : Res A) (f : A -> Res B) : Res B :=
  match m with Ok a => f a | Throw e => Throw e | UB => UB end.

Declare Scope res_scope.
Delimit Scope res_scope with res.
Notation "x <- m ;; k" := (bind m (fun x => k))
  (at level 61, m at next level, right associativity) : res_scope.
Notation "' p <- m ;; k" := (bind m (fun p => k))
  (at level 61, p pattern, m at next level, right associativity) : res_scope.
Open Scope res_scope.

(* std::vector<T>::operator[] / std::array<T,N>::operator[] read access.
   Out of range is undefined behaviour (DEBUG builds use at(); DEBUG is off). *)
Definition vget {A} (l : list A) (i : Z) : Res A :=
  if (0 <=? i) && (i <? Z.of_nat (length l))
  then match nth_error l (Z.to_nat i) with Some a => Ok a | None => UB end
  else UB.

(* functional update of position n *)
Fixpoint upd {A} (l : list A) (n : nat) (a : A) : list A :=
  match l, n with
  | [], _ => []
  | _ :: t, O => a :: t
  | h :: t, S n' => h :: upd t n' a
  end.

(* std::vector<T>::operator[] write access *)
Definition vset {A} (l : list A) (i : Z) (a : A) : Res (list A) :=
  if (0 <=? i) && (i <? Z.of_nat (length l)) then Ok (upd l (Z.to_nat i) a) else UB.

(* std::vector<T>::size() *)
Definition zlen {A} (l : list A) : Z := Z.of_nat (length l).

(* for (i = lo; ...; ++i) executed n times *)
Fixpoint for_n {S} (n : nat) (i : Z) (body : Z -> S -> Res S) (s : S) : Res S :=
  match n with
  | O => Ok s
  | Datatypes.S n' => s' <- body i s ;; for_n n' (i + 1) body s'
  end.

(* for (int i = lo; i < hi; ++i) body *)
Definition for_up {S} (lo hi : Z) (body : Z -> S -> Res S) (s : S) : Res S :=
  for_n (Z.to_nat (hi - lo)) lo body s.

(* left fold with outcomes *)
Fixpoint foldM {A S} (f : S -> A -> Res S) (l : list A) (s : S) : Res S :=
  match l with
  | [] => Ok s
  | a :: t => s' <- f s a ;; foldM f t s'
  end.

(* mapM over a list, left to right *)
Fixpoint mapM {A B} (f : A -> Res B) (l : list A) : Res (list B) :=
  match l with
  | [] => Ok []
  | a :: t => b <- f a ;; bs <- mapM f t ;; Ok (b :: bs)
  end.

(* lo, lo+1, ..., lo+n-1 *)
Fixpoint zseq (lo : Z) (n : nat) : list Z :=
  match n with O => [] | S n' => lo :: zseq (lo + 1) n' end.

(* f applied n times *)
Fixpoint iterate {A} (n : nat) (f : A -> A) (x : A) : A :=
  match n with O => x | S n' => f (iterate n' f x) end.

(* arithmetic of size_t / uint64_t *)
Definition u64 (z : Z) : Z := z mod 2 ^ 64.
(* static_cast<int>(size_t): the low 32 bits, two's complement (g++/clang behaviour) *)
Definition i32 (z : Z) : Z := (z + 2 ^ 31) mod 2 ^ 32 - 2 ^ 31.
(* integer division by a positive number is Z.div; division by zero is undefined behaviour *)
Definition idiv (a b : Z) : Res Z := if b =? 0 then UB else Ok (Z.quot a b).

(* ------------------------------------------------------------------ *)
(* Numeric operations used by the C++ code on double. *)
Record NumOps := mkNumOps {
  num :> Type;
  n0 : num;
  n1 : num;
  nadd : num -> num -> num;
  nsub : num -> num -> num;
  nmul : num -> num -> num;
  ndiv : num -> num -> num;
  nabs : num -> num;
  nsqrt : num -> num;
  nltb : num -> num -> bool;
  nleb : num -> num -> bool;
  neqb : num -> num -> bool;
  nofZ : Z -> num
}.
Arguments n0 {_}.
Arguments n1 {_}.
Arguments nadd {_} _ _.
Arguments nsub {_} _ _.
Arguments nmul {_} _ _.
Arguments ndiv {_} _ _.
Arguments nabs {_} _.
Arguments nsqrt {_} _.
Arguments nltb {_} _ _.
Arguments nleb {_} _ _.
Arguments neqb {_} _ _.
Arguments nofZ {_} _.

Declare Scope num_scope.
Delimit Scope num_scope with num.
Infix "+" := nadd : num_scope.
Infix "-" := nsub : num_scope.
Infix "*" := nmul : num_scope.
Infix "/" := ndiv : num_scope.
Infix "<?" := nltb : num_scope.
Infix "<=?" := nleb : num_scope.
Infix "=?" := neqb : num_scope.

(* src/util/numeric_settings.h:27-29: kEpsilon() = 10.0 * numeric_limits<double>::epsilon() = 10 * 2^-52 *)
Definition kEpsilon {F : NumOps} : F := (nofZ 10 / nofZ (2 ^ 52))%num.

(* src/util/numeric_settings.h:31-33: AreEqual(a, b, tolerance) = |a - b| < tolerance *)
Definition num_are_equal {F : NumOps} (tolerance a b : F) : bool := (nabs (a - b) <? tolerance)%num.

(* ------------------------------------------------------------------ *)
(* Real instance.  [dz x] is the (unspecified) result of x / 0, and of sqrt x for x < 0;
   theorems quantify over every dz. *)
Definition Rltb (x y : R) : bool := if Rlt_dec x y then true else false.
Definition Rleb (x y : R) : bool := if Rle_dec x y then true else false.
Definition Reqb (x y : R) : bool := if Req_EM_T x y then true else false.

Definition Rops (dz : R -> R) : NumOps := {|
  num := R;
  n0 := 0%R; n1 := 1%R;
  nadd := Rplus; nsub := Rminus; nmul := Rmult;
  ndiv := fun x y => if Req_EM_T y 0%R then dz x else Rdiv x y;
  nabs := Rabs;
  nsqrt := fun x => if Rlt_dec x 0%R then dz x else R_sqrt.sqrt x;
  nltb := Rltb; nleb := Rleb; neqb := Reqb;
  nofZ := IZR
|}.

(* IEEE-754 binary64 instance. *)
Definition float_of_Z (z : Z) : float :=
  match z with
  | Z0 => PrimFloat.zero
  | Zpos _ => PrimFloat.of_uint63 (Uint63.of_Z z)
  | Zneg p => PrimFloat.opp (PrimFloat.of_uint63 (Uint63.of_Z (Zpos p)))
  end.

Definition Fops : NumOps := {|
  num := float;
  n0 := PrimFloat.zero; n1 := PrimFloat.one;
  nadd := PrimFloat.add; nsub := PrimFloat.sub; nmul := PrimFloat.mul; ndiv := PrimFloat.div;
  nabs := PrimFloat.abs; nsqrt := PrimFloat.sqrt;
  nltb := PrimFloat.ltb; nleb := PrimFloat.leb; neqb := PrimFloat.eqb;
  nofZ := float_of_Z
|}.

(* ------------------------------------------------------------------ *)
(* access to std::array<T, DIM> by a direction (a natural number) *)
Definition dget {A} (l : list A) (d : nat) : Res A :=
  match nth_error l d with Some a => Ok a | None => UB end.
(* std::transform over two ranges of equal length *)
Fixpoint map2 {A B C} (f : A -> B -> C) (l1 : list A) (l2 : list B) : list C :=
  match l1, l2 with
  | a :: t1, b :: t2 => f a b :: map2 f t1 t2
  | _, _ => []
  end.
(* [lo, lo + n) of a vector; outside its bounds is undefined behaviour *)
Definition sublist {A} (l : list A) (lo n : Z) : Res (list A) :=
  if (0 <=? lo) && (0 <=? n) && (lo + n <=? zlen l)
  then Ok (firstn (Z.to_nat n) (skipn (Z.to_nat lo) l)) else UB.
(* std::vector<T>(n, x) with n converted from int: a negative n becomes a huge size_t *)
Definition vmake {A} (n : Z) (x : A) : Res (list A) :=
  if n <? 0 then Throw LengthError else Ok (repeat x (Z.to_nat n)).
