(* Decimal rendering of integers and conversion of a parsed number to int, as used by the readers and
   writers in src/io.  The rendering of doubles by the C++ library is a parameter of the writers. *)
From Coq Require Import ZArith Ascii String List Bool.
From Verif Require Import Base StrOps.
Import ListNotations.
Open Scope char_scope.
Open Scope Z_scope.

(* decimal digits of n >= 0, most significant first *)
Fixpoint digits10 (fuel : nat) (n : Z) : list Z :=
  match fuel with
  | O => []
  | S f => if n <? 10 then [n] else digits10 f (n / 10) ++ [n mod 10]
  end.
Definition digit_char (d : Z) : ascii := ascii_of_nat (48 + Z.to_nat d).

(* std::to_string(int), std::ostream << int *)
Definition int_str (n : Z) : str :=
  (if n <? 0 then ["-"] else []) ++ map digit_char (digits10 (S (Z.to_nat (Z.log2 (Z.abs n)))) (Z.abs n)).

(* conversion of a double to int: [trunc] drops the fraction, the result must fit *)
Definition to_int {F : NumOps} (trunc : F -> Z) (x : F) : Res Z :=
  let z := trunc x in if (- 2 ^ 31 <=? z) && (z <? 2 ^ 31) then Ok z else UB.

(* concatenation of the texts produced by a loop *)
Definition concatM {A} (f : A -> Res str) (l : list A) : Res str :=
  t <- mapM f l ;; Ok (concat t).
