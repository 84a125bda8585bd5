(* Model of src/util/string_operations.h.  A std::string is a list of characters; positions are
   integers, std::string::npos is 2^64 - 1 and size_t arithmetic wraps (u64).  Strings are shorter
   than 2^63 characters wherever that matters. *)
From Coq Require Import ZArith List Bool Ascii String.
From Verif Require Import Base.
Import ListNotations.
Open Scope char_scope.
Open Scope Z_scope.

Definition str := list ascii.
Definition of_string (s : string) : str := list_ascii_of_string s.
Definition newline : ascii := "010".
Definition npos : Z := 2 ^ 64 - 1.

(* std::getline(stream, line, delimiter): fails at the end of the stream; otherwise the characters up
   to the delimiter, which is removed too *)
Fixpoint until (d : ascii) (s : str) : str * str :=
  match s with
  | [] => ([], [])
  | c :: t => if Ascii.eqb c d then ([], t) else let (a, b) := until d t in (c :: a, b)
  end.
Definition getline (d : ascii) (s : str) : option (str * str) :=
  match s with [] => None | _ => Some (until d s) end.
(* while (std::getline(...)) collect; every success removes a character, so length s rounds suffice *)
Fixpoint getlines (fuel : nat) (d : ascii) (s : str) : list str :=
  match fuel with
  | O => []
  | S fuel' => match getline d s with None => [] | Some (l, r) => l :: getlines fuel' d r end
  end.
Definition is_empty (s : str) : bool := match s with [] => true | _ => false end.

(* string_operations.h:27-39 split *)
Definition split (s : str) (delimiter : ascii) : list str :=
  flat_map (fun line => filter (fun v => negb (is_empty v)) (getlines (List.length line) delimiter line))
           (getlines (List.length s) newline s).

(* std::isspace in the C locale (characters >= 128 are taken as no space; negative arguments of
   isspace are undefined in C++) *)
Definition isspace (c : ascii) : bool :=
  let n := nat_of_ascii c in ((9 <=? n) && (n <=? 13) || (n =? 32))%nat.
Fixpoint drop_while (f : ascii -> bool) (s : str) : str :=
  match s with
  | [] => []
  | c :: t => if f c then drop_while f t else s
  end.
(* 78-86 trim *)
Definition trim (s : str) : str :=
  let s1 := drop_while (fun c => isspace c || Ascii.eqb c "[") s in
  rev (drop_while (fun c => isspace c || Ascii.eqb c "]") (rev s1)).

(* std::string::find(t): the first position where t occurs *)
Fixpoint is_prefix (t s : str) : bool :=
  match t, s with
  | [], _ => true
  | c :: t', e :: s' => Ascii.eqb c e && is_prefix t' s'
  | _ :: _, [] => false
  end.
Fixpoint find_from (i : Z) (t s : str) : Z :=
  if is_prefix t s then i else match s with [] => npos | _ :: s' => find_from (i + 1) t s' end.
Definition find (s t : str) : Z := find_from 0 t s.
(* std::string::find_first_of *)
Fixpoint find_first_from (i : Z) (f : ascii -> bool) (s : str) : Z :=
  match s with [] => npos | c :: s' => if f c then i else find_first_from (i + 1) f s' end.
Definition find_first_of (s : str) (f : ascii -> bool) : Z := find_first_from 0 f s.

(* 70-72 StartsWith, 74-76 EndsWith *)
Definition starts_with (s t : str) : bool := find s t =? 0.
Definition ends_with (s t : str) : bool := find s t =? u64 (zlen s - zlen t).

(* std::string::substr(pos, n), erase(0, n) *)
Definition substr (s : str) (pos n : Z) : Res str :=
  if pos <=? zlen s then Ok (firstn (Z.to_nat n) (skipn (Z.to_nat pos) s)) else Throw OutOfRange.
(* std::string::operator[]: s[s.size()] is the null character *)
Definition char_at (s : str) (i : Z) : Res ascii :=
  if (0 <=? i) && (i <=? zlen s) then Ok (nth (Z.to_nat i) s "000") else UB.

(* std::stoi: optional white space and sign, at least one digit, anything after the digits is ignored *)
Definition digit (c : ascii) : option Z :=
  let n := Z.of_nat (nat_of_ascii c) in if (48 <=? n) && (n <=? 57) then Some (n - 48) else None.
Fixpoint digits_from (acc : Z) (s : str) : Z :=
  match s with
  | [] => acc
  | c :: t => match digit c with None => acc | Some d => digits_from (10 * acc + d) t end
  end.
Definition stoi (s : str) : Res Z :=
  let s1 := drop_while isspace s in
  let '(sign, s2) := match s1 with
                     | "-" :: t => (-1, t)
                     | "+" :: t => (1, t)
                     | _ => (1, s1)
                     end in
  match s2 with
  | [] => Throw InvalidArgument
  | c :: _ => match digit c with
              | None => Throw InvalidArgument
              | Some _ => let v := sign * digits_from 0 s2 in
                          if (- 2 ^ 31 <=? v) && (v <? 2 ^ 31) then Ok v else Throw OutOfRange
              end
  end.

Section Numbers.
Context {F : NumOps}.

(* pow(10, k): the exact power in real arithmetic, repeated multiplication in doubles *)
Definition npow10 (k : Z) : F :=
  match k with
  | Z0 => n1
  | Zpos p => Pos.iter (fun x => nofZ 10 * x)%num n1 p
  | Zneg p => (n1 / Pos.iter (fun x => nofZ 10 * x)%num n1 p)%num
  end.

(* 88-117 StringToDouble *)
(* 97-102: the loop over the mantissa; fuel is the number of remaining characters plus one, since the
   loop leaves with an exception as soon as i reaches the end of the string; i is a 32 bit unsigned
   number in the code, so this describes strings of less than 2^32 characters *)
Fixpoint mantissa_loop (fuel : nat) (s : str) (found last i : Z) (st : F * F) : Res (F * F) :=
  match fuel with
  | O => Ok st
  | S fuel' =>
      if i <=? last then
        if i =? found then mantissa_loop fuel' s found last (i + 1) st
        else c <- substr s i 1 ;; d <- stoi c ;;
             mantissa_loop fuel' s found last (i + 1)
               ((fst st + nofZ d * snd st)%num, (snd st / nofZ 10)%num)
      else Ok st
  end.
Definition string_to_double (s0 : str) : Res F :=
  c0 <- char_at s0 0 ;;
  let negative := Ascii.eqb c0 "-" in
  let s := if negative then skipn 1 s0 else s0 in
  let found := find_first_of s (fun c => Ascii.eqb c ".") in
  let exponent := find_first_of s (fun c => Ascii.eqb c "E" || Ascii.eqb c "e") in
  let last := if exponent =? npos then u64 (zlen s - 1) else u64 (exponent - 1) in
  let factor := npow10 (if negb (found =? npos) then u64 (found - 1) else u64 (zlen s - 1)) in
  m <- mantissa_loop (S (List.length s)) s found last 0 (n0, factor) ;;
  r <- (if exponent =? npos then Ok (fst m)
        else ce <- char_at s (exponent + 1) ;;
             let minus := Ascii.eqb ce "-" in
             let e := if minus || Ascii.eqb ce "+" then exponent + 1 else exponent in
             t <- substr s (e + 1) (zlen s - e) ;;
             p <- stoi t ;;
             Ok (fst m * (if minus then n1 / npow10 p else npow10 p))%num) ;;
  Ok (nofZ (if negative then -1 else 1) * r)%num.

(* 41-59 DelimitedStringToVector; every round removes at least one character *)
Fixpoint delimited_loop (fuel : nat) (s : str) (acc : list F) : Res (list F) :=
  match fuel with
  | O => Ok acc
  | S fuel' =>
      match s with
      | [] => Ok acc
      | _ => let f1 := find_first_of s (fun c => Ascii.eqb c ",") in
             let f2 := find_first_of s (fun c => Ascii.eqb c ";") in
             if (f1 <? f2) && negb (f1 =? 0) then
               p <- substr s 0 f1 ;; x <- string_to_double (trim p) ;;
               delimited_loop fuel' (skipn (Z.to_nat (f1 + 1)) s) (acc ++ [x])
             else if (f2 <? f1) && negb (f2 =? 0) then
               p <- substr s 0 f2 ;; x <- string_to_double (trim p) ;;
               delimited_loop fuel' (skipn (Z.to_nat (f2 + 1)) s) (acc ++ [x])
             else delimited_loop fuel' (skipn 1 s) acc
      end
  end.
Definition delimited_to_vector (s : str) : Res (list F) := delimited_loop (List.length s) s [].

(* 61-68 StringVectorToNumberVector *)
Definition to_numbers (l : list str) : Res (list F) := mapM string_to_double l.
End Numbers.
