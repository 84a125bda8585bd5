(* Vocabulary for statements about strings and numerals. *)
From Coq Require Import ZArith Ascii List Reals.
Import ListNotations.
Open Scope Z_scope.

(* ps are the non-empty maximal pieces of s without separators, in order *)
Inductive pieces (sep : ascii -> Prop) : list ascii -> list (list ascii) -> Prop :=
| pieces_nil : pieces sep [] []
| pieces_sep c s ps : sep c -> pieces sep s ps -> pieces sep (c :: s) ps
| pieces_last p : p <> [] -> Forall (fun c => ~ sep c) p -> pieces sep p [p]
| pieces_cons p c s ps : p <> [] -> Forall (fun c => ~ sep c) p -> sep c ->
    pieces sep s ps -> pieces sep (p ++ c :: s) (p :: ps).

(* ps are the non-empty maximal pieces of s that are followed by a separator *)
Inductive closed_pieces (sep : ascii -> Prop) : list ascii -> list (list ascii) -> Prop :=
| closed_rest p : Forall (fun c => ~ sep c) p -> closed_pieces sep p []
| closed_sep c s ps : sep c -> closed_pieces sep s ps -> closed_pieces sep (c :: s) ps
| closed_cons p c s ps : p <> [] -> Forall (fun c => ~ sep c) p -> sep c ->
    closed_pieces sep s ps -> closed_pieces sep (p ++ c :: s) (p :: ps).

(* p1 d p2 d ... d pn *)
Fixpoint join (d : ascii) (ps : list (list ascii)) : list ascii :=
  match ps with
  | [] => []
  | [p] => p
  | p :: t => p ++ d :: join d t
  end.
(* p1 d1 p2 d2 ... pn dn *)
Definition join_each (ps : list (list ascii * ascii)) : list ascii := flat_map (fun x => fst x ++ [snd x]) ps.

(* white space of the C locale: blank and the characters 9 to 13 *)
Definition white (c : ascii) : Prop := c = " "%char \/ (9 <= nat_of_ascii c <= 13)%nat.
Definition starts_not (P : ascii -> Prop) (s : list ascii) : Prop := match s with [] => True | c :: _ => ~ P c end.

Definition prefix_of (t s : list ascii) : Prop := exists r, s = t ++ r.
Definition suffix_of (t s : list ascii) : Prop := exists r, s = r ++ t.
(* t occurs in s behind a and before b *)
Definition occurs_at (t s : list ascii) (n : nat) : Prop := exists a b, s = a ++ t ++ b /\ length a = n.

(* decimal numerals *)
Definition digits_ok (ds : list Z) : Prop := Forall (fun d => 0 <= d <= 9) ds.
Definition show (ds : list Z) : list ascii := map (fun d => ascii_of_nat (48 + Z.to_nat d)) ds.
(* the number written d1 d2 ... dn *)
Definition digits_value (ds : list Z) : Z := fold_left (fun v d => 10 * v + d) ds 0.

(* an exponent part: the letter, an optional sign (true: minus), the digits *)
Record expo := mkExpo { ex_upper : bool; ex_sign : option bool; ex_digits : list Z }.
Definition show_expo (e : expo) : list ascii :=
  (if ex_upper e then "E" else "e")%char ::
  (match ex_sign e with None => [] | Some true => ["-"%char] | Some false => ["+"%char] end) ++ show (ex_digits e).
Definition expo_ok (e : expo) : Prop := ex_digits e <> [] /\ digits_ok (ex_digits e) /\ digits_value (ex_digits e) < 2 ^ 31.
Definition expo_value (e : expo) : Z :=
  match ex_sign e with Some true => - digits_value (ex_digits e) | _ => digits_value (ex_digits e) end.

(* [-]ip[.frac][exponent] *)
Record numeral := mkNumeral { nu_neg : bool; nu_int : list Z; nu_frac : option (list Z); nu_exp : option expo }.
Definition show_numeral (n : numeral) : list ascii :=
  (if nu_neg n then ["-"%char] else []) ++ show (nu_int n) ++
  (match nu_frac n with None => [] | Some f => "."%char :: show f end) ++
  (match nu_exp n with None => [] | Some e => show_expo e end).
Definition numeral_ok (n : numeral) : Prop :=
  digits_ok (nu_int n) /\ (forall f, nu_frac n = Some f -> digits_ok f) /\ (forall e, nu_exp n = Some e -> expo_ok e) /\
  Z.of_nat (length (show_numeral n)) < 2 ^ 32.
Definition numeral_value (n : numeral) : R :=
  let f := match nu_frac n with None => [] | Some f => f end in
  (IZR (if nu_neg n then -1 else 1) * (IZR (digits_value (nu_int n ++ f)) * powerRZ 10 (- Z.of_nat (length f))) *
   powerRZ 10 (match nu_exp n with None => 0 | Some e => expo_value e end))%R.

(* separators of number lists *)
Definition delim (c : ascii) : Prop := c = ","%char \/ c = ";"%char.
(* at least one digit before the point, and a point if there is an exponent *)
Definition readable (n : numeral) : Prop := nu_int n <> [] /\ (nu_frac n <> None \/ nu_exp n = None).

(* one entry of a list: blanks, numeral, blanks, separator *)
Record entry := mkEntry { en_left : list ascii; en_num : numeral; en_right : list ascii; en_sep : ascii }.
Definition entry_ok (e : entry) : Prop :=
  Forall (fun c => white c \/ c = "["%char) (en_left e) /\ Forall (fun c => white c \/ c = "]"%char) (en_right e) /\
  delim (en_sep e) /\ numeral_ok (en_num e) /\ readable (en_num e).
Definition show_entry (e : entry) : list ascii * ascii := (en_left e ++ show_numeral (en_num e) ++ en_right e, en_sep e).
