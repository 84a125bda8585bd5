(* C38 string splitting and trimming, C40 decimal parsing, C41 number lists. *)
From Coq Require Import ZArith Ascii String List Reals.
From Verif Require Import Base StrSpec StrOps StrThms StrNum StrDelim StrFacts.
Import ListNotations.
Open Scope Z_scope.

(* splitting gives the pieces without the delimiter and without newline, and these are unique *)
Theorem C38_split : forall s d ps, pieces (fun c => c = d \/ c = newline) s (split s d) /\
  (pieces (fun c => c = d \/ c = newline) s ps -> ps = split s d).
Proof. exact split_both. Qed.
Print Assumptions C38_split.

Theorem C38_join : forall d ps, Forall (fun p => p <> [] /\ Forall (fun c => c <> d /\ c <> newline) p) ps -> split (join d ps) d = ps.
Proof. exact split_join. Qed.
Print Assumptions C38_join.

Theorem C38_trim : forall s m, m = trim s <-> exists l r, s = l ++ m ++ r /\
  Forall (fun c => white c \/ c = "["%char) l /\ Forall (fun c => white c \/ c = "]"%char) r /\
  starts_not (fun c => white c \/ c = "["%char) (m ++ r) /\ starts_not (fun c => white c \/ c = "]"%char) (rev m).
Proof. exact trim_iff. Qed.
Print Assumptions C38_trim.

Example C38_example : split (s_ ",ab,,c,") "," = [s_ "ab"; s_ "c"] /\
  Forall (fun p => p <> [] /\ Forall (fun c => c <> ","%char /\ c <> newline) p) [s_ "ab"; s_ "c"] /\ join "," [s_ "ab"; s_ "c"] = s_ "ab,c".
Proof. exact ex_split. Qed.
Example C38_example_trim : trim (s_ " [[ a b ] ") = s_ "a b".
Proof. exact ex_trim. Qed.

(* numerals with a digit before the point, and a point if there is an exponent, are read correctly *)
Theorem C40_value : forall dz n, numeral_ok n -> readable n -> string_to_double (F := Rops dz) (show_numeral n) = Ok (numeral_value n).
Proof. exact read_readable. Qed.
Print Assumptions C40_value.

(* without a point the length of the exponent part counts as digits of the mantissa *)
Theorem C40_no_point : forall dz n e, numeral_ok n -> nu_int n <> [] -> nu_frac n = None -> nu_exp n = Some e ->
  string_to_double (F := Rops dz) (show_numeral n) = Ok (numeral_value n * powerRZ 10 (Z.of_nat (List.length (show_expo e))))%R.
Proof. exact read_no_point. Qed.
Print Assumptions C40_no_point.

(* without a digit before the point the position of the point minus one wraps around *)
Theorem C40_leading_point : forall dz n f, numeral_ok n -> nu_int n = [] -> nu_frac n = Some f ->
  string_to_double (F := Rops dz) (show_numeral n) = Ok (numeral_value n * powerRZ 10 (2 ^ 64))%R.
Proof. exact read_leading_point. Qed.
Print Assumptions C40_leading_point.

Theorem C40_no_point_refuted : forall dz, exists n, numeral_ok n /\ nu_int n <> [] /\ (numeral_value n = 100000)%R /\ show_numeral n = s_ "1e5" /\
  string_to_double (F := Rops dz) (show_numeral n) = Ok (10000000)%R.
Proof. exact no_point_refuted. Qed.
Print Assumptions C40_no_point_refuted.

Theorem C40_leading_point_refuted : forall dz, exists n, numeral_ok n /\ (numeral_value n = 5 / 10)%R /\ show_numeral n = s_ ".5" /\
  string_to_double (F := Rops dz) (show_numeral n) <> Ok (numeral_value n).
Proof. exact leading_point_refuted. Qed.
Print Assumptions C40_leading_point_refuted.

Example C40_example : numeral_ok num_ex /\ readable num_ex /\ show_numeral num_ex = s_ "-12.50E-01" /\ (numeral_value num_ex = -125 / 100)%R.
Proof. exact (conj num_ex_ok (conj num_ex_readable value_num_ex)). Qed.
Example C40_example_point : numeral_ok num_1e5 /\ nu_int num_1e5 <> [] /\ nu_frac num_1e5 = None /\ nu_exp num_1e5 = Some (mkExpo false None [5]) /\
  numeral_ok num_p5 /\ nu_int num_p5 = [] /\ nu_frac num_p5 = Some [5].
Proof. exact num_points. Qed.

(* every terminated non-empty piece becomes a number, and such pieces exist for every string *)
Theorem C41_pieces : forall dz s ps, closed_pieces delim s ps -> zlen s < 2 ^ 63 ->
  delimited_to_vector (F := Rops dz) s = mapM (fun p => string_to_double (F := Rops dz) (trim p)) ps.
Proof. exact delimited_pieces. Qed.
Print Assumptions C41_pieces.

Theorem C41_pieces_exist : forall s, exists ps, closed_pieces delim s ps.
Proof. exact closed_exist. Qed.
Print Assumptions C41_pieces_exist.

(* numerals between blanks and brackets, each with a separator behind it, are read in order; text after
   the last separator is ignored *)
Theorem C41_values : forall dz es rest, Forall entry_ok es -> Forall (fun c => ~ delim c) rest ->
  zlen (join_each (map show_entry es) ++ rest) < 2 ^ 63 ->
  delimited_to_vector (F := Rops dz) (join_each (map show_entry es) ++ rest) = Ok (map (fun e => numeral_value (en_num e)) es).
Proof. exact read_entries. Qed.
Print Assumptions C41_values.

(* so a number that is not followed by a separator is lost *)
Theorem C41_unterminated_refuted : forall dz, exists s, s = s_ "1,2" /\ delimited_to_vector (F := Rops dz) s = Ok [1%R].
Proof. exact unterminated_refuted. Qed.
Print Assumptions C41_unterminated_refuted.

Example C41_example : Forall entry_ok ex_entries /\ join_each (map show_entry ex_entries) = s_ "[ -12.50E-01 ,-12.50E-01];".
Proof. exact ex_entries_ok. Qed.
