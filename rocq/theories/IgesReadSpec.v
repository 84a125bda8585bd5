(* Vocabulary for IGES files of any origin: entities 126 and 128 (rational B-spline curve and surface). *)
From Coq Require Import ZArith Ascii String List Bool Reals.
From Verif Require Import Base MultiIndex StrSpec StrOps Format XmlReadSpec.
Import ListNotations.
Open Scope Z_scope.

(* the text consists of these lines; the line feed behind the last one may be missing *)
Definition text_of_lines (text : list ascii) (ls : list (list ascii)) : Prop :=
  Forall (Forall (fun c => c <> newline)) ls /\
  (text = flat_map (fun l => l ++ [newline]) ls \/
   exists ls' l, ls = ls' ++ [l] /\ l <> [] /\ text = flat_map (fun l => l ++ [newline]) ls' ++ l).
(* the lines with this letter in column 73 *)
Definition lines_in (c : ascii) (ls : list (list ascii)) : list (list ascii) :=
  filter (fun l => Ascii.eqb (nth 72 l "000"%char) c) ls.
(* the columns from + 1 to from + width *)
Definition columns (line : list ascii) (from width : nat) : list ascii := firstn width (skipn from line).
(* a number with blanks around it *)
Definition shows (t : list ascii) (n : Z) : Prop :=
  0 <= n < 2 ^ 31 /\ exists a b, t = repeat " "%char a ++ int_str n ++ repeat " "%char b.

(* a directory entry: its two lines, the type of the entity, first line and number of lines of its parameter data *)
Record entity := mkEntity { ey_one : list ascii; ey_two : list ascii; ey_type : Z; ey_start : Z; ey_count : Z }.
Definition directory (es : list entity) : list (list ascii) := flat_map (fun e => [ey_one e; ey_two e]) es.
Definition shows_type (e : entity) : Prop := shows (columns (ey_one e) 5 3) (ey_type e).
(* the lines of the parameter data exist *)
Definition points_into (par : list (list ascii)) (e : entity) : Prop :=
  shows (columns (ey_one e) 8 8) (ey_start e) /\ shows (columns (ey_two e) 24 8) (ey_count e) /\
  1 <= ey_start e /\ ey_start e + ey_count e - 1 <= zlen par.
(* the first 64 columns of these lines *)
Definition data_of (par : list (list ascii)) (e : entity) : list ascii :=
  flat_map (firstn 64) (firstn (Z.to_nat (ey_count e)) (skipn (Z.to_nat (ey_start e - 1)) par)).
(* numbers with blanks around them, each followed by a comma or a semicolon, and a rest without these *)
Definition text_of_data (t : list ascii) (ns : list numeral) : Prop :=
  exists es rest, t = join_each (map show_entry es) ++ rest /\ Forall entry_ok es /\ map en_num es = ns /\ Forall (fun c => ~ delim c) rest.

(* three coordinates for each control point *)
Definition spatial (rows : list (list numeral)) (ws : option (list numeral)) (degs : list Z) (knots : list (list numeral)) : source :=
  mkSource [of_string "x"; of_string "y"; of_string "z"] 3 rows ws degs knots.
Definition integer (n : numeral) (z : Z) : Prop := numeral_value n = IZR z.
(* the flag for polynomial splines decides whether the weights count *)
Definition flagged (flag : numeral) (ws : list numeral) (o : option (list numeral)) : Prop :=
  numeral_value flag = 1%R /\ o = None \/ numeral_value flag <> 1%R /\ o = Some ws.

(* 126, K, M, PROP1 to PROP4, knots, weights, control points and anything more *)
Definition curve_data (ns : list numeral) (x : source) : Prop :=
  exists type k m p1 p2 p3 p4 kv ws rows o q rest,
    ns = [type; k; m; p1; p2; p3; p4] ++ kv ++ ws ++ concat rows ++ rest /\ x = spatial rows o [q] [kv] /\
    integer k (zlen rows - 1) /\ integer m q /\ zlen ws = zlen rows /\ flagged p3 ws o.
(* 128, K1, K2, M1, M2, PROP1 to PROP5, knots, weights, control points and at least two numbers more *)
Definition surface_data (ns : list numeral) (x : source) : Prop :=
  exists type k1 k2 m1 m2 p1 p2 p3 p4 p5 kv1 kv2 ws rows o q1 q2 rest,
    ns = [type; k1; k2; m1; m2; p1; p2; p3; p4; p5] ++ kv1 ++ kv2 ++ ws ++ concat rows ++ rest /\
    x = spatial rows o [q1; q2] [kv1; kv2] /\
    integer k1 (zlen kv1 - q1 - 2) /\ integer k2 (zlen kv2 - q2 - 2) /\ integer m1 q1 /\ integer m2 q2 /\
    zlen ws = zlen rows /\ flagged p3 ws o /\ 2 <= zlen rest.

(* the entity is of another type, or describes the spline x *)
Definition says (par : list (list ascii)) (e : entity) (x : option source) : Prop :=
  shows_type e /\
  match x with
  | None => ey_type e <> 126 /\ ey_type e <> 128
  | Some x => points_into par e /\ describes x 0 /\
      exists ns, text_of_data (data_of par e) ns /\ (ey_type e = 126 /\ curve_data ns x \/ ey_type e = 128 /\ surface_data ns x)
  end.
Definition sources (xs : list (option source)) : list source := flat_map (fun o => match o with None => [] | Some x => [x] end) xs.

(* the numbers that the reader takes from the data of a curve or a surface *)
Definition curve_numbers (k m : Z) : Z := 7 + (k + m + 2) + (k + 1) + 3 * (k + 1).
Definition surface_numbers (k1 k2 m1 m2 : Z) : Z := 10 + (k1 + m1 + 2) + (k2 + m2 + 2) + (k1 + 1) * (k2 + 1) + 3 * ((k1 + 1) * (k2 + 1)) + 2.
(* data with too few numbers *)
Definition curve_short (ns : list numeral) : Prop :=
  exists type k m rest K M, ns = type :: k :: m :: rest /\ integer k K /\ integer m M /\ 0 <= K < 2 ^ 31 /\ 0 <= M < 2 ^ 31 /\ zlen ns < curve_numbers K M.
Definition surface_short (ns : list numeral) : Prop :=
  exists type k1 k2 m1 m2 rest K1 K2 M1 M2, ns = type :: k1 :: k2 :: m1 :: m2 :: rest /\
    integer k1 K1 /\ integer k2 K2 /\ integer m1 M1 /\ integer m2 M2 /\
    0 <= K1 < 2 ^ 31 /\ 0 <= K2 < 2 ^ 31 /\ 0 <= M1 < 2 ^ 31 /\ 0 <= M2 < 2 ^ 31 /\ zlen ns < surface_numbers K1 K2 M1 M2.
Definition says_too_little (par : list (list ascii)) (e : entity) : Prop :=
  shows_type e /\ points_into par e /\
  exists ns, text_of_data (data_of par e) ns /\ (ey_type e = 126 /\ curve_short ns \/ ey_type e = 128 /\ surface_short ns).
