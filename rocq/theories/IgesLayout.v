(* The layout of the files written by write_iges. *)
From Coq Require Import ZArith Ascii String List Bool Lia Reals Lra.
From Verif Require Import Base BaseFacts MultiIndex MultiIndexSpec MultiIndexFacts TensorSum KnotVec KnotVecSpec Spaces SpacesSpec SpacesFacts SplineEval SplineSpec SplineNew EvalFacts
  StrSpec StrOps StrFacts StrThms StrNum StrDelim Convert ConvertSpec ConvertFacts VtkSpec VtkFacts Format FormatSpec FormatFacts IritFacts IritRead Rebuild XmlFacts Iges IgesFacts IgesData IgesFile IgesReadSpec IgesLayoutSpec IgesThms.
Import ListNotations.
Open Scope Z_scope.

(* ---- columns ---- *)
Lemma columns_mid (a b c : list ascii) p n : List.length a = p -> List.length b = n -> columns (a ++ b ++ c) p n = b.
Proof.
  intros Ha Hb. unfold columns. rewrite skipn_app. replace (p - List.length a)%nat with 0%nat by lia. rewrite skipn_all2 by lia. cbn [app skipn].
  rewrite firstn_app. replace (n - List.length b)%nat with 0%nat by lia. rewrite firstn_all2 by lia. cbn [firstn]. apply app_nil_r.
Qed.
Lemma columns_cells (cells : list (list ascii)) rest j c : Forall (fun x => List.length x = 8%nat) cells -> nth_error cells j = Some c ->
  columns (concat cells ++ rest) (8 * j) 8 = c.
Proof.
  revert j; induction cells as [|x cells IH]; intros j H E; [now destruct j|]. inversion_clear H as [|? ? Hx Hc]. destruct j as [|j]; cbn [nth_error] in E.
  - injection E as ->. cbn [concat]. rewrite <- app_assoc. now apply (columns_mid [] c).
  - cbn [concat]. rewrite <- app_assoc. specialize (IH j Hc E). unfold columns in *. rewrite skipn_app.
    replace (8 * S j - List.length x)%nat with (8 * j)%nat by lia. rewrite skipn_all2 by lia. exact IH.
Qed.
Lemma padl_right n w : zlen (int_str n) <= Z.of_nat w -> right_aligned w n (padl (int_str n) (Z.of_nat w)).
Proof.
  intros H. split; [|eexists; reflexivity]. pose proof (zlen_padl (int_str n) (Z.of_nat w) H) as E. unfold zlen in E. lia.
Qed.
Lemma seven_right n : 0 <= n < 10 ^ 7 -> right_aligned 7 n (padl (int_str n) 7).
Proof. intros H. apply (padl_right n 7). apply int_str_len; [lia | exact H]. Qed.
Lemma eight_right n : 0 <= n < 10 ^ 8 -> right_aligned 8 n (cell8 n).
Proof. intros H. apply (padl_right n 8). apply int_str_len; [lia | exact H]. Qed.

(* ---- sections ---- *)
Definition numbered_from (c : ascii) (off : Z) (ls : list (list ascii)) : Prop :=
  forall i l, nth_error ls i = Some l ->
    List.length l = 80%nat /\ columns l 72 1 = [c] /\ right_aligned 7 (off + Z.of_nat i + 1) (columns l 73 7).
Lemma numbered_0 c ls : numbered_from c 0 ls -> numbered c ls.
Proof. intros H i l E. exact (H i l E). Qed.
Lemma numbered_app c off a b : numbered_from c off a -> numbered_from c (off + zlen a) b -> numbered_from c off (a ++ b).
Proof.
  intros Ha Hb i l E. destruct (Nat.lt_ge_cases i (List.length a)) as [L|L].
  - rewrite nth_error_app1 in E by exact L. exact (Ha i l E).
  - rewrite nth_error_app2 in E by exact L. destruct (Hb _ l E) as (A & B & C). split; [exact A|]. split; [exact B|].
    replace (off + Z.of_nat i + 1) with (off + zlen a + Z.of_nat (i - List.length a) + 1) by (unfold zlen; lia). exact C.
Qed.
Lemma lines_nth w tl s line i l : 0 <= w -> nth_error (lines w tl s line) i = Some l ->
  exists c, zlen c <= w /\ l = padr c w ++ tl (line + Z.of_nat i + 1) /\ (i < rows_of w s)%nat.
Proof.
  intros Hw E. assert (L : (i < rows_of w s)%nat) by (rewrite <- (lines_length w tl s line); apply nth_error_Some; congruence).
  unfold lines in E. pose proof (chunks_width (rows_of w s) w s Hw) as W. rewrite Forall_forall in W.
  assert (G : forall (A : list str) (B : list Z), nth_error (map2 (fun c i => padr c w ++ tl (line + i + 1)) A B) i = Some l ->
    exists a b, nth_error A i = Some a /\ nth_error B i = Some b /\ l = padr a w ++ tl (line + b + 1)).
  { clear. intros A; revert i; induction A as [|a A IH]; intros i [|b B] E; cbn [map2] in E; try (destruct i; discriminate).
    destruct i as [|i]; cbn [nth_error] in *; [injection E as <-; eauto | eauto]. }
  destruct (G _ _ E) as (a & b & Ea & Eb & ->). exists a. split; [apply W; eapply nth_error_In; exact Ea|]. split; [|exact L].
  replace b with (Z.of_nat i); [reflexivity|].
  assert (Eb' : nth i (zseq 0 (rows_of w s)) 0 = b) by (apply nth_error_nth; exact Eb). rewrite <- Eb'. rewrite <- (Nat2Z.id i) at 2. rewrite nth_zseq by lia. lia.
Qed.
Lemma length_padr c w : zlen c <= w -> List.length (padr c w) = Z.to_nat w.
Proof. intros H. pose proof (zlen_padr c w H) as E. unfold zlen in *. lia. Qed.
Lemma numbered_c c s line : 0 <= line -> line + Z.of_nat (rows_of 72 s) < 10 ^ 7 -> numbered_from c line (lines 72 (ctail c) s line).
Proof.
  intros Hl Hr i l E. destruct (lines_nth 72 _ s line i l ltac:(lia) E) as (x & Hx & -> & Hi). pose proof (length_padr x 72 Hx) as Lx.
  pose proof (seven_right (line + Z.of_nat i + 1) ltac:(lia)) as [N1 N2]. unfold ctail.
  split; [rewrite app_length; cbn [List.length]; lia|]. split.
  - exact (columns_mid _ [c] _ 72 1 Lx eq_refl).
  - change (c :: ?x) with ([c] ++ x). rewrite app_assoc. rewrite <- (app_nil_r (padl _ 7)) at 1. rewrite columns_mid; [split; auto | rewrite app_length; cbn [List.length]; lia | exact N1].
Qed.
Lemma numbered_p entity s line : 0 <= entity < 10 ^ 7 -> 0 <= line -> line + Z.of_nat (rows_of 64 s) < 10 ^ 7 ->
  numbered_from "P" line (lines 64 (ptail entity) s line) /\ belongs_to entity (lines 64 (ptail entity) s line).
Proof.
  intros He Hl Hr. pose proof (seven_right entity He) as [E1 E2]. split.
  - intros i l E. destruct (lines_nth 64 _ s line i l ltac:(lia) E) as (x & Hx & -> & Hi). pose proof (length_padr x 64 Hx) as Lx.
    pose proof (seven_right (line + Z.of_nat i + 1) ltac:(lia)) as [N1 N2]. unfold ptail.
    set (n := padl (int_str (line + Z.of_nat i + 1)) 7) in *. set (e := padl (int_str entity) 7) in *.
    assert (EQ : padr x 64 ++ " "%char :: e ++ "P"%char :: n = (padr x 64 ++ " "%char :: e) ++ ["P"%char] ++ n) by (cbn [app]; now rewrite <- app_assoc).
    assert (LQ : List.length (padr x 64 ++ " "%char :: e) = 72%nat) by (rewrite app_length; cbn [List.length]; lia).
    rewrite EQ. split; [rewrite !app_length; rewrite app_length in LQ; cbn [List.length] in *; lia|]. split; [now apply columns_mid|].
    rewrite app_assoc. rewrite <- (app_nil_r n) at 1. rewrite columns_mid; [split; auto | rewrite app_length; cbn [List.length]; lia | exact N1].
  - apply Forall_forall. intros l Hin. destruct (In_nth_error _ _ Hin) as (i & E). destruct (lines_nth 64 _ s line i l ltac:(lia) E) as (x & Hx & -> & Hi). pose proof (length_padr x 64 Hx) as Lx.
    unfold ptail. split.
    + change (" "%char :: ?y) with ([" "%char] ++ y). now apply columns_mid.
    + change (" "%char :: ?y) with ([" "%char] ++ y). rewrite app_assoc. rewrite columns_mid; [split; auto | rewrite app_length; cbn [List.length]; lia | exact E1].
Qed.
Lemma concat_widths (w : nat) (L : list str) : Forall (fun l => (w <= List.length l)%nat) L -> List.length (flat_map (firstn w) L) = (w * List.length L)%nat.
Proof. induction 1 as [|l L Hl H IH]; [cbn; lia|]. cbn [flat_map List.length]. rewrite app_length, IH, firstn_length. lia. Qed.
Lemma lines_text w tl s line : 0 < w -> s <> [] -> holds_text (Z.to_nat w) (lines w tl s line) s.
Proof.
  intros Hw Hs. destruct (lines_contents w tl s line Hw Hs) as (k & E). exists (Z.to_nat k). rewrite flat_map_concat_map. split; [exact E|].
  assert (L : List.length (flat_map (firstn (Z.to_nat w)) (lines w tl s line)) = (Z.to_nat w * rows_of w s)%nat).
  { rewrite concat_widths; [now rewrite lines_length|]. apply Forall_forall. intros l Hin. destruct (In_nth_error _ _ Hin) as (i & Ei).
    destruct (lines_nth w tl s line i l ltac:(lia) Ei) as (x & Hx & -> & _). rewrite app_length, (length_padr x w Hx). lia. }
  rewrite flat_map_concat_map, E in L. rewrite app_length in L. unfold blanks in L. rewrite repeat_length in L. 
  assert (H1 : 1 <= zlen s) by (destruct s; [congruence|]; unfold zlen; cbn [List.length]; lia).
  unfold rows_of in L. assert (0 <= (zlen s - 1) / w) by (apply Z.div_pos; lia).
  pose proof (Z.div_mod (zlen s - 1) w ltac:(lia)) as D. pose proof (Z.mod_pos_bound (zlen s - 1) w Hw).
  assert (LZ : zlen s + Z.of_nat (Z.to_nat k) = w * ((zlen s - 1) / w + 1)).
  { unfold zlen at 1. rewrite <- Nat2Z.inj_add, L, Nat2Z.inj_mul, !Z2Nat.id by lia. reflexivity. }
  apply Nat2Z.inj_lt. rewrite (Z2Nat.id w) by lia. nia.
Qed.

Lemma nth_two {A} (a b : A) l k : nth_error (a :: b :: l) (2 * S k) = nth_error l (2 * k) /\ nth_error (a :: b :: l) (2 * S k + 1) = nth_error l (2 * k + 1).
Proof. replace (2 * S k)%nat with (S (S (2 * k))) by lia. split; reflexivity. Qed.

Section Layout.
Context {dz : R -> R}.
Notation F := (Rops dz).
Variable fmt : R -> str.
Hypothesis Hfmt : short_text fmt.
Implicit Types s : spline F.

Lemma code_type s : code s = type_of s.
Proof. reflexivity. Qed.
Lemma text_record s : text_of fmt s = record_of fmt s.
Proof.
  unfold text_of, record_of, data_text, data_texts, head_ints, data_numbers, type_of, dirs_of, flag. f_equal. f_equal. f_equal.
  destruct (zlen (degs_of s) =? 1); reflexivity.
Qed.
Lemma entry_text s start count : 0 <= start < 10 ^ 8 -> 0 <= count < 10 ^ 8 -> forall t1 t2, entry_of (type_of s) start count (entry_a s start ++ t1) (entry_b s count ++ t2).
Proof.
  intros Hs Hc t1 t2. pose proof (eight_right start Hs) as [S1 S2]. pose proof (eight_right count Hc) as [C1 C2]. pose proof (eight_right (code s) (code_range s)) as [T1 T2].
  pose proof (eight_right 0 ltac:(lia)) as [Z1 Z2].
  assert (EA : entry_a s start = concat [cell8 (code s); cell8 start; cell8 0; cell8 0; cell8 0; cell8 0; cell8 0; cell8 0; of_string " 0 0 0 1"]).
  { unfold entry_a. cbn [concat]. now rewrite app_nil_r. }
  assert (EB : entry_b s count = concat [cell8 (code s); cell8 0; cell8 0; cell8 count; cell8 0; blanks 8; blanks 8; padl (of_string "SPLINE") 8; cell8 0]).
  { unfold entry_b. cbn [concat]. rewrite app_nil_r. reflexivity. }
  assert (LA : Forall (fun x => List.length x = 8%nat) [cell8 (code s); cell8 start; cell8 0; cell8 0; cell8 0; cell8 0; cell8 0; cell8 0; of_string " 0 0 0 1"]) by (repeat constructor; auto).
  assert (LB : Forall (fun x => List.length x = 8%nat) [cell8 (code s); cell8 0; cell8 0; cell8 count; cell8 0; blanks 8; blanks 8; padl (of_string "SPLINE") 8; cell8 0]) by (repeat constructor; auto).
  rewrite <- code_type. split.
  - intros j n E. rewrite EA. rewrite (columns_cells _ _ (0 + j) (cell8 n) LA).
    + destruct j as [|[|[|[|[|[|[|[|j]]]]]]]]; cbn [nth_error] in E; try (injection E as <-; split; auto). destruct j; discriminate.
    + destruct j as [|[|[|[|[|[|[|[|j]]]]]]]]; cbn [nth_error] in E; try (injection E as <-; reflexivity). destruct j; discriminate.
  - rewrite EA. exact (columns_cells _ _ 8 _ LA eq_refl).
  - intros j n E. rewrite EB. rewrite (columns_cells _ _ (0 + j) (cell8 n) LB).
    + destruct j as [|[|[|[|[|j]]]]]; cbn [nth_error] in E; try (injection E as <-; split; auto). destruct j; discriminate.
    + destruct j as [|[|[|[|[|j]]]]]; cbn [nth_error] in E; try (injection E as <-; reflexivity). destruct j; discriminate.
  - assert (EM : entry_b s count ++ t2 = (cell8 (code s) ++ cell8 0 ++ cell8 0 ++ cell8 count ++ cell8 0) ++ padl [] 16 ++ (padl (of_string "SPLINE") 8 ++ cell8 0 ++ t2)).
    { unfold entry_b. rewrite <- !app_assoc. reflexivity. }
    rewrite EM. apply columns_mid; [rewrite !app_length; lia | reflexivity].
  - rewrite EB. exact (columns_cells _ _ 7 _ LB eq_refl).
  - intros j n E. rewrite EB. destruct j as [|j]; cbn [nth_error] in E; [|destruct j; discriminate]. injection E as <-. rewrite (columns_cells _ _ 8 (cell8 0) LB); [split; auto | reflexivity].
Qed.
Lemma two_lines_explicit a b tl line : zlen a = 72 -> zlen b = 72 -> lines 72 tl (a ++ b) line = [a ++ tl (line + 1); b ++ tl (line + 2)].
Proof.
  intros Ha Hb. assert (ER : rows_of 72 (a ++ b) = 2%nat) by (unfold rows_of; rewrite zlen_app, Ha, Hb; reflexivity).
  unfold lines. rewrite ER. cbn [chunks zseq map2]. rewrite (firstn_left a b 72 Ha), (skipn_left a b 72 Ha).
  assert (Eb : firstn (Z.to_nat 72) b = b) by (apply firstn_all2; unfold zlen in Hb; lia). rewrite Eb.
  unfold padr. rewrite Ha, Hb. change (blanks (72 - 72)) with (@nil ascii). rewrite !app_nil_r. replace (line + 0 + 1) with (line + 1) by lia. replace (line + (0 + 1) + 1) with (line + 2) by lia. reflexivity.
Qed.
Lemma entry_a_len s start : 0 <= start < 10 ^ 8 -> zlen (entry_a s start) = 72.
Proof. intros Hs. destruct (cell8_ok start Hs) as (_ & C2 & _). destruct (cell8_ok (code s) (code_range s)) as (_ & E2 & _). destruct (cell8_ok 0 ltac:(lia)) as (_ & F2 & _). unfold entry_a. rewrite !zlen_app, C2, E2, F2. reflexivity. Qed.
Lemma entry_b_len s start : 0 <= start < 10 ^ 8 -> zlen (entry_b s start) = 72.
Proof. intros Hs. destruct (cell8_ok start Hs) as (_ & C2 & _). destruct (cell8_ok (code s) (code_range s)) as (_ & E2 & _). destruct (cell8_ok 0 ltac:(lia)) as (_ & F2 & _). unfold entry_b. rewrite !zlen_app, C2, E2, F2. reflexivity. Qed.

(* ---- directory and parameter data ---- *)
Lemma par_length (ss : list (spline F)) : forall entity line, zlen (par_lines fmt entity line ss) = all_rows fmt ss.
Proof. induction ss as [|s ss IH]; intros a b; [reflexivity|]. cbn [par_lines]. rewrite zlen_app, IH. unfold zlen. rewrite lines_length. reflexivity. Qed.
Lemma sections_layout os (ss : list (spline F)) : Forall2 (okay fmt) os ss -> forall line start entity, 0 <= line -> 1 <= start -> 0 <= entity -> entity + 2 * zlen ss < 10 ^ 7 -> line + 2 * zlen ss < 10 ^ 7 -> start + all_rows fmt ss < 10 ^ 7 ->
  let di := dir_lines fmt line start ss in let pa := par_lines fmt entity (start - 1) ss in
  numbered_from "D" line di /\ zlen di = 2 * zlen ss /\ numbered_from "P" (start - 1) pa /\
  forall k s, nth_error ss k = Some s -> exists one two,
    let before := fold_right Z.add 0 (firstn k (map (nrows fmt) ss)) in let count := nth k (map (nrows fmt) ss) 0 in
    let data := firstn (Z.to_nat count) (skipn (Z.to_nat before) pa) in
    nth_error di (2 * k) = Some one /\ nth_error di (2 * k + 1) = Some two /\
    entry_of (type_of s) (start + before) count one two /\ 1 <= count /\
    belongs_to (entity + 2 * Z.of_nat k) data /\ holds_text 64 data (record_of fmt s).
Proof.
  induction 1 as [|o s os ss H Hs IH]; intros line start entity Hl Hst He H1 H2 H3; cbv zeta.
  - cbn [dir_lines par_lines]. split; [intros [|i] l E; discriminate|]. split; [reflexivity|]. split; [intros [|i] l E; discriminate|]. intros [|k] s E; discriminate.
  - pose proof (nrows_bound fmt Hfmt o s H) as NB. unfold all_rows in H3. cbn [map fold_right] in H3. fold (all_rows fmt ss) in H3. pose proof (all_rows_bound fmt Hfmt os ss Hs) as AB.
    assert (ZS : zlen (s :: ss) = 1 + zlen ss) by (unfold zlen; cbn [List.length]; lia). rewrite ZS in *. assert (Z0 : 0 <= zlen ss) by (unfold zlen; lia).
    destruct (text_bound fmt Hfmt o s H) as (_ & _ & TN & _).
    cbn [dir_lines par_lines]. rewrite two_lines_explicit by (first [apply entry_a_len | apply entry_b_len]; lia).
    set (one := entry_a s start ++ ctail "D" (line + 1)). set (two := entry_b s (nrows fmt s) ++ ctail "D" (line + 2)).
    destruct (IH (line + 2) (start + nrows fmt s) (entity + 2)) as (N1 & L1 & N2 & G); try lia. cbv zeta in N1, L1, N2, G.
    replace (start + nrows fmt s - 1) with (start - 1 + nrows fmt s) in N2, G by lia.
    set (D' := dir_lines fmt (line + 2) (start + nrows fmt s) ss) in *. set (P' := par_lines fmt (entity + 2) (start - 1 + nrows fmt s) ss) in *.
    set (P0 := lines 64 (ptail entity) (text_of fmt s) (start - 1)) in *.
    assert (LP : zlen P0 = nrows fmt s) by (unfold zlen, P0; now rewrite lines_length).
    destruct (numbered_p entity (text_of fmt s) (start - 1) ltac:(lia) ltac:(lia)) as [Q1 Q2]; [fold (nrows fmt s); lia|]. fold P0 in Q1, Q2.
    assert (Q3 : holds_text 64 P0 (record_of fmt s)) by (rewrite <- text_record; apply (lines_text 64); [lia | exact TN]).
    assert (ND : numbered_from "D" line [one; two]).
    { unfold one, two. rewrite <- two_lines_explicit by (first [apply entry_a_len | apply entry_b_len]; lia). apply numbered_c; [exact Hl|].
      unfold rows_of. rewrite zlen_app, entry_a_len, entry_b_len by lia. change (Z.of_nat (Z.to_nat ((72 + 72 - 1) / 72 + 1))) with 2. lia. }
    split; [apply numbered_app; [exact ND | exact N1]|]. split; [rewrite zlen_app, L1; change (zlen [one; two]) with 2; lia|].
    assert (LP' : zlen (A := list ascii) P0 = nrows fmt s) by exact LP. split; [apply numbered_app; [exact Q1 | rewrite LP'; exact N2]|].
    intros [|k] s' E.
    + cbn [nth_error] in E. injection E as <-. exists one, two. cbn [firstn fold_right map nth]. 
      assert (ED : firstn (Z.to_nat (nrows fmt s)) (skipn (Z.to_nat 0) (P0 ++ P')) = P0).
      { cbn [Z.to_nat skipn]. apply firstn_left. exact LP. }
      rewrite ED. split; [reflexivity|]. split; [reflexivity|]. split; [rewrite Z.add_0_r; apply entry_text; lia|]. split; [lia|].
      change (Z.of_nat 0) with 0. replace (entity + 2 * 0) with entity by lia. split; [exact Q2 | exact Q3].
    + cbn [nth_error] in E. destruct (G k s' E) as (one' & two' & G1 & G2 & G3 & G4 & G5 & G6). exists one', two'. cbn [firstn fold_right map nth].
      cbn [app]. destruct (nth_two one two D' k) as [X Y]. split; [exact (eq_trans X G1)|]. split; [exact (eq_trans Y G2)|].
      set (b := fold_right Z.add 0 (firstn k (map (nrows fmt) ss))) in *.
      assert (B0 : 0 <= b).
      { unfold b. clear - Hs Hfmt. revert k. induction Hs as [|o s os ss H Hs IH]; intros k; [destruct k; cbn; lia|]. destruct k as [|k]; [cbn; lia|]. cbn [map firstn fold_right]. pose proof (nrows_bound fmt Hfmt o s H). specialize (IH k). lia. }
      assert (ED : skipn (Z.to_nat (nrows fmt s + b)) (P0 ++ P') = skipn (Z.to_nat b) P').
      { rewrite Z2Nat.inj_add by lia. rewrite <- skipn_twice. f_equal. apply skipn_left. exact LP. }
      rewrite ED. replace (start + (nrows fmt s + b)) with (start + nrows fmt s + b) by lia. split; [exact G3|]. split; [exact G4|].
      replace (entity + 2 * Z.of_nat (S k)) with (entity + 2 + 2 * Z.of_nat k) by lia. split; [exact G5 | exact G6].
Qed.
End Layout.
