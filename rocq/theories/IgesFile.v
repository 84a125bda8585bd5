(* Whole IGES files. *)
From Coq Require Import ZArith Ascii String List Bool Lia Reals Lra.
From Verif Require Import Base BaseFacts MultiIndex MultiIndexSpec MultiIndexFacts TensorSum KnotVec KnotVecSpec Spaces SpacesSpec SpacesFacts SplineEval SplineSpec SplineNew EvalFacts
  StrSpec StrOps StrFacts StrThms StrNum StrDelim Convert ConvertSpec ConvertFacts VtkSpec VtkFacts Format FormatSpec FormatFacts IritFacts IritRead Rebuild XmlFacts Iges IgesFacts IgesData.
Import ListNotations.
Open Scope Z_scope.

Lemma substr_mid (a b c : str) p n : zlen a = p -> zlen b = n -> substr (a ++ b ++ c) p n = Ok b.
Proof.
  intros Ha Hb. rewrite substr_ok by (rewrite !zlen_app; unfold zlen in *; lia). f_equal. unfold zlen in *.
  rewrite skipn_app. replace (Z.to_nat p - List.length a)%nat with 0%nat by lia. rewrite skipn_all2 by lia. cbn [app skipn].
  rewrite firstn_app. replace (Z.to_nat n - List.length b)%nat with 0%nat by lia. rewrite firstn_all2 by lia. cbn [firstn]. now rewrite app_nil_r.
Qed.
Lemma firstn_left {A} (a b : list A) n : zlen a = n -> firstn (Z.to_nat n) (a ++ b) = a.
Proof. intros H. unfold zlen in H. rewrite firstn_app. replace (Z.to_nat n - List.length a)%nat with 0%nat by lia. rewrite firstn_all2 by lia. apply app_nil_r. Qed.
Lemma skipn_left {A} (a b : list A) n : zlen a = n -> skipn (Z.to_nat n) (a ++ b) = b.
Proof. intros H. unfold zlen in H. rewrite skipn_app. replace (Z.to_nat n - List.length a)%nat with 0%nat by lia. rewrite skipn_all2 by lia. reflexivity. Qed.
Lemma zlen_map {A B} (f : A -> B) l : zlen (map f l) = zlen l.
Proof. unfold zlen. now rewrite map_length. Qed.
Lemma two_lines a b tl line : zlen a = 72 -> zlen b = 72 -> map (firstn (Z.to_nat 72)) (lines 72 tl (a ++ b) line) = [a; b].
Proof.
  intros Ha Hb. assert (ER : rows_of 72 (a ++ b) = 2%nat) by (unfold rows_of; rewrite zlen_app, Ha, Hb; reflexivity).
  unfold lines. rewrite ER. cbn [chunks zseq map2 map]. rewrite (firstn_left a b 72 Ha), (skipn_left a b 72 Ha).
  assert (Eb : firstn (Z.to_nat 72) b = b) by (apply firstn_all2; unfold zlen in Hb; lia). rewrite Eb.
  rewrite !firstn_padr by lia. unfold padr. rewrite Ha, Hb. cbn [Z.sub]. change (blanks (72 - 72)) with (@nil ascii). now rewrite !app_nil_r.
Qed.

(* ---- tails of lines ---- *)
Definition ctail (c : ascii) (n : Z) : str := c :: padl (int_str n) 7.
Definition ptail (entity n : Z) : str := " "%char :: padl (int_str entity) 7 ++ "P"%char :: padl (int_str n) 7.
Lemma ctail_ok c n : 0 <= n < 10 ^ 7 -> tail_of c n = Ok (ctail c n).
Proof. intros Hn. unfold tail_of. now rewrite (proj1 (num_block_ok n 7 ltac:(lia) Hn)). Qed.
Lemma ptail_ok e n : 0 <= e < 10 ^ 7 -> 0 <= n < 10 ^ 7 -> tail_p e n = Ok (ptail e n).
Proof. intros He Hn. unfold tail_p. rewrite (proj1 (num_block_ok e 7 ltac:(lia) He)), (proj1 (num_block_ok n 7 ltac:(lia) Hn)). reflexivity. Qed.
Lemma ctail_marks c n : c <> newline -> 0 <= n < 10 ^ 7 -> exists a b, ctail c n = a ++ c :: b /\ zlen a = 72 - 72 /\ Forall no_line (ctail c n).
Proof. intros Hc Hn. exists [], (padl (int_str n) 7). split; [reflexivity|]. split; [reflexivity|]. constructor; [exact Hc|]. now apply num_block_ok. Qed.
Lemma ptail_marks e n : 0 <= e < 10 ^ 7 -> 0 <= n < 10 ^ 7 -> exists a b, ptail e n = a ++ "P"%char :: b /\ zlen a = 72 - 64 /\ Forall no_line (ptail e n).
Proof.
  intros He Hn. destruct (num_block_ok e 7 ltac:(lia) He) as (_ & A & B). destruct (num_block_ok n 7 ltac:(lia) Hn) as (_ & _ & D).
  exists (" "%char :: padl (int_str e) 7), (padl (int_str n) 7). split; [reflexivity|]. split; [unfold zlen in *; cbn [List.length]; lia|].
  constructor; [discriminate|]. apply Forall_app. split; auto. constructor; [discriminate | exact D].
Qed.

(* ---- lists of short texts ---- *)
Lemma join_bound (m : Z) ts : Forall (fun t : str => zlen t <= m) ts -> zlen (join ","%char ts) <= (m + 1) * zlen ts.
Proof.
  induction 1 as [|t ts Ht H IH]; [cbn; lia|]. destruct ts as [|u ts]; [cbn [join]; unfold zlen in *; cbn [List.length] in *; lia|].
  change (join "," (t :: u :: ts)) with (t ++ ","%char :: join ","%char (u :: ts)). rewrite zlen_app. unfold zlen in *. cbn [List.length] in *. lia.
Qed.
Lemma join_line ts : Forall (Forall no_line) ts -> Forall no_line (join ","%char ts).
Proof.
  induction 1 as [|t ts Ht H IH]; [constructor|]. destruct ts as [|u ts]; [exact Ht|].
  change (join "," (t :: u :: ts)) with (t ++ ","%char :: join ","%char (u :: ts)). apply Forall_app. split; auto. constructor; [discriminate | exact IH].
Qed.
Lemma add_all_bound (m : Z) ts : Forall (fun t : str => zlen t <= m) ts -> zlen (add_all ts (of_string ",")) <= (m + 1) * zlen ts.
Proof. induction 1 as [|t ts Ht H IH]; [cbn; lia|]. unfold add_all in *. cbn [flat_map]. rewrite !zlen_app. change (zlen (of_string ",")) with 1. unfold zlen in *. cbn [List.length]. lia. Qed.
Lemma add_all_line ts : Forall (Forall no_line) ts -> Forall no_line (add_all ts (of_string ",")).
Proof. induction 1 as [|t ts Ht H IH]; [constructor|]. unfold add_all in *. cbn [flat_map]. apply Forall_app. split; auto. apply Forall_app. split; auto. repeat constructor. discriminate. Qed.
Lemma int_short n : 0 <= n < 2 ^ 31 -> zlen (int_str n) <= 10 /\ Forall no_line (int_str n).
Proof. intros Hn. split; [apply int_str_len; [lia|]; assert (2 ^ 31 < 10 ^ 10) by reflexivity; lia | apply harmless_line, int_plain, Hn]. Qed.

Definition fine (t : str) : Prop := zlen t <= 1000 /\ Forall no_line t.
Lemma fine_hollerith t : zlen t <= 900 -> Forall no_line t -> fine (hollerith t).
Proof.
  intros Hl Hn. unfold hollerith. destruct (int_short (zlen t)) as [A B]; [unfold zlen in *; lia|]. split.
  - rewrite !zlen_app. change (zlen (of_string "H")) with 1. lia.
  - apply Forall_app. split; auto. apply Forall_app. split; auto. repeat constructor. discriminate.
Qed.
Lemma fine_int n : 0 <= n < 2 ^ 31 -> fine (int_str n).
Proof. intros Hn. destruct (int_short n Hn). split; auto. lia. Qed.
Lemma line_string (s : string) : forallb (fun c => negb (Ascii.eqb c newline)) (list_ascii_of_string s) = true -> Forall no_line (of_string s).
Proof. intros H. apply Forall_forall. intros c Hc. rewrite forallb_forall in H. specialize (H c Hc). intros ->. now rewrite Ascii.eqb_refl in H. Qed.

Section File.
Context {dz : R -> R}.
Notation F := (Rops dz).
Variable fmt : R -> str.
Hypothesis Hfmt : short_text fmt.
Notation rv := (rval (dz := dz) fmt).
Implicit Types s : spline F.
Notation ready := (raw_ready (dz := dz) fmt).
Definition dirs_of s : Z := zlen (degs_of s).
Definition okay (o : any (spline F)) s : Prop := ready (dirs_of s) o s.

Lemma fmt_fine x : zlen (fmt x) <= 100 /\ Forall no_line (fmt x).
Proof. destruct (Hfmt x) as [A B]. split; [exact B | exact A]. Qed.

(* ---- the text of one spline ---- *)
Definition text_of s : str := data_text fmt (dirs_of s) s ++ of_string ";".
Definition nrows s : Z := Z.of_nat (rows_of 64 (text_of s)).
Lemma text_bound o s : okay o s -> zlen (text_of s) <= 101 * iges_numbers s + 1 /\ Forall no_line (text_of s) /\ text_of s <> [] /\ 10 <= iges_numbers s.
Proof.
  intros H. pose proof (rr_wf _ _ _ _ H) as Hwf. destruct (wf_grid s Hwf) as [Hg Ht]. pose proof (head_range fmt (dirs_of s) o s H) as HR. pose proof (rr_dim _ _ _ _ H) as Hd.
  assert (B : Forall (fun t => zlen t <= 100 /\ Forall no_line t) (data_texts fmt (dirs_of s) s)).
  { unfold data_texts. apply Forall_app. split; rewrite Forall_map.
    - eapply Forall_impl; [|exact HR]. intros n Hn. destruct (int_short n Hn). split; auto. lia.
    - apply Forall_forall. intros x _. apply fmt_fine. }
  assert (EK : forall l : list (list R), zlen (concat l) = fold_right Z.add 0 (map (@zlen R) l)).
  { induction l as [|kv l IH]; [reflexivity|]. cbn [concat map fold_right]. rewrite zlen_app. lia. }
  assert (EP : forall l : list (list Z), zlen (flat_map (row3 (padded s)) l) = 3 * zlen l).
  { induction l as [|i l IH]; [reflexivity|]. cbn [flat_map]. rewrite zlen_app, IH. change (zlen (row3 (padded s) i)) with 3. unfold zlen. cbn [List.length]. lia. }
  destruct (data_lengths fmt (dirs_of s) o s H) as (L1 & L2 & L3).
  assert (C : zlen (data_texts fmt (dirs_of s) s) <= iges_numbers s).
  { unfold data_texts, data_numbers. rewrite !zlen_app, !zlen_map, !zlen_app, EK, EP, zlen_map, Hg. unfold iges_numbers.
    assert (zlen (head_ints (dirs_of s) s) <= 10); [|lia].
    unfold head_ints. destruct (dirs_of s =? 1); unfold zlen; cbn [List.length]; rewrite !app_length, map_length; cbn [List.length]; lia. }
  assert (K0 : 0 <= fold_right Z.add 0 (map (@zlen R) (knots_of s))) by (rewrite <- EK; unfold zlen; lia).
  split; [|split; [|split]].
  - unfold text_of. rewrite zlen_app. change (zlen (of_string ";")) with 1. pose proof (join_bound 100 (data_texts fmt (dirs_of s) s)) as J. unfold data_text.
    assert (zlen (join "," (data_texts fmt (dirs_of s) s)) <= (100 + 1) * zlen (data_texts fmt (dirs_of s) s)) by (apply J; eapply Forall_impl; [|exact B]; intros t [X _]; exact X). nia.
  - unfold text_of. apply Forall_app. split; [|repeat constructor; discriminate]. apply join_line. eapply Forall_impl; [|exact B]. intros t [_ X]; exact X.
  - unfold text_of. intros E. apply app_eq_nil in E as [_ E]. discriminate.
  - unfold iges_numbers. lia.
Qed.
Lemma nrows_bound o s : okay o s -> 1 <= nrows s <= 2 * iges_numbers s.
Proof.
  intros H. destruct (text_bound o s H) as (A & _ & B & C). destruct (rows_enough 64 _ ltac:(lia) B) as [_ D]. unfold nrows. split; [lia|].
  unfold rows_of. assert ((zlen (text_of s) - 1) / 64 <= 2 * iges_numbers s - 1); [|assert (0 <= (zlen (text_of s) - 1) / 64) by (apply Z.div_pos; lia); lia].
  apply Z.div_le_upper_bound; lia.
Qed.
Definition code s : Z := if dirs_of s =? 1 then 126 else 128.
Lemma data_lines o s entity line : okay o s -> 0 <= entity < 10 ^ 7 -> 0 <= line -> line + nrows s < 10 ^ 7 ->
  iges_data (F := F) fmt o entity line = Ok (lines 64 (ptail entity) (text_of s) line) /\ Forall (marked "P") (lines 64 (ptail entity) (text_of s) line).
Proof.
  intros H He Hl Hr. destruct (text_bound o s H) as (A & B & C & D). destruct (data_type fmt _ _ _ H) as [E1 E2].
  destruct (rows_enough 64 _ ltac:(lia) C) as [R1 R2]. split.
  - unfold iges_data. rewrite E1. cbn [bind]. rewrite E2. rewrite (data_written fmt _ _ _ H). cbn [bind]. fold (text_of s).
    apply layout_ok; [lia | exact C | unfold nrows in Hr; lia |]. intros n Hn. apply ptail_ok; auto. unfold nrows in Hr. lia.
  - apply lines_marked; [lia | exact B | exact C|]. intros n Hn. apply ptail_marks; auto. unfold nrows in Hr. lia.
Qed.

(* ---- the directory entry ---- *)
Definition cell8 (n : Z) : str := padl (int_str n) 8.
Definition entry_a s (start : Z) : str := cell8 (code s) ++ cell8 start ++ cell8 0 ++ cell8 0 ++ cell8 0 ++ cell8 0 ++ cell8 0 ++ cell8 0 ++ of_string " 0 0 0 1".
Definition entry_b s (len : Z) : str := cell8 (code s) ++ cell8 0 ++ cell8 0 ++ cell8 len ++ cell8 0 ++ padl [] 16 ++ padl (of_string "SPLINE") 8 ++ cell8 0.
Lemma cell8_ok n : 0 <= n < 10 ^ 8 -> num_block n 8 = Ok (cell8 n) /\ zlen (cell8 n) = 8 /\ Forall no_line (cell8 n).
Proof. intros Hn. apply num_block_ok; lia. Qed.
Lemma code_range s : 0 <= code s < 10 ^ 8.
Proof. unfold code. destruct (dirs_of s =? 1); lia. Qed.
Lemma entry_lines o s start len line : okay o s -> 0 <= start < 10 ^ 8 -> 0 <= len < 10 ^ 8 -> 0 <= line -> line + 2 < 10 ^ 7 ->
  let l := lines 72 (ctail "D") (entry_a s start ++ entry_b s len) line in
  iges_entry (F := F) start len o line = Ok l /\ Forall (marked "D") l /\ map (firstn (Z.to_nat 72)) l = [entry_a s start; entry_b s len].
Proof.
  intros H Hs Hn Hl Hr l.
  destruct (cell8_ok start Hs) as (C1 & C2 & C3). destruct (cell8_ok len Hn) as (D1 & D2 & D3). destruct (cell8_ok (code s) (code_range s)) as (E1 & E2 & E3).
  destruct (cell8_ok 0 ltac:(lia)) as (F1 & F2 & F3).
  assert (LA : zlen (entry_a s start) = 72) by (unfold entry_a; rewrite !zlen_app, C2, E2, F2; reflexivity).
  assert (LB : zlen (entry_b s len) = 72) by (unfold entry_b; rewrite !zlen_app, D2, E2, F2; reflexivity).
  assert (NA : Forall no_line (entry_a s start)) by (unfold entry_a; repeat (apply Forall_app; split; auto); now apply line_string).
  assert (NB : Forall no_line (entry_b s len)) by (unfold entry_b; repeat (apply Forall_app; split; auto); repeat constructor; discriminate).
  assert (NE : entry_a s start ++ entry_b s len <> []) by (intros E; apply app_eq_nil in E as [E _]; rewrite E in LA; discriminate).
  assert (LE : zlen (entry_a s start ++ entry_b s len) = 144) by (rewrite zlen_app; lia).
  assert (LR : rows_of 72 (entry_a s start ++ entry_b s len) = 2%nat) by (unfold rows_of; rewrite LE; reflexivity).
  destruct (data_type fmt _ _ _ H) as [T1 T2].
  split; [|split].
  - unfold iges_entry. rewrite T1. cbn [bind]. fold (code s). cbn [mapM]. rewrite E1, C1, F1, D1. cbn [bind]. cbn [get_block zlen List.length Z.of_nat].
    rewrite (get_block_ok [] 16) by (cbn; lia). cbn [bind]. rewrite (get_block_ok (of_string "SPLINE") 8) by (vm_compute; discriminate). cbn [bind app concat]. 
    assert (EC : cell8 (code s) ++ cell8 start ++ cell8 0 ++ cell8 0 ++ cell8 0 ++ cell8 0 ++ cell8 0 ++ cell8 0 ++ of_string " 0 0 0 1" ++
       cell8 (code s) ++ cell8 0 ++ cell8 0 ++ cell8 len ++ cell8 0 ++ padl [] 16 ++ padl (of_string "SPLINE") 8 ++ cell8 0 ++ [] = entry_a s start ++ entry_b s len).
    { unfold entry_a, entry_b. rewrite app_nil_r. repeat rewrite <- app_assoc. reflexivity. }
    rewrite EC. apply layout_ok; auto; [lia | rewrite LE; reflexivity |]. intros n Hn'. rewrite LR in Hn'. apply ctail_ok. lia.
  - apply lines_marked; auto; [lia | apply Forall_app; auto |]. intros n Hn'. rewrite LR in Hn'. apply ctail_marks; [discriminate | lia].
  - now apply two_lines.
Qed.
Lemma entry_reads o s start len : okay o s -> 0 <= start < 10 ^ 8 -> 0 <= len < 10 ^ 8 ->
  (t <- substr (entry_a s start) 5 3 ;; stoi (trim t)) = Ok (code s) /\ substr (entry_a s start) 8 8 = Ok (cell8 start) /\ substr (entry_b s len) 24 8 = Ok (cell8 len).
Proof.
  intros H Hs Hn.
  destruct (cell8_ok start Hs) as (C1 & C2 & C3). destruct (cell8_ok len Hn) as (D1 & D2 & D3). destruct (cell8_ok (code s) (code_range s)) as (E1 & E2 & E3).
  destruct (cell8_ok 0 ltac:(lia)) as (F1 & F2 & F3). split; [|split].
  - unfold entry_a. assert (EC : cell8 (code s) = of_string "     " ++ int_str (code s) /\ zlen (int_str (code s)) = 3) by (unfold code; destruct (dirs_of s =? 1); split; reflexivity).
    destruct EC as [-> L3]. rewrite <- app_assoc. rewrite substr_mid by auto. cbn [bind].
    assert (0 <= code s < 2 ^ 31) by (unfold code; destruct (dirs_of s =? 1); lia). rewrite trim_int by auto. now apply stoi_int.
  - unfold entry_a. now apply substr_mid.
  - unfold entry_b. rewrite (app_assoc (cell8 0)), (app_assoc (cell8 (code s))). apply substr_mid; auto. rewrite !zlen_app. lia.
Qed.

(* ---- both sections ---- *)
Fixpoint dir_lines (line start : Z) (ss : list (spline F)) : list str :=
  match ss with
  | [] => []
  | s :: ss' => lines 72 (ctail "D") (entry_a s start ++ entry_b s (nrows s)) line ++ dir_lines (line + 2) (start + nrows s) ss'
  end.
Fixpoint par_lines (entity line : Z) (ss : list (spline F)) : list str :=
  match ss with
  | [] => []
  | s :: ss' => lines 64 (ptail entity) (text_of s) line ++ par_lines (entity + 2) (line + nrows s) ss'
  end.
Definition all_rows (ss : list (spline F)) : Z := fold_right Z.add 0 (map nrows ss).
Lemma all_rows_bound os ss : Forall2 okay os ss -> zlen ss <= all_rows ss <= 2 * fold_right Z.add 0 (map iges_numbers ss).
Proof.
  induction 1 as [|o s os ss H Hs IH]; [cbn; lia|]. pose proof (nrows_bound o s H). unfold all_rows in *. cbn [map fold_right]. unfold zlen in *. cbn [List.length]. lia.
Qed.
Lemma sections_ok os ss : Forall2 okay os ss -> forall dir par entity, 0 <= entity -> entity + 2 * zlen ss < 10 ^ 7 -> zlen dir + 2 * zlen ss < 10 ^ 7 -> zlen par + all_rows ss < 10 ^ 7 ->
  foldM (fun st spl => let '(dir, par, entity) := st in
    p <- iges_data (F := F) fmt spl entity (zlen par) ;; e <- iges_entry (F := F) (zlen par + 1) (zlen p) spl (zlen dir) ;; Ok (dir ++ e, par ++ p, entity + 2)) os (dir, par, entity)
  = Ok (dir ++ dir_lines (zlen dir) (zlen par + 1) ss, par ++ par_lines entity (zlen par) ss, entity + 2 * zlen ss) /\
  Forall (marked "D") (dir_lines (zlen dir) (zlen par + 1) ss) /\ Forall (marked "P") (par_lines entity (zlen par) ss).
Proof.
  induction 1 as [|o s os ss H Hs IH]; intros dir par entity He H1 H2 H3.
  - cbn [foldM dir_lines par_lines]. rewrite !app_nil_r. split; [repeat f_equal; cbn; lia|]. split; constructor.
  - pose proof (nrows_bound o s H) as NB. unfold all_rows in H3. cbn [map fold_right] in H3. fold (all_rows ss) in H3. pose proof (all_rows_bound os ss Hs) as AB.
    assert (ZS : zlen (s :: ss) = 1 + zlen ss) by (unfold zlen; cbn [List.length]; lia). rewrite ZS in *.
    assert (Z0 : 0 <= zlen ss /\ 0 <= zlen par /\ 0 <= zlen dir) by (unfold zlen; lia).
    destruct (data_lines o s entity (zlen par) H ltac:(lia) ltac:(lia) ltac:(lia)) as [E1 M1].
    destruct (entry_lines o s (zlen par + 1) (nrows s) (zlen dir) H ltac:(lia) ltac:(lia) ltac:(lia) ltac:(lia)) as (E2 & M2 & E3).
    assert (LP : zlen (lines 64 (ptail entity) (text_of s) (zlen par)) = nrows s) by (unfold zlen; now rewrite lines_length).
    cbn [foldM]. rewrite E1. cbn [bind]. rewrite LP, E2. cbn [bind]. cbn [dir_lines par_lines].
    set (D := lines 72 (ctail "D") (entry_a s (zlen par + 1) ++ entry_b s (nrows s)) (zlen dir)) in *. set (PP := lines 64 (ptail entity) (text_of s) (zlen par)) in *.
    assert (LD : zlen D = 2). { transitivity (zlen (map (firstn (Z.to_nat 72)) D)); [symmetry; apply zlen_map | rewrite E3; reflexivity]. }
    destruct (IH (dir ++ D) (par ++ PP) (entity + 2)) as (G1 & G2 & G3); try (rewrite ?zlen_app; lia).
    rewrite !zlen_app, LD, LP in G1, G2. rewrite !zlen_app, LP in G3. replace (zlen par + nrows s + 1) with (zlen par + 1 + nrows s) in G1, G2 by lia.
    split; [|split; apply Forall_app; auto]. rewrite G1. rewrite <- !app_assoc. replace (entity + 2 + 2 * zlen ss) with (entity + 2 * (1 + zlen ss)) by lia. reflexivity.
Qed.

(* ---- reading ---- *)
Definition reader_body (dir par : list str) (i : Z) (acc : list (any (spline F))) : Res (list (any (spline F))) :=
    l <- vget dir (i * 2) ;; t <- substr l 5 3 ;; type <- stoi (trim t) ;;
    if (type =? 126) || (type =? 128) then
      ptr <- iges_pointers dir i ;; data <- iges_vector (F := F) par ptr ;;
      s <- (if type =? 126 then iges_create1 (F := F) toward_zero data else iges_create2 (F := F) toward_zero data) ;; Ok (acc ++ [s])
    else Ok acc.
Lemma vector_ok pre post L a n : zlen pre = a - 1 -> zlen L = n -> iges_vector (F := F) (pre ++ L ++ post) (a, a + n - 1) = delimited_to_vector (F := F) (concat L).
Proof.
  intros Ha Hn. unfold iges_vector. cbn [fst snd]. replace (a + n - 1 - a + 1) with n by lia.
  rewrite (concatM_ok _ (fun i => nth (Z.to_nat (i - (a - 1))) L [])).
  - cbn [bind]. f_equal. f_equal. rewrite <- Hn. unfold zlen. rewrite Nat2Z.id.
    transitivity (map (fun i => nth (Z.to_nat i) L []) (zseq 0 (List.length L))).
    + rewrite !zseq_map, !map_map. apply map_ext. intros k. f_equal. lia.
    + etransitivity; [exact (map_nth_zseq (fun q => q) L []) | apply map_id].
  - intros i Hi. apply zseq_In in Hi. unfold zlen in *. rewrite (vget_nth (A := str) _ i []) by (unfold zlen; rewrite !app_length; lia). f_equal.
    rewrite app_nth2 by lia. rewrite app_nth1 by lia. f_equal. lia.
Qed.
Lemma concat_width (w : nat) (L : list str) : zlen (concat (map (firstn w) L)) <= Z.of_nat w * zlen L.
Proof. induction L as [|l L IH]; [cbn; lia|]. cbn [map concat]. rewrite zlen_app. pose proof (firstn_le_length w l). unfold zlen in *. cbn [List.length]. lia. Qed.
Definition outcome s : Res (any (spline F)) := if dirs_of s =? 1 then Ok (gback_object fmt 1 s) else UB.
Lemma spline_read o s k line start acc preD postD preP postP entity : okay o s -> 0 <= k -> 0 <= line -> zlen preD = 2 * k -> zlen preP = start - 1 -> 1 <= start -> start + nrows s < 10 ^ 7 ->
  reader_body (preD ++ [entry_a s start; entry_b s (nrows s)] ++ postD) (preP ++ map (firstn (Z.to_nat 64)) (lines 64 (ptail entity) (text_of s) line) ++ postP) k acc
  = (x <- outcome s ;; Ok (acc ++ [x])).
Proof.
  intros H Hk Hl HD HP Hs Hr. pose proof (nrows_bound o s H) as NB. destruct (entry_reads o s start (nrows s) H ltac:(lia) ltac:(lia)) as (E1 & E2 & E3).
  unfold reader_body.
  assert (V0 : vget (preD ++ [entry_a s start; entry_b s (nrows s)] ++ postD) (k * 2) = Ok (entry_a s start)).
  { rewrite (vget_nth (A := str) _ _ []) by (unfold zlen in *; rewrite !app_length; cbn [List.length]; lia). f_equal. rewrite app_nth2 by (unfold zlen in HD; lia).
    replace (Z.to_nat (k * 2) - List.length preD)%nat with 0%nat by (unfold zlen in HD; lia). reflexivity. }
  assert (V1 : vget (preD ++ [entry_a s start; entry_b s (nrows s)] ++ postD) (k * 2 + 1) = Ok (entry_b s (nrows s))).
  { rewrite (vget_nth (A := str) _ _ []) by (unfold zlen in *; rewrite !app_length; cbn [List.length]; lia). f_equal. rewrite app_nth2 by (unfold zlen in HD; lia).
    replace (Z.to_nat (k * 2 + 1) - List.length preD)%nat with 1%nat by (unfold zlen in HD; lia). reflexivity. }
  gstep V0.
  match goal with |- bind (substr _ 5 3) ?f = _ => destruct (substr (entry_a s start) 5 3) as [t| |]; cbn [bind] in *; try discriminate E1 end.
  gstep E1. assert (EC : (code s =? 126) || (code s =? 128) = true) by (unfold code; destruct (dirs_of s =? 1); reflexivity). rewrite EC. clear EC.
  assert (EP : iges_pointers (preD ++ [entry_a s start; entry_b s (nrows s)] ++ postD) k = Ok (start, start + nrows s - 1)).
  { unfold iges_pointers. gstep V0. gstep E2. gstep V1. gstep E3. assert (B : 10 ^ 8 < 2 ^ 31) by reflexivity. gstep (read_field start 8 ltac:(lia)). gstep (read_field (nrows s) 8 ltac:(lia)). reflexivity. }
  gstep EP. rewrite vector_ok by (auto; unfold zlen; rewrite map_length, lines_length; reflexivity).
  destruct (text_bound o s H) as (A & B & C & D). destruct (lines_contents 64 (ptail entity) (text_of s) line ltac:(lia) C) as (b & EB).
  pose proof (concat_width (Z.to_nat 64) (lines 64 (ptail entity) (text_of s) line)) as W. rewrite EB in *.
  assert (LL : zlen (lines 64 (ptail entity) (text_of s) line) = nrows s) by (unfold zlen; now rewrite lines_length). rewrite LL in W.
  unfold text_of in *. rewrite <- app_assoc in *.
  gstep (data_read fmt (dirs_of s) o s H b ltac:(lia)). unfold outcome, code. destruct (Z.eqb_spec (dirs_of s) 1) as [E|E].
  - change (126 =? 126) with true. cbv iota. unfold okay in H. rewrite E in *. gstep (create1_ok fmt o s H). reflexivity.
  - change (128 =? 126) with false. cbv iota. pose proof (rr_dim _ _ _ _ H). assert (E2' : dirs_of s = 2) by lia. unfold okay in H. rewrite E2' in *.
    exact (f_equal (fun m : Res (any (spline F)) => bind m _) (create2_ub fmt o s H)).
Qed.
Lemma reader_ok os ss : Forall2 okay os ss -> forall k line start entity pline preD preP acc, 0 <= k -> 0 <= line -> 0 <= pline -> zlen preD = 2 * k -> zlen preP = start - 1 -> 1 <= start -> start + all_rows ss < 10 ^ 7 ->
  0 <= entity -> line + 2 * zlen ss < 10 ^ 7 ->
  foldM (fun acc i => reader_body (preD ++ map (firstn (Z.to_nat 72)) (dir_lines line start ss)) (preP ++ map (firstn (Z.to_nat 64)) (par_lines entity pline ss)) i acc) (zseq k (List.length ss)) acc
  = if forallb (fun s => dirs_of s =? 1) ss then Ok (acc ++ map (gback_object fmt 1) ss) else UB.
Proof.
  induction 1 as [|o s os ss H Hs IH]; intros k line start entity pline preD preP acc Hk Hl Hpl HD HP H1 H2 He H3.
  - cbn [List.length zseq foldM forallb map]. now rewrite app_nil_r.
  - pose proof (nrows_bound o s H) as NB. unfold all_rows in H2. cbn [map fold_right] in H2. fold (all_rows ss) in H2. pose proof (all_rows_bound os ss Hs) as AB.
    assert (ZS : zlen (s :: ss) = 1 + zlen ss) by (unfold zlen; cbn [List.length]; lia). rewrite ZS in *.
    assert (Z0 : 0 <= zlen ss) by (unfold zlen; lia).
    destruct (entry_lines o s start (nrows s) line H ltac:(lia) ltac:(lia) ltac:(lia) ltac:(lia)) as (_ & _ & E3).
    cbn [dir_lines par_lines List.length zseq foldM]. rewrite !map_app.
    assert (E3' : @map str (list ascii) (firstn (Z.to_nat 72)) (lines 72 (ctail "D") (entry_a s start ++ entry_b s (nrows s)) line) = [entry_a s start; entry_b s (nrows s)]) by exact E3.
    rewrite E3'.
    rewrite (spline_read o s k pline start acc preD _ preP _ entity) by (auto; lia).
    cbn [forallb map]. unfold outcome. destruct (dirs_of s =? 1) eqn:Ed; [|reflexivity]. cbn [bind andb].
    specialize (IH (k + 1) (line + 2) (start + nrows s) (entity + 2) (pline + nrows s) (preD ++ [entry_a s start; entry_b s (nrows s)]) (preP ++ map (firstn (Z.to_nat 64)) (lines 64 (ptail entity) (text_of s) pline)) (acc ++ [gback_object fmt 1 s])).
    assert (LP : zlen (map (firstn (Z.to_nat 64)) (lines 64 (ptail entity) (text_of s) pline)) = nrows s) by (unfold zlen; rewrite map_length; now rewrite lines_length).
    rewrite <- !app_assoc in IH. cbn [app] in IH |- *. apply IH; try (rewrite ?zlen_app, ?LP; try change (zlen [entry_a s start; entry_b s (nrows s)]) with 2; lia).
Qed.

(* ---- the other sections ---- *)
Lemma start_ok : exists l, iges_start = Ok l /\ Forall (marked "S") l /\ zlen l = 1.
Proof.
  eexists. split; [unfold iges_start; rewrite get_block_ok by (vm_compute; discriminate); cbn [bind]; rewrite (ctail_ok "S" 1) by lia; reflexivity|].
  split; [|reflexivity]. constructor; [|constructor]. split.
  - apply Forall_app. split; [apply line_padr; now apply line_string|]. destruct (ctail_marks "S" 1 ltac:(discriminate) ltac:(lia)) as (a & b & _ & _ & X). exact X.
  - eexists _, _. split; [reflexivity|]. now apply zlen_padr.
Qed.
Lemma highest_ok os ss : Forall2 okay os ss -> forall h, exists h', foldM (fun h spl => e <- iges_dimension (F := F) spl ;; s <- get_spline (if e =? 126 then 1 else 2) spl ;;
    Ok (if nltb (n := F) h (expansion (sp_ph s)) then expansion (sp_ph s) else h)) os h = Ok h'.
Proof.
  induction 1 as [|o s os ss H Hs IH]; intros h; [exists h; reflexivity|]. cbn [foldM]. destruct (data_type fmt _ _ _ H) as [E1 E2]. rewrite E1. cbn [bind]. rewrite E2, (data_get fmt _ _ _ H). cbn [bind]. apply IH.
Qed.
Lemma global_ok filename time1 time2 os ss : Forall2 okay os ss -> fine filename -> zlen time1 <= 900 -> zlen time2 <= 900 -> Forall no_line time1 -> Forall no_line time2 ->
  exists l, iges_global (F := F) fmt filename time1 time2 os = Ok l /\ Forall (marked "G") l /\ zlen l < 10 ^ 6.
Proof.
  intros H Hf L1 L2 T1 T2. destruct (highest_ok os ss H n0) as (h & Eh). unfold iges_global.
  assert (Eh' : iges_highest (F := F) os = Ok h) by exact Eh. rewrite Eh'. cbn [bind].
  match goal with |- context [add_all ?l _ ++ of_string ";"] => set (ts := l) end.
  assert (Fx : forall x, fine (fmt x)) by (intros x; destruct (fmt_fine x); split; auto; lia).
  assert (Fs : forall s : string, zlen (of_string s) <= 900 -> forallb (fun c => negb (Ascii.eqb c newline)) (list_ascii_of_string s) = true -> fine (hollerith (of_string s))).
  { intros s X Y. apply fine_hollerith; auto. now apply line_string. }
  assert (Hts : Forall fine ts).
  { unfold ts. repeat (constructor; [first [exact Hf | apply Fx | now apply fine_hollerith | (apply fine_int; lia) | (apply Fs; [vm_compute; discriminate | reflexivity])]|]). constructor. }
  set (c := add_all ts (of_string ",") ++ of_string ";").
  assert (Lc : zlen c <= 26000).
  { unfold c. rewrite zlen_app. pose proof (add_all_bound 1000 ts) as B. assert (zlen (add_all ts (of_string ",")) <= (1000 + 1) * zlen ts) by (apply B; eapply Forall_impl; [|exact Hts]; intros t [X _]; exact X).
    change (zlen ts) with 25 in *. change (zlen (of_string ";")) with 1. lia. }
  assert (Nc : Forall no_line c).
  { unfold c. apply Forall_app. split; [apply add_all_line; eapply Forall_impl; [|exact Hts]; intros t [_ X]; exact X | repeat constructor; discriminate]. }
  assert (Ec : c <> []) by (unfold c; intros E; apply app_eq_nil in E as [_ E]; discriminate).
  destruct (rows_enough 72 c ltac:(lia) Ec) as [_ R2]. exists (lines 72 (ctail "G") c 0). split; [|split].
  - apply layout_ok; auto; [lia | lia |]. intros n Hn. apply ctail_ok. lia.
  - apply lines_marked; auto; [lia|]. intros n Hn. apply ctail_marks; [discriminate | lia].
  - unfold zlen. rewrite lines_length. lia.
Qed.
Lemma terminate_ok a b c e : 0 <= a < 10 ^ 7 -> 0 <= b < 10 ^ 7 -> 0 <= c < 10 ^ 7 -> 0 <= e < 10 ^ 7 -> exists l, iges_terminate a b c e = Ok l /\ Forall (marked "T") l.
Proof.
  intros Ha Hb Hc He. destruct (num_block_ok a 7 ltac:(lia) Ha) as (A1 & A2 & A3). destruct (num_block_ok b 7 ltac:(lia) Hb) as (B1 & B2 & B3).
  destruct (num_block_ok c 7 ltac:(lia) Hc) as (C1 & C2 & C3). destruct (num_block_ok e 7 ltac:(lia) He) as (D1 & D2 & D3). destruct (num_block_ok 1 7 ltac:(lia) ltac:(lia)) as (E1 & E2 & E3).
  unfold iges_terminate. rewrite A1, B1, C1, D1, E1. cbn [bind]. rewrite get_block_ok by (vm_compute; discriminate). cbn [bind]. eexists. split; [reflexivity|].
  constructor; [|constructor]. split.
  - assert (L : forall s : string, forallb (fun c => negb (Ascii.eqb c newline)) (list_ascii_of_string s) = true -> Forall no_line (of_string s)) by exact line_string.
    repeat first [assumption | (apply L; reflexivity) | (apply line_padl, L; reflexivity) | apply Forall_app; split].
  - exists (of_string "S" ++ padl (int_str a) 7 ++ of_string "G" ++ padl (int_str b) 7 ++ of_string "D" ++ padl (int_str c) 7 ++ of_string "P" ++ padl (int_str e) 7 ++ blanks 40), (padl (int_str 1) 7).
    split; [|rewrite !zlen_app, A2, B2, C2, D2; reflexivity]. change (padl (of_string "T") 41) with (blanks 40 ++ ["T"%char]). repeat rewrite <- app_assoc. reflexivity.
Qed.

Lemma file_ok filename time1 time2 os ss : Forall2 okay os ss -> fine filename -> zlen time1 <= 900 -> zlen time2 <= 900 -> Forall no_line time1 -> Forall no_line time2 ->
  2 * fold_right Z.add 0 (map iges_numbers ss) < 4000000 ->
  exists text, write_iges (F := F) fmt filename time1 time2 os = Ok text /\
    read_iges (F := F) toward_zero text = if forallb (fun s => dirs_of s =? 1) ss then Ok (map (gback_object fmt 1) ss) else UB.
Proof.
  intros H Hf L1 L2 T1 T2 Hn. pose proof (all_rows_bound os ss H) as AB. assert (Z0 : 0 <= zlen ss) by (unfold zlen; lia).
  destruct start_ok as (ls & S1 & S2 & S3). destruct (global_ok filename time1 time2 os ss H Hf L1 L2 T1 T2) as (lg & G1 & G2 & G3).
  destruct (sections_ok os ss H [] [] 1) as (E1 & E2 & E3); try (cbn [zlen List.length Z.of_nat]; lia).
  set (D := dir_lines (zlen []) (zlen [] + 1) ss) in *. set (PP := par_lines 1 (zlen []) ss) in *. cbn [app] in E1.
  assert (LD : zlen D = 2 * zlen ss).
  { unfold D. clear - Hfmt H AB Z0 Hn. cut (forall a b, 0 <= a -> 1 <= b -> a + 2 * zlen ss < 10 ^ 7 -> b + all_rows ss < 10 ^ 7 -> zlen (dir_lines a b ss) = 2 * zlen ss).
    { intros X. apply X; cbn [zlen List.length Z.of_nat]; lia. }
    clear - Hfmt H. induction H as [|o s os ss H Hs IH]; intros a b Ha Hb H2 H3; [reflexivity|].
    pose proof (nrows_bound o s H) as NB. unfold all_rows in H3. cbn [map fold_right] in H3. fold (all_rows ss) in H3. pose proof (all_rows_bound os ss Hs) as AB.
    assert (ZS : zlen (s :: ss) = 1 + zlen ss) by (unfold zlen; cbn [List.length]; lia). rewrite ZS in *. assert (Z0 : 0 <= zlen ss) by (unfold zlen; lia).
    destruct (entry_lines o s b (nrows s) a H ltac:(lia) ltac:(lia) ltac:(lia) ltac:(lia)) as (_ & _ & E3).
    cbn [dir_lines]. rewrite zlen_app, IH by lia.
    assert (X : zlen (lines 72 (ctail "D") (entry_a s b ++ entry_b s (nrows s)) a) = 2) by (etransitivity; [symmetry; apply (zlen_map (firstn (Z.to_nat 72))) | rewrite E3; reflexivity]). lia. }
  assert (LP : zlen PP = all_rows ss).
  { unfold PP. generalize 1 as a, (zlen (@nil str)) as b. clear. induction ss as [|s ss IH]; intros a b; [reflexivity|]. cbn [par_lines]. rewrite zlen_app, IH. unfold zlen. rewrite lines_length. reflexivity. }
  destruct (terminate_ok (zlen ls) (zlen lg) (zlen D) (zlen PP)) as (lt & U1 & U2); try (unfold zlen in *; lia).
  exists (flat_map (fun l => l ++ [newline]) (ls ++ lg ++ D ++ PP ++ lt)). split.
  - unfold write_iges. gstep S1. gstep G1. assert (E1' : iges_sections (F := F) fmt os = Ok (D, PP, 1 + 2 * zlen ss)) by exact E1. gstep E1'. gstep U1. reflexivity.
  - unfold read_iges. gstep (read_lines ls lg D PP lt S2 G2 E2 E3 U2).
    assert (EZ : (zlen (map (firstn (Z.to_nat 72)) D) + 1) / 2 = zlen ss).
    { assert (X : zlen (map (firstn (Z.to_nat 72)) D) = 2 * zlen ss) by (etransitivity; [apply zlen_map | exact LD]). rewrite X. replace (2 * zlen ss + 1) with (1 + zlen ss * 2) by lia. rewrite Z.div_add by lia. reflexivity. }
    transitivity (for_up 0 (zlen ss) (reader_body (map (firstn (Z.to_nat 72)) D) (map (firstn (Z.to_nat 64)) PP)) []); [rewrite <- EZ; reflexivity|].
    rewrite for_up_foldM. replace (Z.to_nat (zlen ss - 0)) with (List.length ss) by (unfold zlen; lia).
    exact (reader_ok os ss H 0 0 1 1 0 [] [] [] ltac:(lia) ltac:(lia) ltac:(lia) eq_refl eq_refl ltac:(lia) ltac:(lia) ltac:(lia) ltac:(lia)).
Qed.
End File.
