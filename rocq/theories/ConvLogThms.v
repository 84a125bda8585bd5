(* The properties of the converter programs, with examples. *)
From Coq Require Import ZArith Bool Ascii String List Lia Reals.
From Verif Require Import Base BaseFacts VecUtils StrSpec StrOps StrFacts StrNum Format FormatFacts FormatSpec Convert ConvertSpec ConvertFacts ConvertThms ConvLog ConvLogSpec ConvLogFacts.
Import ListNotations.
Open Scope Z_scope.

Section Thms.
Context {dz : R -> R}.
Notation F := (Rops dz).
Notation read_log := (read_log (F := F) toward_zero).

(* ---- reading ---- *)
Lemma log_is_read bs ls text : file_of ls text -> log_lines bs ls -> zlen text < 2 ^ 63 ->
  exists lg, read_log (Some text) = Ok lg /\
    lg_input lg = last (input_paths bs) [] /\ lg_output lg = last (output_paths bs) [] /\ lg_scattering lg = listed_rows bs /\
    (In BAll bs -> hd_error (lg_positions lg) = Some (-1)) /\ (~ In BAll bs -> lg_positions lg = listed_positions bs) /\
    lg_written lg = [] /\ lg_not_written lg = [].
Proof.
  intros Hf Hb Ht. exists (fold_left apply_block bs empty_log). split; [eapply read_log_blocks; eauto|].
  rewrite fold_input, fold_output, fold_rows. repeat split; try apply fold_fresh.
  - intros H. destruct (fold_all bs H empty_log) as (r & ->). reflexivity.
  - intros H. now rewrite fold_positions.
Qed.

(* ---- what is written into the log ---- *)
Lemma commas_out ws : forall w, flat_map (fun p => int_str p ++ of_string ", ") (removelast (w :: ws)) ++ int_str (last (w :: ws) 0) = commas (map int_str (w :: ws)).
Proof.
  induction ws as [|w' ws IH]; intros w; [reflexivity|].
  change (removelast (w :: w' :: ws)) with (w :: removelast (w' :: ws)). change (last (w :: w' :: ws) 0) with (last (w' :: ws) 0). cbn [flat_map].
  rewrite <- !app_assoc, IH. reflexivity.
Qed.
Lemma entry_text time lg : log_entry time lg = log_lines_written time (lg_written lg) (lg_input lg) (lg_output lg).
Proof.
  unfold log_entry, log_lines_written, sentence, one_spline, zlen. destruct (lg_written lg) as [|w ws]; [cbn [List.length]; rewrite <- !app_assoc; reflexivity|].
  pose proof (commas_out ws w) as E. destruct ws as [|w' ws].
  - cbn [List.length removelast last flat_map app]. change (Z.of_nat 1 =? 1) with true. cbv iota. rewrite <- !app_assoc. reflexivity.
  - replace (Z.of_nat (List.length (w :: w' :: ws)) =? 1) with false by (symmetry; apply Z.eqb_neq; cbn [List.length]; lia).
    rewrite E. rewrite <- !app_assoc. reflexivity.
Qed.

Lemma digits_small f : forall n, 0 <= n -> digits_ok (digits10 f n).
Proof.
  induction f as [|f IH]; intros n Hn; cbn [digits10]; [constructor|]. destruct (Z.ltb_spec n 10); [repeat constructor; lia|].
  apply Forall_app. split; [apply IH; apply Z.div_pos; lia|]. pose proof (Z.mod_pos_bound n 10 ltac:(lia)). repeat constructor; lia.
Qed.
Lemma int_one_line n : one_line (int_str n).
Proof.
  unfold int_str, one_line. apply Forall_app. split; [destruct (n <? 0); repeat constructor; discriminate|].
  apply (show_chars (digits10 (S (Z.to_nat (Z.log2 (Z.abs n)))) (Z.abs n))); [apply digits_small; lia|]. each_digit.
Qed.
Lemma commas_one_line ws : one_line (commas (map int_str ws)).
Proof.
  induction ws as [|w ws IH]; [constructor|]. cbn [map commas]. destruct ws as [|w' ws]; cbn [map] in *; [apply int_one_line|].
  apply Forall_app. split; [apply int_one_line|]. repeat constructor; try discriminate. exact IH.
Qed.
Ltac literal := repeat constructor; discriminate.
Lemma sentence_line written i o : one_line i -> one_line o -> one_line (sentence written i o) /\ note (sentence written i o) /\ sentence written i o <> [].
Proof.
  intros Hi Ho. unfold sentence. split; [|split].
  - unfold one_line in *. apply Forall_app. split; [|apply Forall_app; split; [literal | auto]].
    destruct written as [|p [|q w]].
    + repeat (apply Forall_app; split; [first [literal | assumption]|]). literal.
    + apply Forall_app. split; [literal|]. apply Forall_app. split; [apply int_one_line|]. repeat (apply Forall_app; split; [first [literal | assumption]|]). literal.
    + apply Forall_app. split; [literal|]. apply Forall_app. split; [apply commas_one_line|]. repeat (apply Forall_app; split; [first [literal | assumption]|]). literal.
  - unfold note, heading, prefix_of. destruct written as [|p [|q w]]; repeat split; intros (r & E); discriminate E.
  - destruct written as [|p [|q w]]; discriminate.
Qed.
(* the lines of a text with the entry appended *)
Lemma entry_reads time written i o : time_stamp time -> one_line i -> one_line o ->
  exists ex, notes ex /\ forall s ls, reads s ls -> forall text, s = Some text ->
  (exists ex', notes ex' /\ reads (Some (text ++ log_lines_written time written i o)) (ls ++ [] :: ex')).
Proof.
  intros (t & -> & Ht & Hn) Hi Ho. destruct (sentence_line written i o Hi Ho) as (A & B & C). exists []. split; [constructor|].
  assert (Nil : note []) by (apply blank_note; constructor).
  assert (Nl : note (of_string "log:")) by (unfold note, heading, prefix_of; repeat split; intros (r & E); discriminate E).
  set (tl := [of_string "log:"; t; sentence written i o]).
  assert (N : notes tl) by (apply Forall_cons; [exact Nl|]; apply Forall_cons; [exact Hn|]; apply Forall_cons; [exact B | constructor]).
  assert (R : reads (Some (of_string "log:" ++ newline :: (t ++ newline :: sentence written i o))) tl).
  { apply reads_line; [literal|]. apply reads_line; auto. now constructor. }
  assert (R2 : reads (Some (newline :: of_string "log:" ++ newline :: (t ++ newline :: sentence written i o))) ([] :: tl)) by (apply (reads_line []); [constructor | auto]).
  assert (E : log_lines_written (t ++ [newline]) written i o = newline :: newline :: of_string "log:" ++ newline :: (t ++ newline :: sentence written i o)).
  { unfold log_lines_written. rewrite <- !app_assoc. reflexivity. }
  rewrite E. induction 1 as [| |l r ls Hl Hr IH|l Hl Hne]; intros text Et; try discriminate Et; injection Et as <-.
  - exists ([] :: tl). split; [now constructor|]. apply (reads_line []); [constructor | auto].
  - destruct (IH r eq_refl) as (ex' & N' & R'). exists ex'. split; auto. cbn [app]. rewrite <- app_assoc. cbn [app]. now constructor.
  - exists tl. split; auto. cbn [app]. now constructor.
Qed.
Lemma reread text lg time written i o : read_log (Some text) = Ok lg -> no_open_path text -> time_stamp time -> one_line i -> one_line o ->
  read_log (Some (text ++ log_lines_written time written i o)) = Ok lg.
Proof.
  intros E Hc Ht Hi Ho. destruct (file_exists text) as (ls & Hf). pose proof (file_reads _ _ Hf) as Hr.
  destruct (entry_reads time written i o Ht Hi Ho) as (_ & _ & G). destruct (G _ _ Hr text eq_refl) as (ex & Hex & Hr2).
  pose proof (reads_length _ _ Hr _ eq_refl) as L. unfold ConvLog.read_log in *. cbv zeta in *.
  eapply (loop_more ex Hex (List.length ls) ls); [lia | exact Hr | exact Hr2 | | | | | | exact E]; try (rewrite ?app_length; lia).
  intros pre l Els. apply (Hc pre l). now rewrite <- Els.
Qed.

(* ---- the programs ---- *)
Section Program.
Context {A O : Type}.
Variable f : format.
Variable reader : str -> Res (list (any A)).
Variable writer : list (any A) -> list (list Z) -> Res O.
Notation program := (program (F := F) toward_zero f reader writer).

Lemma positions_like lg request possible : lg_written lg = [] -> 
  (hd_error (lg_positions lg) = Some (-1) /\ request = []) \/ (lg_positions lg = request /\ request <> [] /\ hd 0 request <> -1) ->
  exists lg', log_positions lg possible = Ok (get_positions [] request possible, lg') /\ lg_written lg' = get_positions [] request possible /\
    lg_input lg' = lg_input lg /\ lg_output lg' = lg_output lg /\ lg_scattering lg' = lg_scattering lg /\
    log_scattering lg' = get_scattering (lg_scattering lg) request (get_positions [] request possible).
Proof.
  intros Hw H. unfold log_positions, log_scattering. destruct H as [(H & ->)|(<- & Hne & Hh)].
  - destruct (lg_positions lg) as [|p ps] eqn:E; [discriminate|]. injection H as ->. cbn [vget]. change (vget (-1 :: ps) 0) with (Ok (-1)). cbn [bind].
    change (-1 =? -1) with true. cbv iota. eexists. split; [reflexivity|]. cbn [lg_written lg_input lg_output lg_scattering lg_positions].
    do 4 (split; [auto|]). change (vget (-1 :: ps) 0) with (Ok (-1)). cbn [bind]. change (-1 =? -1) with true. reflexivity.
  - destruct (lg_positions lg) as [|p ps] eqn:E; [contradiction|]. cbn [hd] in Hh. change (vget (p :: ps) 0) with (Ok p). cbn [bind].
    replace (p =? -1) with false by (symmetry; now apply Z.eqb_neq). rewrite Hw. eexists. split; [reflexivity|]. cbn [lg_written lg_input lg_output lg_scattering lg_positions].
    do 4 (split; [auto|]). change (vget (p :: ps) 0) with (Ok p). cbn [bind]. replace (p =? -1) with false by (symmetry; now apply Z.eqb_neq). reflexivity.
Qed.

Lemma no_help arg : ~ help_argument arg -> starts_with arg (of_string "--help") || starts_with arg (of_string "-h") = false.
Proof. intros H. rewrite !starts_false; auto; intros G; apply H; [now right | now left]. Qed.

(* the numbers in a log are not negative *)
Lemma listed_numbers bs ls : log_lines bs ls -> Forall number (listed_positions bs).
Proof.
  unfold listed_positions. induction 1; cbn [flat_map app] in *; auto; try (apply Forall_app; auto).
Qed.

Lemma program_runs open time arg text ls bs request splines :
  f <> FError -> ~ help_argument arg -> open arg = Some text -> file_of ls text -> log_lines bs ls -> zlen text < 2 ^ 63 -> asks bs request ->
  reader (last (input_paths bs) []) = Ok splines -> Forall is_spline splines ->
  (f = FVtk -> (List.length (requested splines request) <= List.length (listed_rows bs))%nat) ->
  exists written chosen sc,
    kept (writable f splines) (requested splines request) written /\ Forall2 (entry_at splines) written chosen /\
    (f = FVtk -> kept (fun x => writable f splines (fst x)) (combine (requested splines request) (listed_rows bs)) (combine written sc) /\
                 List.length sc = List.length written) /\ (f <> FVtk -> sc = []) /\
    program open time [arg] =
      (out <- writer chosen sc ;;
       Ok (Converted (last (output_paths bs) []) out (log_lines_written time written (last (input_paths bs) []) (last (output_paths bs) [])))).
Proof.
  intros Hf Hh Ho Hfile Hb Ht Ha Hr Hs Hv.
  destruct (log_is_read bs ls text Hfile Hb Ht) as (lg & El & Ei & Eo & Esc & Hall & Hnot & Hw & _).
  assert (Hreq : (hd_error (lg_positions lg) = Some (-1) /\ request = []) \/ (lg_positions lg = request /\ request <> [] /\ hd 0 request <> -1)).
  { destruct Ha as [(Hi & ->)|(Hi & E & Hne)]; [left; auto | right]. rewrite Hnot, E by auto. repeat split; auto; [congruence|].
    pose proof (listed_numbers _ _ Hb) as N. rewrite <- E in *. destruct request; [contradiction|]. inversion N as [|x y Hx _]; subst. cbn [hd]. unfold number in Hx. lia. }
  destruct (convert_fresh f splines request (listed_rows bs) Hs Hf Hv) as (written & chosen & sc & Ew & Hk & Hc & Hsc).
  destruct (positions_like lg request (possible f splines) Hw Hreq) as (lg' & E1 & E2 & E3 & E4 & E5 & E6).
  rewrite (writer_unfold f [] splines request (listed_rows bs) Hs Hf) in Ew. cbv zeta in Ew. injection Ew as Ew Ew2. rewrite Ew in *.
  destruct (filter_vector splines written) as [l| |] eqn:Efv; cbn [bind] in Ew2; [|discriminate|discriminate].
  exists written, chosen, sc. split; [auto|]. split; [auto|]. split; [auto|].
  assert (Hsc' : (if match f with FVtk => true | _ => false end then log_scattering lg' else Ok []) = Ok sc /\ l = chosen /\ (f <> FVtk -> sc = [])).
  { rewrite E6, Esc. destruct f; try contradiction; cbn [bind] in *; try (injection Ew2 as <- <-; auto).
    destruct (get_scattering (listed_rows bs) request written) as [x| |]; cbn [bind] in Ew2; [|discriminate|discriminate]. injection Ew2 as <- <-. repeat split. intros H. contradiction. }
  destruct Hsc' as (S1 & S2 & S3). split; [exact S3|]. subst l. unfold ConvLog.program, converter. rewrite (no_help arg Hh), Ho, El. cbn [bind]. rewrite Ei, Hr. cbn [as_runtime bind].
  assert (Ep : positions_of_dimension splines (program_dimension f) = Ok (possible f splines)).
  { rewrite (positions_ok splines _ Hs). unfold possible. destruct f; try contradiction; reflexivity. }
  rewrite Ep. cbn [bind]. rewrite E1. cbn [bind fst snd]. rewrite S1. cbn [bind]. rewrite Efv. cbn [bind]. rewrite entry_text, E2, E3, E4, Ei, Eo. reflexivity.
Qed.

(* a program that has converted does the same when it is run on the log with its entry *)
Lemma program_rerun open open' time time' arg text file out entry : program open time [arg] = Ok (Converted file out entry) -> open arg = Some text ->
  no_open_path text -> time_stamp time -> open' arg = Some (text ++ entry) ->
  exists written input output, entry = log_lines_written time written input output /\
    program open' time' [arg] = Ok (Converted file out (log_lines_written time' written input output)).
Proof.
  intros E Ho Hc Ht Ho'. unfold ConvLog.program, converter in *. rewrite Ho' in *. rewrite Ho in E.
  destruct (starts_with arg _ || starts_with arg _); [discriminate|].
  destruct (read_log (Some text)) as [lg| |] eqn:El; cbn [bind] in E; [|discriminate|discriminate].
  destruct (read_paths _ _ El) as (Pi & Po & _).
  destruct (as_runtime (reader (lg_input lg))) as [splines| |] eqn:E1; cbn [bind] in E; [|discriminate|discriminate].
  destruct (positions_of_dimension splines (program_dimension f)) as [possible| |] eqn:E2; cbn [bind] in E; [|discriminate|discriminate].
  destruct (log_positions lg possible) as [[w lg']| |] eqn:E3; cbn [bind fst snd] in E; [|discriminate|discriminate].
  assert (Q : lg_input lg' = lg_input lg /\ lg_output lg' = lg_output lg).
  { unfold log_positions in E3. destruct (vget (lg_positions lg) 0) as [p| |]; cbn [bind] in E3; [|discriminate|discriminate]. injection E3 as _ <-. destruct (p =? -1); auto. }
  destruct (if match f with FVtk => true | _ => false end then log_scattering lg' else Ok []) as [sc| |] eqn:E4; cbn [bind] in E; [|discriminate|discriminate].
  destruct (filter_vector splines w) as [chosen| |] eqn:E5; cbn [bind] in E; [|discriminate|discriminate].
  destruct (writer chosen sc) as [o| |] eqn:E6; cbn [bind] in E; [|discriminate|discriminate]. injection E as Ef Eo Ee. rewrite entry_text in Ee.
  exists (lg_written lg'), (lg_input lg'), (lg_output lg'). split; [auto|].
  rewrite <- Ee. destruct Q as (Qi & Qo).
  assert (El' : read_log (Some (text ++ log_lines_written time (lg_written lg') (lg_input lg') (lg_output lg'))) = Ok lg) by (apply reread; auto; [now rewrite Qi | now rewrite Qo]).
  rewrite El'. cbn [bind]. rewrite E1. cbn [bind]. rewrite E2. cbn [bind]. rewrite E3. cbn [bind fst snd]. rewrite E4. cbn [bind]. rewrite E5. cbn [bind]. rewrite E6. cbn [bind].
  rewrite entry_text, Ef, Eo. reflexivity.
Qed.

(* failures *)
Lemma program_arguments open time args : List.length args <> 1%nat -> program open time args = Throw RuntimeError.
Proof. destruct args as [|a [|b l]]; intros H; try reflexivity. now contradiction H. Qed.
Lemma program_help open time arg : help_argument arg -> program open time [arg] = Ok Help.
Proof.
  intros H. unfold ConvLog.program, converter. destruct H as [H|H]; apply starts_heading in H; rewrite H, ?orb_true_r; reflexivity.
Qed.
Lemma program_no_log open time arg : ~ help_argument arg -> open arg = None -> program open time [arg] = Throw RuntimeError.
Proof. intros H E. unfold ConvLog.program, converter. rewrite (no_help arg H), E. reflexivity. Qed.
Lemma program_bad_input open time arg text ls bs e : ~ help_argument arg -> open arg = Some text -> file_of ls text -> log_lines bs ls -> zlen text < 2 ^ 63 ->
  reader (last (input_paths bs) []) = Throw e -> program open time [arg] = Throw RuntimeError.
Proof.
  intros H Ho Hfile Hb Ht He. destruct (log_is_read bs ls text Hfile Hb Ht) as (lg & El & Ei & _). unfold ConvLog.program, converter. rewrite (no_help arg H), Ho, El. cbn [bind].
  rewrite Ei, He. reflexivity.
Qed.
Lemma program_nothing_asked open time arg text ls bs splines : ~ help_argument arg -> open arg = Some text -> file_of ls text -> log_lines bs ls -> zlen text < 2 ^ 63 ->
  ~ In BAll bs -> listed_positions bs = [] -> reader (last (input_paths bs) []) = Ok splines -> Forall is_spline splines -> program open time [arg] = UB.
Proof.
  intros H Ho Hfile Hb Ht Hn Hp Hr Hs. destruct (log_is_read bs ls text Hfile Hb Ht) as (lg & El & Ei & _ & _ & _ & Hnot & _).
  unfold ConvLog.program, converter. rewrite (no_help arg H), Ho, El. cbn [bind].
  rewrite Ei, Hr. cbn [as_runtime bind]. rewrite (positions_ok splines _ Hs). cbn [bind]. unfold log_positions. rewrite (Hnot Hn), Hp. reflexivity.
Qed.
Lemma program_not_spline open time arg text ls bs splines : ~ help_argument arg -> open arg = Some text -> file_of ls text -> log_lines bs ls -> zlen text < 2 ^ 63 ->
  reader (last (input_paths bs) []) = Ok splines -> ~ Forall is_spline splines -> program open time [arg] = Throw RuntimeError.
Proof.
  intros H Ho Hfile Hb Ht Hr Hs. destruct (log_is_read bs ls text Hfile Hb Ht) as (lg & El & Ei & _).
  unfold ConvLog.program, converter. rewrite (no_help arg H), Ho, El. cbn [bind].
  rewrite Ei, Hr. cbn [as_runtime bind]. rewrite (positions_bad splines _ Hs). reflexivity.
Qed.
End Program.
End Thms.

(* ---- examples ---- *)
Definition text_of (ls : list str) : str := flat_map (fun l => l ++ [newline]) ls.
Definition ex_lines : list str :=
  [of_string "input:"; of_string "in.itd"; []; of_string "output:"; of_string "out.vtk"; []; of_string "options:"; of_string "2"; of_string "1"; of_string "0"; of_string "7";
   of_string "scattering:"; of_string "5 5"; of_string "1"; of_string "4"; of_string "1"].
Definition ex_blocks : list block :=
  [BInput (of_string "in.itd"); BNote []; BOutput (of_string "out.vtk"); BNote []; BPositions [2; 1; 0; 7]; BScattering [[5; 5]; [1]; [4]; [1]]].
Definition ex_time : str := of_string "Mon Nov 16 12:00:00 2026" ++ [newline].
Definition ex_open : str -> option str := fun _ => Some (text_of ex_lines).
Definition ex_entry : str :=
  [newline; newline] ++ of_string "log:" ++ [newline] ++ ex_time ++ of_string "The splines at positions 2, 0 in file in.itd have been written to out.vtk".
Ltac lit_heading := exists []; reflexivity.
Lemma nil_note : note [].
Proof. apply blank_note. constructor. Qed.
Lemma one_lines_dec ls : forallb (fun l => negb (existsb is_newline l)) ls = true -> Forall one_line ls.
Proof.
  intros H. apply Forall_forall. intros l Hl. rewrite forallb_forall in H. apply H in Hl. apply negb_true_iff in Hl.
  apply Forall_forall. intros c Hc ->. rewrite <- not_true_iff_false in Hl. apply Hl. apply existsb_exists. exists newline. split; auto. 
Qed.
Lemma ex_file : file_of ex_lines (text_of ex_lines).
Proof. split; [apply one_lines_dec; reflexivity | left; reflexivity]. Qed.
Ltac numbers := repeat (apply Forall_cons; [unfold number; lia|]); apply Forall_nil.
Lemma ex_log : log_lines ex_blocks ex_lines.
Proof.
  apply ll_input; [lit_heading|]. apply ll_note; [exact nil_note|]. apply ll_output; [lit_heading|]. apply ll_note; [exact nil_note|].
  apply (ll_positions_scattering (of_string "options:") [2; 1; 0; 7] [[5; 5]; [1]; [4]; [1]] []); [lit_heading | numbers |].
  apply (ll_scattering_end (of_string "scattering:") [[5; 5]; [1]; [4]; [1]]); [lit_heading|].
  repeat (apply Forall_cons; [split; [discriminate | numbers]|]); apply Forall_nil.
Qed.
Lemma ex_time_ok : time_stamp ex_time.
Proof.
  exists (of_string "Mon Nov 16 12:00:00 2026"). split; [reflexivity|]. split; [apply (Forall_inv (one_lines_dec [of_string "Mon Nov 16 12:00:00 2026"] eq_refl))|].
  unfold note, heading, prefix_of. repeat split; intros (r & E); discriminate E.
Qed.
Lemma ex_asks : asks ex_blocks [2; 1; 0; 7].
Proof. right. split; [|split; [reflexivity | discriminate]]. intros H. repeat (destruct H as [H|H]; [discriminate H|]). destruct H. Qed.
Lemma ex_no_help : ~ help_argument (of_string "log.txt").
Proof. unfold help_argument, heading, prefix_of. intros [(r & E)|(r & E)]; discriminate E. Qed.
Lemma ex_open_path : no_open_path (text_of ex_lines).
Proof.
  intros ls l (H1 & H2). assert (E : l = of_string "1").
  { assert (R : reads (Some (text_of ex_lines)) (ls ++ [l])) by (apply file_reads; split; auto).
    assert (R2 : reads (Some (text_of ex_lines)) ex_lines) by (apply file_reads; exact ex_file).
    assert (U : forall s a, reads s a -> forall b, reads s b -> a = b).
    { clear. intros s a Ha. induction Ha as [| |x r a Hx Ha IH|x Hx Hne]; intros b Hb.
      - now inversion Hb.
      - inversion Hb as [| |y r' b' Hy Hb' E|y Hy Hne']; subst; auto; [destruct y; discriminate | contradiction].
      - destruct b as [|y b]; [inversion Hb as [| | |]; destruct x; discriminate|].
        assert (Hc : reads (Some (x ++ newline :: r)) (x :: a)) by now constructor.
        destruct (read_line_cons _ _ _ [] Hb) as (s' & E' & Hb'). destruct (read_line_cons _ _ _ [] Hc) as (s2 & E2 & _). rewrite E2 in E'. injection E' as <- <-.
        f_equal. apply IH. unfold read_line in E2. destruct (x ++ newline :: r) as [|c t] eqn:Ex; [discriminate|]. rewrite <- Ex, until_line, has_newline in E2 by auto. injection E2 as <-. exact Hb'.
      - assert (Hc : reads (Some x) [x]) by now constructor.
        destruct b as [|y b]; [inversion Hb; subst; contradiction|].
        destruct (read_line_cons _ _ _ [] Hb) as (s' & E' & Hb'). destruct (read_line_cons _ _ _ [] Hc) as (s2 & E2 & _). rewrite E2 in E'. injection E' as <- <-.
        unfold read_line in E2. destruct x as [|c t] eqn:Ex; [contradiction|]. rewrite <- Ex in *. rewrite until_end, no_newline in E2 by auto. injection E2 as <-. inversion Hb'. reflexivity. }
    pose proof (U _ _ R _ R2) as E. change ex_lines with (removelast ex_lines ++ [of_string "1"]) in E. apply app_inj_tail in E. apply E. }
  subst l. unfold heading, prefix_of. split; intros (r & E); discriminate E.
Qed.
Definition ex_reader : str -> Res (list (any nat)) := fun path => if str_eqb path (of_string "in.itd") then Ok ex_objects else Throw InvalidArgument.
Definition ex_writer : list (any nat) -> list (list Z) -> Res (list (any nat) * list (list Z)) := fun l sc => Ok (l, sc).
Lemma ex_program dz : program (F := Rops dz) toward_zero FVtk ex_reader ex_writer ex_open ex_time [of_string "log.txt"] =
  Ok (Converted (of_string "out.vtk") ([AnyN 2 12%nat; AnyB 1 10%nat], [[5; 5]; [4]]) ex_entry).
Proof.
  destruct (program_runs (dz := dz) FVtk ex_reader ex_writer ex_open ex_time (of_string "log.txt") (text_of ex_lines) ex_lines ex_blocks [2; 1; 0; 7] ex_objects)
    as (w & ch & sc & Hk & Hc & Hsc & _ & E); auto using ex_no_help, ex_file, ex_log, ex_asks, ex_objects_ok; try discriminate; try reflexivity; try (intros _; cbn; lia).
  destruct (convert_fresh FVtk ex_objects [2; 1; 0; 7] [[5; 5]; [1]; [4]; [1]] ex_objects_ok) as (w2 & ch2 & sc2 & E2 & Hk2 & Hc2 & Hs2); [discriminate | intros _; cbn; lia |].
  change (get_writer FVtk [] ex_objects [2; 1; 0; 7] [[5; 5]; [1]; [4]; [1]]) with ([2; 0], Ok ([AnyN 2 12%nat; AnyB 1 10%nat], [[5; 5]; [4]])) in E2. injection E2 as <- <- <-.
  pose proof (kept_unique _ _ _ _ Hk Hk2) as ->. rewrite E. destruct (Hsc eq_refl) as (K1 & L1). destruct (Hs2 eq_refl) as (K2 & L2).
  pose proof (kept_unique _ _ _ _ K1 K2) as Ec.
  assert (Esc : sc = [[5; 5]; [4]]).
  { destruct sc as [|a [|b [|c sc]]]; try discriminate L1. cbn [combine] in Ec. injection Ec as -> ->. reflexivity. }
  assert (Ech : ch = [AnyN 2 12%nat; AnyB 1 10%nat]).
  { inversion Hc as [|p c1 l l' (_ & H1) Hc']; subst. inversion Hc' as [|p' c2 l2 l2' (_ & H2') Hc'']; subst. inversion Hc''; subst. vm_compute in H1, H2'. congruence. }
  subst. reflexivity.
Qed.

(* a heading directly behind the positions is lost, except for the scattering *)
Lemma lost_refuted dz : exists text lg, file_of (map of_string ["input:"; "in.itd"; "options:"; "0"; "output:"; "out.xml"]%string) text /\
  read_log (F := Rops dz) toward_zero (Some text) = Ok lg /\ lg_positions lg = [0] /\ lg_output lg = [].
Proof.
  eexists (text_of _), _. split; [split; [apply one_lines_dec; reflexivity | left; reflexivity]|]. split; [reflexivity|]. split; reflexivity.
Qed.
(* the line breaks of other systems are not understood *)
Lemma carriage_refuted dz : exists text, file_of (map (fun l => of_string l ++ ["013"%char]) ["input:"; "in.itd"; "output:"; "out.xml"; "options:"; "all"]%string) text /\
  read_log (F := Rops dz) toward_zero (Some text) = Throw InvalidArgument.
Proof. eexists (text_of _). split; [split; [apply one_lines_dec; reflexivity | left; reflexivity]|]. reflexivity. Qed.
Lemma nothing_example : log_lines [BInput (of_string "in.itd")] [of_string "input:"; of_string "in.itd"] /\ ~ In BAll [BInput (of_string "in.itd")] /\
  listed_positions [BInput (of_string "in.itd")] = [].
Proof. split; [apply ll_input; [lit_heading | apply ll_end]|]. split; [|reflexivity]. intros [H|H]; [discriminate H | destruct H]. Qed.
