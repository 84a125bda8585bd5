(* Lemmas about the converter log. *)
From Coq Require Import ZArith Bool Ascii String List Lia Reals.
From Verif Require Import Base BaseFacts VecUtils StrSpec StrOps StrFacts StrThms StrNum Format FormatFacts FormatSpec XmlFacts IgesFacts Convert ConvertSpec ConvertFacts ConvertThms ConvLog ConvLogSpec.
Import ListNotations.
Open Scope Z_scope.

(* ---- streams and lines ---- *)
Inductive reads : stream -> list str -> Prop :=
| reads_none : reads None []
| reads_empty : reads (Some []) []
| reads_line l r ls : one_line l -> reads (Some r) ls -> reads (Some (l ++ newline :: r)) (l :: ls)
| reads_last l : one_line l -> l <> [] -> reads (Some l) [l].

Lemma until_line l r : one_line l -> until newline (l ++ newline :: r) = (l, r).
Proof.
  induction 1 as [|c l Hc H IH]; cbn [app until]; [now rewrite Ascii.eqb_refl|].
  destruct (Ascii.eqb_spec c newline); [contradiction|]. now rewrite IH.
Qed.
Lemma until_end l : one_line l -> until newline l = (l, []).
Proof.
  induction 1 as [|c l Hc H IH]; cbn [until]; [reflexivity|]. destruct (Ascii.eqb_spec c newline); [contradiction|]. now rewrite IH.
Qed.
Lemma no_newline l : one_line l -> existsb is_newline l = false.
Proof. induction 1 as [|c l Hc H IH]; cbn [existsb]; [reflexivity|]. rewrite IH. unfold is_newline. destruct (Ascii.eqb_spec c newline); [contradiction|reflexivity]. Qed.
Lemma has_newline l r : existsb is_newline (l ++ newline :: r) = true.
Proof. rewrite existsb_app. cbn [existsb]. unfold is_newline at 2. rewrite Ascii.eqb_refl. cbn. now rewrite orb_true_r. Qed.

Lemma read_line_cons s l ls line : reads s (l :: ls) -> exists s', read_line s line = (true, l, s') /\ reads s' ls.
Proof.
  intros H. inversion H as [| |l' r ls' Hl Hr|l' Hl Hne]; subst.
  - exists (Some r). split; [|exact Hr]. unfold read_line. destruct (l ++ newline :: r) as [|c t] eqn:E; [destruct l; discriminate|].
    rewrite <- E, until_line, has_newline by auto. reflexivity.
  - exists None. split; [|constructor]. unfold read_line. destruct l as [|c t] eqn:E; [contradiction|]. rewrite <- E in *.
    rewrite until_end, no_newline by auto. reflexivity.
Qed.
Lemma read_line_nil s line : reads s [] -> exists l, read_line s line = (false, l, None) /\ (l = line \/ l = []).
Proof. intros H. inversion H; subst; cbn [read_line]; eauto. Qed.
Lemma reads_length s ls : reads s ls -> forall t, s = Some t -> (List.length ls <= List.length t)%nat.
Proof.
  induction 1 as [| |l r ls Hl Hr IH|l Hl Hne]; intros t E; try discriminate E; injection E as <-; cbn [List.length]; try lia.
  - specialize (IH r eq_refl). rewrite app_length. cbn [List.length]. lia.
  - destruct l; [contradiction|]. cbn [List.length]. lia.
Qed.
Lemma reads_one_line s ls : reads s ls -> Forall one_line ls.
Proof. induction 1; auto. Qed.
Lemma file_reads ls text : file_of ls text -> reads (Some text) ls.
Proof.
  intros (H & E). destruct E as [->|(ls' & l & -> & Hne & ->)].
  - induction H as [|l ls Hl H IH]; cbn [flat_map]; [constructor|]. rewrite <- app_assoc. cbn [app]. now constructor.
  - induction ls' as [|l' ls' IH]; cbn [app flat_map] in *; [inversion H; subst; now constructor|].
    inversion H; subst. rewrite <- !app_assoc. cbn [app]. constructor; auto.
Qed.
(* every text has lines *)
Lemma reads_exists : forall n text, (List.length text <= n)%nat -> exists ls, reads (Some text) ls.
Proof.
  induction n as [|n IH]; intros text Hn; [destruct text; [exists []; constructor | cbn in Hn; lia]|].
  destruct text as [|c t]; [exists []; constructor|]. pose proof (until_spec newline (c :: t)) as H. destruct (until newline (c :: t)) as [a b].
  destruct H as (Ha & [E|(E & Eb)]).
  - destruct (IH b) as (ls & Hls). { apply (f_equal (@List.length ascii)) in E. rewrite app_length in E. cbn [List.length] in E, Hn. lia. }
    exists (a :: ls). rewrite E. now constructor.
  - exists [a]. rewrite E. constructor; [auto | rewrite <- E; discriminate].
Qed.
Lemma file_exists text : exists ls, file_of ls text.
Proof.
  destruct (reads_exists (List.length text) text (le_n _)) as (ls & H). exists ls. split; [eapply reads_one_line; eauto|].
  enough (G : forall s ls, reads s ls -> forall t, s = Some t -> t = flat_map (fun l => l ++ [newline]) ls \/
     exists ls' l, ls = ls' ++ [l] /\ l <> [] /\ t = flat_map (fun l => l ++ [newline]) ls' ++ l) by (eapply G; eauto).
  clear. induction 1 as [| |l r ls Hl Hr IH|l Hl Hne]; intros t E; try discriminate E; injection E as <-; auto.
  - destruct (IH r eq_refl) as [->|(ls' & l' & -> & Hne & ->)].
    + left. cbn [flat_map]. now rewrite <- app_assoc.
    + right. exists (l :: ls'), l'. split; [reflexivity|]. split; [auto|]. cbn [flat_map]. now rewrite <- !app_assoc.
  - right. exists [], l. auto.
Qed.

(* ---- headings ---- *)
Lemma starts_heading k l : starts_with l (of_string k) = true <-> heading k l.
Proof. apply starts_with_spec. Qed.
Lemma starts_false k l : ~ heading k l -> starts_with l (of_string k) = false.
Proof. intros H. apply not_true_is_false. now rewrite starts_heading. Qed.
Lemma heading_other k k' l : heading k l -> is_prefix (of_string k) (of_string k') = false -> is_prefix (of_string k') (of_string k) = false -> ~ heading k' l.
Proof.
  intros (r & ->) H1 H2 (r' & E). revert r r' H1 H2 E. generalize (of_string k) (of_string k'). intros a. induction a as [|c a IH]; intros b r r' H1 H2 E; [discriminate|].
  destruct b as [|d b]; [discriminate|]. cbn [app] in E. injection E as <- E. cbn [is_prefix] in H1, H2. rewrite Ascii.eqb_refl in H1, H2. eapply IH; eauto.
Qed.
Ltac other H := apply starts_false; first [exact (heading_other _ "input:" _ H eq_refl eq_refl) | exact (heading_other _ "output:" _ H eq_refl eq_refl)
  | exact (heading_other _ "options:" _ H eq_refl eq_refl) | exact (heading_other _ "scattering:" _ H eq_refl eq_refl)].

Lemma trim_blank l : blank l -> trim l = [].
Proof.
  intros H. unfold trim. replace (drop_while (fun c => isspace c || Ascii.eqb c "[") l) with (@nil ascii); [reflexivity|].
  induction H as [|c l Hc H IH]; [reflexivity|]. cbn [drop_while]. apply isspace_white in Hc. rewrite Hc. cbn [orb]. exact IH.
Qed.
Lemma stops_blank l : blank l -> stops l = true.
Proof. intros H. unfold stops. rewrite trim_blank by auto. reflexivity. Qed.
Lemma blank_note l : blank l -> note l.
Proof.
  intros H. unfold note, heading, prefix_of. repeat split; intros (r & ->); cbn in H; inversion H as [|c t Hc Ht]; subst;
  destruct Hc as [Hc|Hc]; try discriminate Hc; cbn in Hc; lia.
Qed.

(* a line without colon that is not blank does not end a list *)
Lemma stops_not l : zlen l < 2 ^ 63 -> Forall (fun c => c <> ":"%char) l -> trim l <> [] -> stops l = false.
Proof.
  intros Hl Hc Hne. unfold stops. apply not_true_is_false. destruct (trim_spec l) as (a & b & E & _).
  assert (Z1 : zlen (trim l) <= zlen l) by (rewrite E at 2; unfold zlen; rewrite !app_length; lia).
  rewrite ends_with_spec by (cbn; lia). intros [((r & E2) & _)|H].
  - rewrite E, E2, Forall_forall in Hc. apply (Hc ":"%char); [|reflexivity]. rewrite !in_app_iff. cbn. auto.
  - change (zlen (of_string ":")) with 1 in H. destruct (trim l); [contradiction|]. unfold zlen in H. cbn [List.length] in H. lia.
Qed.
Lemma int_str_shape n : number n -> exists ds, int_str n = show ds /\ digits_ok ds /\ ds <> [] /\ (List.length ds <= 31)%nat.
Proof. intros H. destruct (int_str_show n H) as (ds & E & A & B & _ & D). eauto. Qed.
Lemma show_chars ds (P : ascii -> Prop) : digits_ok ds -> (forall d, 0 <= d <= 9 -> P (dchar d)) -> Forall P (show ds).
Proof. intros H HP. unfold show. apply Forall_map. eapply Forall_impl; [|exact H]. exact HP. Qed.
Lemma int_chars n (P : ascii -> Prop) : number n -> (forall d, 0 <= d <= 9 -> P (dchar d)) -> Forall P (int_str n).
Proof. intros H HP. destruct (int_str_shape n H) as (ds & -> & A & _). now apply show_chars. Qed.
Ltac each_digit := let d := fresh in let H := fresh in intros d H; pattern d; apply (fun P a0 a1 a2 a3 a4 a5 a6 a7 a8 a9 => digit_cases d P a0 a1 a2 a3 a4 a5 a6 a7 a8 a9 H); vm_compute; intuition discriminate.
Lemma stops_int n : number n -> stops (int_str n) = false.
Proof.
  intros H. apply stops_not.
  - destruct (int_str_shape n H) as (ds & -> & _ & _ & L). unfold zlen. rewrite show_length. lia.
  - apply int_chars; auto. each_digit.
  - rewrite trim_int by auto. now apply int_plain.
Qed.
Lemma row_chars r (P : ascii -> Prop) : Forall number r -> (forall d, 0 <= d <= 9 -> P (dchar d)) -> P " "%char -> Forall P (row_line r).
Proof.
  intros H HP Hb. unfold row_line. induction H as [|n r Hn H IH]; cbn [map join]; [constructor|].
  destruct r as [|n' r]; cbn [map] in *; [now apply int_chars|]. apply Forall_app. split; [now apply int_chars|]. constructor; auto.
Qed.
Lemma row_head r : row_ok r -> exists d t, row_line r = dchar d :: t /\ 0 <= d <= 9.
Proof.
  intros (Hne & H). destruct r as [|n r]; [contradiction|]. inversion H; subst. destruct (int_str_shape n) as (ds & E & A & B & _); auto.
  destruct ds as [|d ds]; [contradiction|]. inversion A; subst. unfold row_line. cbn [map join]. rewrite E.
  destruct r as [|n' r]; cbn [map]; exists d; eexists; (split; [reflexivity|auto]).
Qed.
Lemma stops_row r : row_ok r -> zlen (row_line r) < 2 ^ 63 -> stops (row_line r) = false.
Proof.
  intros Hr Hl. apply stops_not; auto.
  - apply row_chars; [apply Hr | each_digit | discriminate].
  - intros E. destruct (trim_spec (row_line r)) as (a & b & E2 & Ha & Hb & _). rewrite E in E2. cbn [app] in E2. destruct (row_head r Hr) as (d & t & E3 & Hd).
    assert (In (dchar d) (a ++ b)) by (rewrite <- E2, E3; now left).
    assert (N : ~ white (dchar d) /\ dchar d <> "["%char /\ dchar d <> "]"%char).
    { clear - Hd. revert Hd. generalize d. intros e He. destruct (dchar_plain e He) as (W & _). rewrite <- isspace_white, W.
      split; [discriminate|]. revert e He W. intros e He _. revert e He. each_digit. }
    rewrite Forall_forall in Ha, Hb. apply in_app_iff in H. destruct H as [H|H]; [apply Ha in H | apply Hb in H]; tauto.
Qed.

Section Read.
Context {dz : R -> R}.
Notation F := (Rops dz).
Notation options_loop := (options_loop) (only parsing).
Notation row_of := (row_of (F := F) toward_zero).
Notation scattering_loop := (scattering_loop (F := F) toward_zero).
Notation log_loop := (log_loop (F := F) toward_zero).
Notation read_log := (read_log (F := F) toward_zero).

Lemma row_of_line r : row_ok r -> row_of (row_line r) = Ok r.
Proof.
  intros (_ & H). unfold ConvLog.row_of, row_line. rewrite split_join.
  - induction H as [|n r Hn H IH]; cbn [map mapM]; [reflexivity|]. rewrite read_int by auto. cbn [bind]. rewrite to_int_IZR by (unfold number in Hn; lia). cbn [bind].
    rewrite IH. reflexivity.
  - apply Forall_map. eapply Forall_impl; [|exact H]. intros n Hn. split; [now apply int_plain|]. apply int_chars; auto. each_digit.
Qed.

Lemma all_or_int n : number n -> str_eqb (int_str n) (of_string "all") = false.
Proof.
  intros Hn. unfold str_eqb. destruct (list_eq_dec ascii_dec (int_str n) (of_string "all")) as [E|]; [|reflexivity]. exfalso.
  pose proof (int_chars n (fun c => c <> "a"%char) Hn ltac:(each_digit)) as H. rewrite E in H. inversion H as [|c t Hc _]; subst. now apply Hc.
Qed.
Lemma options_numbers ps : Forall number ps -> forall stop ls fuel line s acc, stops stop = true -> (List.length ps < fuel)%nat ->
  reads s (map int_str ps ++ stop :: ls) -> exists s', options_loop fuel line s acc = Ok (stop, s', acc ++ ps) /\ reads s' ls.
Proof.
  induction 1 as [|p ps Hp H IH]; intros stop ls fuel line s acc Hs Hf Hr; (destruct fuel as [|fuel]; [cbn in Hf; lia|]); cbn [map app] in Hr;
    destruct (read_line_cons _ _ _ line Hr) as (s' & E & Hr'); cbn [ConvLog.options_loop]; rewrite E.
  - rewrite Hs. cbn [negb andb]. exists s'. now rewrite app_nil_r.
  - rewrite stops_int, all_or_int, stoi_int by auto. cbn [negb andb bind]. cbn [List.length] in Hf.
    destruct (IH stop ls fuel (int_str p) s' (acc ++ [p]) Hs ltac:(lia) Hr') as (s2 & E2 & Hr2). exists s2. rewrite E2, <- app_assoc. auto.
Qed.
Lemma options_end ps : Forall number ps -> forall fuel line s acc, starts_with line (of_string "scattering:") = false -> (List.length ps < fuel)%nat ->
  reads s (map int_str ps) -> exists l, options_loop fuel line s acc = Ok (l, None, acc ++ ps) /\ starts_with l (of_string "scattering:") = false.
Proof.
  induction 1 as [|p ps Hp H IH]; intros fuel line s acc Hl Hf Hr; (destruct fuel as [|fuel]; [cbn in Hf; lia|]); cbn [map] in Hr; cbn [ConvLog.options_loop].
  - destruct (read_line_nil _ line Hr) as (l & E & El). rewrite E. cbn [andb]. exists l. rewrite app_nil_r. split; auto. destruct El as [->| ->]; auto.
  - destruct (read_line_cons _ _ _ line Hr) as (s' & E & Hr'). rewrite E.
    rewrite stops_int, all_or_int, stoi_int by auto. cbn [negb andb bind]. cbn [List.length] in Hf.
    destruct (IH fuel (int_str p) s' (acc ++ [p])) as (l & E2 & Hl2); auto; [|lia|].
    + apply starts_false. intros (r & Er). pose proof (int_chars p (fun c => c <> "s"%char) Hp ltac:(each_digit)) as Q. rewrite Er in Q. inversion Q as [|c t Hc _]; subst. now apply Hc.
    + exists l. rewrite E2, <- app_assoc. auto.
Qed.
Definition short (l : str) : Prop := zlen l < 2 ^ 63.
Lemma scattering_rows rows : Forall row_ok rows -> forall stop ls fuel line s acc, stops stop = true -> (List.length rows < fuel)%nat ->
  Forall short (map row_line rows) ->
  reads s (map row_line rows ++ stop :: ls) -> exists s', scattering_loop fuel line s acc = Ok (stop, s', acc ++ rows) /\ reads s' ls.
Proof.
  induction 1 as [|p ps Hp H IH]; intros stop ls fuel line s acc Hs Hf Hsh Hr; (destruct fuel as [|fuel]; [cbn in Hf; lia|]); cbn [map app] in Hr;
    destruct (read_line_cons _ _ _ line Hr) as (s' & E & Hr'); cbn [ConvLog.scattering_loop]; rewrite E.
  - rewrite Hs. cbn [negb andb]. exists s'. now rewrite app_nil_r.
  - cbn [map] in Hsh. inversion Hsh; subst. rewrite stops_row, row_of_line by auto. cbn [negb andb bind]. cbn [List.length] in Hf.
    destruct (IH stop ls fuel (row_line p) s' (acc ++ [p]) Hs ltac:(lia)) as (s2 & E2 & Hr2); auto. exists s2. rewrite E2, <- app_assoc. auto.
Qed.
Lemma scattering_end rows : Forall row_ok rows -> forall fuel line s acc, (List.length rows < fuel)%nat ->
  Forall short (map row_line rows) ->
  reads s (map row_line rows) -> exists l, scattering_loop fuel line s acc = Ok (l, None, acc ++ rows).
Proof.
  induction 1 as [|p ps Hp H IH]; intros fuel line s acc Hf Hsh Hr; (destruct fuel as [|fuel]; [cbn in Hf; lia|]); cbn [map] in Hr; cbn [ConvLog.scattering_loop].
  - destruct (read_line_nil _ line Hr) as (l & E & El). rewrite E. cbn [andb]. exists l. now rewrite app_nil_r.
  - destruct (read_line_cons _ _ _ line Hr) as (s' & E & Hr'). rewrite E.
    cbn [map] in Hsh. inversion Hsh; subst. rewrite stops_row, row_of_line by auto. cbn [negb andb bind]. cbn [List.length] in Hf.
    destruct (IH fuel (row_line p) s' (acc ++ [p])) as (l & E2); auto; [lia|]. exists l. now rewrite E2, <- app_assoc.
Qed.

(* ---- the loop over the lines ---- *)
Definition apply_block (lg : clog) (b : block) : clog :=
  match b with
  | BInput p => mkLog p (lg_output lg) (lg_positions lg) (lg_scattering lg) (lg_written lg) (lg_not_written lg)
  | BOutput p => mkLog (lg_input lg) p (lg_positions lg) (lg_scattering lg) (lg_written lg) (lg_not_written lg)
  | BAll => mkLog (lg_input lg) (lg_output lg) [-1] (lg_scattering lg) (lg_written lg) (lg_not_written lg)
  | BPositions ps => mkLog (lg_input lg) (lg_output lg) (lg_positions lg ++ ps) (lg_scattering lg) (lg_written lg) (lg_not_written lg)
  | BScattering rows => mkLog (lg_input lg) (lg_output lg) (lg_positions lg) (lg_scattering lg ++ rows) (lg_written lg) (lg_not_written lg)
  | BNote _ => lg
  end.
Lemma log_eta lg : mkLog (lg_input lg) (lg_output lg) (lg_positions lg) (lg_scattering lg) (lg_written lg) (lg_not_written lg) = lg.
Proof. destruct lg; reflexivity. Qed.
Lemma loop_end fuel n line s lg : reads s [] -> log_loop fuel n line s lg = Ok lg.
Proof. intros H. destruct fuel as [|fuel]; [reflexivity|]. cbn [ConvLog.log_loop]. destruct (read_line_nil s line H) as (l & -> & _). reflexivity. Qed.

(* one round, by the kind of the line read *)
Lemma round_note fuel n line s s' l lg : read_line s line = (true, l, s') -> note l ->
  log_loop (S fuel) n line s lg = log_loop fuel n l s' lg.
Proof.
  intros E (N1 & N2 & N3 & N4). cbn [ConvLog.log_loop]. rewrite E, (starts_false "input:"), (starts_false "output:"), (starts_false "options:") by auto. cbn [bind].
  rewrite (starts_false "scattering:") by auto. cbn [bind]. now rewrite log_eta.
Qed.
Lemma round_input fuel n line s s' l l2 s2 ok lg : read_line s line = (true, l, s') -> heading "input:" l -> read_line s' (lg_input lg) = (ok, l2, s2) ->
  log_loop (S fuel) n line s lg = log_loop fuel n l s2 (apply_block lg (BInput l2)).
Proof.
  intros E H E2. cbn [ConvLog.log_loop]. rewrite E. replace (starts_with l (of_string "input:")) with true by (symmetry; now apply starts_heading). rewrite E2.
  replace (starts_with l (of_string "output:")) with false by (symmetry; other H).
  replace (starts_with l (of_string "options:")) with false by (symmetry; other H).
  cbn [bind]. replace (starts_with l (of_string "scattering:")) with false by (symmetry; other H). reflexivity.
Qed.
Lemma round_output fuel n line s s' l l2 s2 ok lg : read_line s line = (true, l, s') -> heading "output:" l -> read_line s' (lg_output lg) = (ok, l2, s2) ->
  log_loop (S fuel) n line s lg = log_loop fuel n l s2 (apply_block lg (BOutput l2)).
Proof.
  intros E H E2. cbn [ConvLog.log_loop]. rewrite E. replace (starts_with l (of_string "output:")) with true by (symmetry; now apply starts_heading).
  replace (starts_with l (of_string "input:")) with false by (symmetry; other H). rewrite E2.
  replace (starts_with l (of_string "options:")) with false by (symmetry; other H).
  cbn [bind]. replace (starts_with l (of_string "scattering:")) with false by (symmetry; other H). reflexivity.
Qed.
Definition after_options (fuel n : nat) (lg : clog) (o : str * stream * list Z) : Res clog :=
  let '(line, s, positions) := o in
  c <- (if starts_with line (of_string "scattering:") then scattering_loop n line s (lg_scattering lg) else Ok (line, s, lg_scattering lg)) ;;
  let '(line, s, scattering) := c in
  log_loop fuel n line s (mkLog (lg_input lg) (lg_output lg) positions scattering (lg_written lg) (lg_not_written lg)).
Lemma round_options fuel n line s s' l lg : read_line s line = (true, l, s') -> heading "options:" l ->
  log_loop (S fuel) n line s lg = bind (options_loop n l s' (lg_positions lg)) (after_options fuel n lg).
Proof.
  intros E H. cbn [ConvLog.log_loop]. rewrite E. replace (starts_with l (of_string "options:")) with true by (symmetry; now apply starts_heading).
  replace (starts_with l (of_string "input:")) with false by (symmetry; other H).
  replace (starts_with l (of_string "output:")) with false by (symmetry; other H). reflexivity.
Qed.
Lemma round_scattering fuel n line s s' l lg : read_line s line = (true, l, s') -> heading "scattering:" l ->
  log_loop (S fuel) n line s lg = after_options fuel n lg (l, s', lg_positions lg).
Proof.
  intros E H. cbn [ConvLog.log_loop]. rewrite E.
  replace (starts_with l (of_string "input:")) with false by (symmetry; other H).
  replace (starts_with l (of_string "output:")) with false by (symmetry; other H).
  replace (starts_with l (of_string "options:")) with false by (symmetry; other H). reflexivity.
Qed.

Lemma log_read bs ls : log_lines bs ls -> forall fuel n line s lg, reads s ls -> Forall short ls ->
  (List.length ls < fuel)%nat -> (List.length ls < n)%nat -> log_loop fuel n line s lg = Ok (fold_left apply_block bs lg).
Proof.
  induction 1 as [|l bs ls Hn H IH|h p bs ls Hh H IH|h p bs ls Hh H IH|h bs ls Hh H IH|h ps l bs ls Hh Hps Hl H IH|h ps Hh Hps
    |h ps rows bs ls Hh Hps H IH|h rows l bs ls Hh Hrows Hl H IH|h rows Hh Hrows];
  intros fuel n line s lg Hr Hs Hf Hn'; (destruct fuel as [|fuel]; [cbn in Hf; lia|]);
  [now apply loop_end| | | | | | | | |];
  destruct (read_line_cons _ _ _ line Hr) as (s1 & E1 & Hr1); cbn [fold_left]; inversion Hs as [|x y Hs1 Hs2]; subst x y;
  cbn [List.length] in Hf, Hn'.
  - rewrite (round_note _ _ _ _ _ _ _ E1) by auto. apply IH; auto; lia.
  - destruct (read_line_cons _ _ _ (lg_input lg) Hr1) as (s2 & E2 & Hr2). rewrite (round_input _ _ _ _ _ _ _ _ _ _ E1 Hh E2).
    inversion Hs2; subst. cbn [List.length] in *. apply IH; auto; lia.
  - destruct (read_line_cons _ _ _ (lg_output lg) Hr1) as (s2 & E2 & Hr2). rewrite (round_output _ _ _ _ _ _ _ _ _ _ E1 Hh E2).
    inversion Hs2; subst. cbn [List.length] in *. apply IH; auto; lia.
  - rewrite (round_options _ _ _ _ _ _ _ E1 Hh). destruct (read_line_cons _ _ _ h Hr1) as (s2 & E2 & Hr2).
    destruct n as [|n]; [lia|]. cbn [ConvLog.options_loop]. rewrite E2.
    change (stops (of_string "all")) with false. change (str_eqb (of_string "all") (of_string "all")) with true. cbn [negb andb bind after_options].
    change (starts_with (of_string "all") (of_string "scattering:")) with false. cbv iota. cbn [bind].
    inversion Hs2; subst. cbn [List.length] in *. apply IH; auto; lia.
  - rewrite (round_options _ _ _ _ _ _ _ E1 Hh). rewrite app_length, map_length in *. cbn [List.length] in *.
    destruct (options_numbers ps Hps l ls n h s1 (lg_positions lg)) as (s2 & E2 & Hr2); auto using stops_blank; [lia|]. rewrite E2. cbn [bind after_options].
    rewrite (starts_false "scattering:") by (now apply blank_note). cbn [bind]. apply Forall_app in Hs2. destruct Hs2 as (_ & Hs2). inversion Hs2; subst. apply IH; auto; lia.
  - rewrite (round_options _ _ _ _ _ _ _ E1 Hh). rewrite map_length in *.
    destruct (options_end ps Hps n h s1 (lg_positions lg)) as (l & E2 & Hl); [other Hh | lia | auto |]. rewrite E2. cbn [bind after_options]. rewrite Hl. cbn [bind].
    apply loop_end. constructor.
  - rewrite (round_options _ _ _ _ _ _ _ E1 Hh). rewrite app_length, map_length in *. cbn [List.length] in *.
    destruct (options_numbers ps Hps (of_string "scattering:") ls n h s1 (lg_positions lg)) as (s2 & E2 & Hr2); auto; [lia|]. rewrite E2. cbn [bind].
    apply Forall_app in Hs2. destruct Hs2 as (_ & Hs2). assert (one_line (of_string "scattering:")) by (repeat constructor; discriminate).
    assert (B : exists s0, reads s0 (of_string "scattering:" :: ls) /\ read_line s0 [] = (true, of_string "scattering:", s2)).
    { destruct s2 as [r|].
      - exists (Some (of_string "scattering:" ++ newline :: r)). split; [now constructor|]. unfold read_line.
        rewrite until_line, has_newline by auto. reflexivity.
      - inversion Hr2; subst. exists (Some (of_string "scattering:")). split; [constructor; [auto | discriminate] | reflexivity]. }
    destruct B as (s0 & Hr0 & E0).
    specialize (IH (S fuel) n [] s0 (apply_block lg (BPositions ps)) Hr0 Hs2 ltac:(cbn [List.length]; lia) ltac:(cbn [List.length]; lia)).
    etransitivity; [|exact IH]. rewrite (round_scattering _ _ _ _ _ _ _ E0) by (exists []; reflexivity). reflexivity.
  - rewrite (round_scattering _ _ _ _ _ _ _ E1 Hh). rewrite app_length, map_length in *. cbn [List.length] in *. unfold after_options.
    replace (starts_with h (of_string "scattering:")) with true by (symmetry; now apply starts_heading).
    apply Forall_app in Hs2. destruct Hs2 as (Hs2 & Hs3). inversion Hs3; subst.
    destruct (scattering_rows rows Hrows l ls n h s1 (lg_scattering lg)) as (s2 & E2 & Hr2); auto using stops_blank; [lia|]. rewrite E2. cbn [bind].
    apply IH; auto; lia.
  - rewrite (round_scattering _ _ _ _ _ _ _ E1 Hh). rewrite map_length in *. unfold after_options.
    replace (starts_with h (of_string "scattering:")) with true by (symmetry; now apply starts_heading).
    destruct (scattering_end rows Hrows n h s1 (lg_scattering lg)) as (l & E2); auto; [lia|]. rewrite E2. cbn [bind].
    apply loop_end. constructor.
Qed.

(* ---- the result in terms of the blocks ---- *)
Lemma fold_input bs : forall lg, lg_input (fold_left apply_block bs lg) = last (input_paths bs) (lg_input lg).
Proof.
  induction bs as [|b bs IH]; intros lg; cbn [fold_left]; [reflexivity|]. rewrite IH. unfold input_paths. cbn [flat_map].
  destruct b; try reflexivity. cbn [app apply_block lg_input]. clear IH. revert path. induction (flat_map _ bs) as [|q l IH]; intros path; [reflexivity|].
  cbn [last]. destruct l; [reflexivity|]. apply (IH path).
Qed.
Lemma fold_output bs : forall lg, lg_output (fold_left apply_block bs lg) = last (output_paths bs) (lg_output lg).
Proof.
  induction bs as [|b bs IH]; intros lg; cbn [fold_left]; [reflexivity|]. rewrite IH. unfold output_paths. cbn [flat_map].
  destruct b; try reflexivity. cbn [app apply_block lg_output]. clear IH. revert path. induction (flat_map _ bs) as [|q l IH]; intros path; [reflexivity|].
  cbn [last]. destruct l; [reflexivity|]. apply (IH path).
Qed.
Lemma fold_rows bs : forall lg, lg_scattering (fold_left apply_block bs lg) = lg_scattering lg ++ listed_rows bs.
Proof.
  induction bs as [|b bs IH]; intros lg; cbn [fold_left]; [symmetry; apply app_nil_r|]. rewrite IH. unfold listed_rows. cbn [flat_map].
  destruct b; try reflexivity. cbn [apply_block lg_scattering]. now rewrite <- app_assoc.
Qed.
Lemma fold_positions bs : ~ In BAll bs -> forall lg, lg_positions (fold_left apply_block bs lg) = lg_positions lg ++ listed_positions bs.
Proof.
  induction bs as [|b bs IH]; intros Hn lg; cbn [fold_left]; [symmetry; apply app_nil_r|]. rewrite IH by (intros H; apply Hn; now right). unfold listed_positions. cbn [flat_map].
  destruct b; try reflexivity; [exfalso; apply Hn; now left|]. cbn [apply_block lg_positions]. now rewrite <- app_assoc.
Qed.
Lemma fold_all_kept bs : forall lg, (exists r, lg_positions lg = -1 :: r) -> exists r, lg_positions (fold_left apply_block bs lg) = -1 :: r.
Proof.
  induction bs as [|b bs IH]; intros lg (r & Hr); cbn [fold_left]; [eauto|]. apply IH. destruct b; cbn [apply_block lg_positions]; eauto.
  rewrite Hr. cbn [app]. eauto.
Qed.
Lemma fold_all bs : In BAll bs -> forall lg, exists r, lg_positions (fold_left apply_block bs lg) = -1 :: r.
Proof.
  induction bs as [|b bs IH]; intros Hin lg; [destruct Hin|]. cbn [fold_left]. destruct Hin as [->|Hin]; [|now apply IH].
  apply fold_all_kept. cbn. eauto.
Qed.
Lemma fold_fresh bs : forall lg, lg_written (fold_left apply_block bs lg) = lg_written lg /\ lg_not_written (fold_left apply_block bs lg) = lg_not_written lg.
Proof. induction bs as [|b bs IH]; intros lg; cbn [fold_left]; [auto|]. destruct (IH (apply_block lg b)) as (-> & ->). destruct b; auto. Qed.

Lemma reads_short s ls : reads s ls -> forall t, s = Some t -> zlen t < 2 ^ 63 -> Forall short ls.
Proof.
  induction 1 as [| |l r ls Hl Hr IH|l Hl Hne]; intros t E; try discriminate E; injection E as <-; intros Ht; constructor.
  - unfold short, zlen in *. rewrite app_length in Ht. lia.
  - apply (IH r eq_refl). unfold zlen in *. rewrite app_length in Ht. cbn [List.length] in Ht. lia.
  - exact Ht.
  - constructor.
Qed.
Lemma read_log_blocks bs ls text : file_of ls text -> log_lines bs ls -> zlen text < 2 ^ 63 ->
  read_log (Some text) = Ok (fold_left apply_block bs empty_log).
Proof.
  intros Hf Hb Ht. apply file_reads in Hf. pose proof (reads_length _ _ Hf text eq_refl). unfold ConvLog.read_log. cbv zeta.
  apply (log_read bs ls); auto; [eapply reads_short; eauto | lia | lia].
Qed.

(* ---- paths are lines ---- *)
Lemma read_line_one s line ok l s' : read_line s line = (ok, l, s') -> one_line line -> one_line l.
Proof.
  unfold read_line. destruct s as [[|c t]|]; intros E; [injection E as _ <- _; constructor | | injection E as _ <- _; auto].
  pose proof (until_spec newline (c :: t)) as H. destruct (until newline (c :: t)) as [a b]. injection E as _ <- _. intros _. apply H.
Qed.
Lemma loop_paths : forall fuel n line s lg lg', one_line (lg_input lg) -> one_line (lg_output lg) ->
  log_loop fuel n line s lg = Ok lg' -> one_line (lg_input lg') /\ one_line (lg_output lg').
Proof.
  induction fuel as [|fuel IH]; intros n line s lg lg' Hi Ho E; cbn [ConvLog.log_loop] in E; [injection E as <-; auto|].
  destruct (read_line s line) as [[ok l] s1]. destruct ok; [|injection E as <-; auto].
  destruct (read_line s1 (lg_input lg)) as [[ok2 l2] s2] eqn:E2.
  assert (A : one_line l2) by (eapply read_line_one; eauto).
  set (x := if starts_with l (of_string "input:") then (l2, s2) else (lg_input lg, s1)) in E.
  assert (Hx : one_line (fst x)) by (unfold x; destruct (starts_with l (of_string "input:")); auto).
  destruct x as [i s3]. cbn [fst] in Hx.
  destruct (read_line s3 (lg_output lg)) as [[ok4 l4] s4] eqn:E4.
  assert (B : one_line l4) by (eapply read_line_one; eauto).
  set (y := if starts_with l (of_string "output:") then (l4, s4) else (lg_output lg, s3)) in E.
  assert (Hy : one_line (fst y)) by (unfold y; destruct (starts_with l (of_string "output:")); auto).
  destruct y as [o s5]. cbn [fst] in Hy.
  destruct (if starts_with l (of_string "options:") then _ else _) as [[[l6 s6] p6]| |] in E; cbn [bind] in E; [|discriminate|discriminate].
  destruct (if starts_with l6 (of_string "scattering:") then _ else _) as [[[l7 s7] p7]| |] in E; cbn [bind] in E; [|discriminate|discriminate].
  apply IH in E; auto.
Qed.
Lemma read_paths file lg : read_log file = Ok lg -> one_line (lg_input lg) /\ one_line (lg_output lg) /\ lg_written lg = [].
Proof.
  destruct file as [text|]; [|discriminate]. unfold ConvLog.read_log. cbv zeta. intros E. split; [|split].
  - eapply loop_paths in E; [apply E | constructor | constructor].
  - eapply loop_paths in E; [apply E | constructor | constructor].
  - revert E. assert (G : forall fuel n line s lg lg', log_loop fuel n line s lg = Ok lg' -> lg_written lg' = lg_written lg); [|apply G].
    clear. induction fuel as [|fuel IH]; intros n line s lg lg' E; cbn [ConvLog.log_loop] in E; [injection E as <-; auto|].
    destruct (read_line s line) as [[ok l] s1]. destruct ok; [|injection E as <-; auto].
    destruct (if starts_with l (of_string "input:") then _ else _) as [i s3] in E.
    destruct (if starts_with l (of_string "output:") then _ else _) as [o s5] in E.
    destruct (if starts_with l (of_string "options:") then _ else _) as [[[l6 s6] p6]| |] in E; cbn [bind] in E; [|discriminate|discriminate].
    destruct (if starts_with l6 (of_string "scattering:") then _ else _) as [[[l7 s7] p7]| |] in E; cbn [bind] in E; [|discriminate|discriminate].
    apply IH in E. exact E.
Qed.

(* ---- a text with appended lines ---- *)
Definition notes (ls : list str) : Prop := Forall note ls.
Lemma loop_notes ls : notes ls -> forall fuel n line s lg, reads s ls -> log_loop fuel n line s lg = Ok lg.
Proof.
  induction 1 as [|l ls Hl H IH]; intros fuel n line s lg Hr; [now apply loop_end|]. destruct fuel as [|fuel]; [reflexivity|].
  destruct (read_line_cons _ _ _ line Hr) as (s' & E & Hr'). rewrite (round_note _ _ _ _ _ _ _ E Hl). now apply IH.
Qed.
Lemma stoi_scattering l p : stoi l = Ok p -> starts_with l (of_string "scattering:") = false.
Proof. intros E. apply starts_false. intros (r & ->). discriminate E. Qed.

Lemma options_more ex : forall ls fuel fuel2 line s s2 acc l s1 acc1, reads s ls -> reads s2 (ls ++ [] :: ex) -> (List.length ls < fuel)%nat -> (List.length ls < fuel2)%nat ->
  starts_with line (of_string "scattering:") = false -> options_loop fuel line s acc = Ok (l, s1, acc1) ->
  (exists s3 pre ls', ls = pre ++ ls' /\ reads s1 ls' /\ reads s3 (ls' ++ [] :: ex) /\ options_loop fuel2 line s2 acc = Ok (l, s3, acc1)) \/
  (exists s3, reads s1 [] /\ starts_with l (of_string "scattering:") = false /\ reads s3 ex /\ options_loop fuel2 line s2 acc = Ok ([], s3, acc1)).
Proof.
  induction ls as [|x ls IH]; intros fuel fuel2 line s s2 acc l s1 acc1 Hr Hr2 Hf Hf2 Hl E; (destruct fuel as [|fuel]; [cbn in Hf; lia|]); (destruct fuel2 as [|fuel2]; [cbn in Hf2; lia|]);
    cbn [ConvLog.options_loop] in E |- *.
  - destruct (read_line_nil _ line Hr) as (l' & E' & El). rewrite E' in E. cbn [andb] in E. injection E as <- <- <-. right.
    cbn [app] in Hr2. destruct (read_line_cons _ _ _ line Hr2) as (s3 & E3 & Hr3). exists s3. rewrite E3. cbn. repeat split; auto; [constructor|]. destruct El as [->| ->]; auto.
  - destruct (read_line_cons _ _ _ line Hr) as (s' & E' & Hr'). rewrite E' in E. cbn [app] in Hr2. destruct (read_line_cons _ _ _ line Hr2) as (s3 & E3 & Hr3). rewrite E3.
    destruct (stops x); cbn [negb andb] in *.
    + injection E as <- <- <-. left. exists s3, [x], ls. auto.
    + destruct (str_eqb x (of_string "all")).
      * injection E as <- <- <-. left. exists s3, [x], ls. auto.
      * destruct (stoi x) as [p| |] eqn:Ep; cbn [bind] in *; [|discriminate|discriminate]. cbn [List.length] in *.
        apply stoi_scattering in Ep. destruct (IH fuel fuel2 x s' s3 (acc ++ [p]) l s1 acc1 Hr' Hr3 ltac:(lia) ltac:(lia) Ep E) as [(s4 & pre & ls' & -> & A & B & C)|(s4 & A & B & C & D)].
        -- left. exists s4, (x :: pre), ls'. auto.
        -- right. exists s4. auto.
Qed.
Lemma scattering_more ex : forall ls fuel fuel2 line s s2 acc l s1 acc1, reads s ls -> reads s2 (ls ++ [] :: ex) -> (List.length ls < fuel)%nat -> (List.length ls < fuel2)%nat ->
  scattering_loop fuel line s acc = Ok (l, s1, acc1) ->
  (exists s3 pre ls', ls = pre ++ ls' /\ reads s1 ls' /\ reads s3 (ls' ++ [] :: ex) /\ scattering_loop fuel2 line s2 acc = Ok (l, s3, acc1)) \/
  (exists s3, reads s1 [] /\ reads s3 ex /\ scattering_loop fuel2 line s2 acc = Ok ([], s3, acc1)).
Proof.
  induction ls as [|x ls IH]; intros fuel fuel2 line s s2 acc l s1 acc1 Hr Hr2 Hf Hf2 E; (destruct fuel as [|fuel]; [cbn in Hf; lia|]); (destruct fuel2 as [|fuel2]; [cbn in Hf2; lia|]);
    cbn [ConvLog.scattering_loop] in E |- *.
  - destruct (read_line_nil _ line Hr) as (l' & E' & El). rewrite E' in E. cbn [andb] in E. injection E as <- <- <-. right.
    cbn [app] in Hr2. destruct (read_line_cons _ _ _ line Hr2) as (s3 & E3 & Hr3). exists s3. rewrite E3. cbn. repeat split; auto. constructor.
  - destruct (read_line_cons _ _ _ line Hr) as (s' & E' & Hr'). rewrite E' in E. cbn [app] in Hr2. destruct (read_line_cons _ _ _ line Hr2) as (s3 & E3 & Hr3). rewrite E3.
    destruct (stops x); cbn [negb andb] in *.
    + injection E as <- <- <-. left. exists s3, [x], ls. auto.
    + destruct (row_of x) as [p| |] eqn:Ep; cbn [bind] in *; [|discriminate|discriminate]. cbn [List.length] in *.
      destruct (IH fuel fuel2 x s' s3 (acc ++ [p]) l s1 acc1 Hr' Hr3 ltac:(lia) ltac:(lia) E) as [(s4 & pre & ls' & -> & A & B & C)|(s4 & A & B & C)].
      -- left. exists s4, (x :: pre), ls'. auto.
      -- right. exists s4. auto.
Qed.
(* the last line is no heading of a path *)
Definition complete (ls : list str) : Prop := forall pre l, ls = pre ++ [l] -> ~ heading "input:" l /\ ~ heading "output:" l.
Lemma complete_app pre ls : complete (pre ++ ls) -> complete ls.
Proof. intros H p l ->. apply (H (pre ++ p)). apply app_assoc. Qed.

Lemma loop_more ex (Hex : notes ex) : forall k ls fuel fuel2 n n2 line line2 s s2 lg lg', (List.length ls <= k)%nat -> reads s ls -> reads s2 (ls ++ [] :: ex) ->
  (List.length ls < fuel)%nat -> (List.length ls < fuel2)%nat -> (List.length ls < n)%nat -> (List.length ls < n2)%nat -> complete ls ->
  log_loop fuel n line s lg = Ok lg' -> log_loop fuel2 n2 line2 s2 lg = Ok lg'.
Proof.
  assert (Hn : note []) by (apply blank_note; constructor).
  induction k as [|k IH]; intros ls fuel fuel2 n n2 line line2 s s2 lg lg' Hk Hr Hr2 Hf Hf2 Hn1 Hn2 Hc E.
  { destruct ls; [|cbn in Hk; lia]. rewrite loop_end in E by auto. injection E as <-. apply (loop_notes ([] :: ex)); auto. now constructor. }
  destruct ls as [|x ls]. { rewrite loop_end in E by auto. injection E as <-. apply (loop_notes ([] :: ex)); auto. now constructor. }
  destruct fuel as [|fuel]; [cbn in Hf; lia|]. destruct fuel2 as [|fuel2]; [cbn in Hf2; lia|]. cbn [List.length] in *.
  destruct (read_line_cons _ _ _ line Hr) as (s' & E1 & Hr'). cbn [app] in Hr2. destruct (read_line_cons _ _ _ line2 Hr2) as (s2' & E2 & Hr2').
  assert (Hc' : complete ls) by (apply (complete_app [x]); exact Hc).
  assert (Next : forall pre ls' s s2 line line2 lg, ls = pre ++ ls' -> reads s ls' -> reads s2 (ls' ++ [] :: ex) -> log_loop fuel n line s lg = Ok lg' -> log_loop fuel2 n2 line2 s2 lg = Ok lg').
  { intros pre ls' t t2 ln ln2 g El Ht Ht2 Eg. subst ls. rewrite app_length in *. eapply (IH ls' fuel fuel2 n n2); eauto; try lia. eapply complete_app; eauto. }
  assert (After : forall l s3 s4 ps pre ls', ls = pre ++ ls' -> reads s3 ls' -> reads s4 (ls' ++ [] :: ex) ->
    after_options fuel n lg (l, s3, ps) = Ok lg' -> after_options fuel2 n2 lg (l, s4, ps) = Ok lg').
  { intros l s3 s4 ps pre ls' El H3 H4 Ea. unfold after_options in *. destruct (starts_with l (of_string "scattering:")).
    - destruct (scattering_loop n l s3 (lg_scattering lg)) as [[[l5 s5] p5]| |] eqn:E5; cbn [bind] in Ea; [|discriminate|discriminate].
      destruct (scattering_more ex ls' n n2 l s3 s4 (lg_scattering lg) l5 s5 p5 H3 H4) as [(s6 & pre' & ls2 & -> & A & B & C)|(s6 & A & B & C)]; auto;
        [subst ls; rewrite app_length in *; lia | subst ls; rewrite app_length in *; lia | |].
      + rewrite C. cbn [bind]. apply (Next (pre ++ pre') ls2 s5 s6 l5 l5); auto. now rewrite <- app_assoc.
      + rewrite C. cbn [bind]. rewrite loop_end in Ea by auto. injection Ea as <-. now apply (loop_notes ex).
    - cbn [bind] in *. apply (Next pre ls' s3 s4 l l); auto. }
  destruct (starts_with x (of_string "input:")) eqn:K1.
  { apply starts_heading in K1. destruct ls as [|y ls]. { exfalso. now destruct (Hc [] x eq_refl). }
    destruct (read_line_cons _ _ _ (lg_input lg) Hr') as (s3 & E3 & Hr3). cbn [app] in Hr2'. destruct (read_line_cons _ _ _ (lg_input lg) Hr2') as (s4 & E4 & Hr4).
    rewrite (round_input _ _ _ _ _ _ _ _ _ _ E1 K1 E3) in E. rewrite (round_input _ _ _ _ _ _ _ _ _ _ E2 K1 E4). apply (Next [y] ls s3 s4 x x); auto. }
  destruct (starts_with x (of_string "output:")) eqn:K2.
  { apply starts_heading in K2. destruct ls as [|y ls]. { exfalso. now destruct (Hc [] x eq_refl). }
    destruct (read_line_cons _ _ _ (lg_output lg) Hr') as (s3 & E3 & Hr3). cbn [app] in Hr2'. destruct (read_line_cons _ _ _ (lg_output lg) Hr2') as (s4 & E4 & Hr4).
    rewrite (round_output _ _ _ _ _ _ _ _ _ _ E1 K2 E3) in E. rewrite (round_output _ _ _ _ _ _ _ _ _ _ E2 K2 E4). apply (Next [y] ls s3 s4 x x); auto. }
  destruct (starts_with x (of_string "options:")) eqn:K3.
  { apply starts_heading in K3. rewrite (round_options _ _ _ _ _ _ _ E1 K3) in E. rewrite (round_options _ _ _ _ _ _ _ E2 K3).
    destruct (options_loop n x s' (lg_positions lg)) as [[[l5 s5] p5]| |] eqn:E5; cbn [bind] in E; [|discriminate|discriminate].
    assert (Hx : starts_with x (of_string "scattering:") = false) by (other K3).
    destruct (options_more ex ls n n2 x s' s2' (lg_positions lg) l5 s5 p5 Hr' Hr2') as [(s6 & pre' & ls2 & -> & A & B & C)|(s6 & A & B & C & D)]; auto; try lia.
    - rewrite C. cbn [bind]. eapply (After l5 s5 s6 p5 pre' ls2); eauto.
    - rewrite D. cbn [bind]. unfold after_options in *. rewrite B in E. change (starts_with [] (of_string "scattering:")) with false. cbv iota. cbn [bind] in *.
      rewrite loop_end in E by auto. injection E as <-. now apply (loop_notes ex). }
  destruct (starts_with x (of_string "scattering:")) eqn:K4.
  { apply starts_heading in K4. rewrite (round_scattering _ _ _ _ _ _ _ E1 K4) in E. rewrite (round_scattering _ _ _ _ _ _ _ E2 K4).
    apply (After x s' s2' (lg_positions lg) [] ls); auto. }
  assert (N : note x) by (unfold note; rewrite <- !starts_heading; rewrite K1, K2, K3, K4; repeat split; discriminate).
  rewrite (round_note _ _ _ _ _ _ _ E1 N) in E. rewrite (round_note _ _ _ _ _ _ _ E2 N). apply (Next [] ls s' s2' x x); auto.
Qed.
End Read.
