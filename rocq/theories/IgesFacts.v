(* Lines of an IGES file: blocks, layout, reading lines. *)
From Coq Require Import ZArith Ascii String List Bool Lia Reals.
From Verif Require Import Base BaseFacts StrSpec StrOps StrFacts StrThms StrNum StrDelim Format FormatSpec FormatFacts XmlFacts Iges.
Import ListNotations.
Open Scope Z_scope.

Definition no_line (c : ascii) : Prop := c <> newline.
Definition blanks (n : Z) : str := repeat " "%char (Z.to_nat n).
Definition padl (s : str) (w : Z) : str := blanks (w - zlen s) ++ s.
Definition padr (s : str) (w : Z) : str := s ++ blanks (w - zlen s).
Lemma zlen_app {A} (a b : list A) : zlen (a ++ b) = zlen a + zlen b.
Proof. unfold zlen. rewrite app_length. lia. Qed.
Lemma zlen_blanks n : 0 <= n -> zlen (blanks n) = n.
Proof. intros H. unfold zlen, blanks. rewrite repeat_length. lia. Qed.
Lemma zlen_padl s w : zlen s <= w -> zlen (padl s w) = w.
Proof. intros H. unfold padl. rewrite zlen_app, zlen_blanks by lia. lia. Qed.
Lemma zlen_padr s w : zlen s <= w -> zlen (padr s w) = w.
Proof. intros H. unfold padr. rewrite zlen_app, zlen_blanks by lia. lia. Qed.
Lemma blanks_in n c : In c (blanks n) -> c = " "%char.
Proof. intros H. now apply repeat_spec in H. Qed.
Lemma line_blanks n : Forall no_line (blanks n).
Proof. apply Forall_forall. intros c Hc. apply blanks_in in Hc. subst. discriminate. Qed.
Lemma line_padl s w : Forall no_line s -> Forall no_line (padl s w).
Proof. intros H. apply Forall_app. split; [apply line_blanks | exact H]. Qed.
Lemma line_padr s w : Forall no_line s -> Forall no_line (padr s w).
Proof. intros H. apply Forall_app. split; [exact H | apply line_blanks]. Qed.
Lemma get_block_ok s w right : zlen s <= w -> get_block s w right = Ok (if right then padl s w else padr s w).
Proof. intros H. unfold get_block. replace (w <? zlen s) with false by (symmetry; apply Z.ltb_ge; lia). reflexivity. Qed.

Lemma digits10_len : forall fuel n k, 0 <= n < 10 ^ Z.of_nat (S k) -> (List.length (digits10 fuel n) <= S k)%nat.
Proof.
  induction fuel as [|f IH]; intros n k Hn; cbn [digits10]; [cbn [List.length]; lia|].
  destruct (Z.ltb_spec n 10) as [H|H]; [cbn [List.length]; lia|]. destruct k as [|k]; [change (10 ^ Z.of_nat 1) with 10 in Hn; lia|].
  rewrite app_length. cbn [List.length]. assert (L : (List.length (digits10 f (n / 10)) <= S k)%nat); [|lia]. apply IH. split; [apply Z.div_pos; lia|].
  apply Z.div_lt_upper_bound; [lia|]. rewrite Nat2Z.inj_succ, Z.pow_succ_r in Hn by lia. lia.
Qed.
Lemma int_str_len n k : 1 <= k -> 0 <= n < 10 ^ k -> zlen (int_str n) <= k.
Proof.
  intros Hk Hn. unfold int_str. replace (n <? 0) with false by (symmetry; apply Z.ltb_ge; lia). rewrite Z.abs_eq by lia. unfold zlen. cbn [app]. rewrite map_length.
  pose proof (digits10_len (S (Z.to_nat (Z.log2 n))) n (Z.to_nat (k - 1))) as H. replace (Z.of_nat (S (Z.to_nat (k - 1)))) with k in H by lia. specialize (H Hn). lia.
Qed.
Lemma harmless_line s : Forall harmless s -> Forall no_line s.
Proof. intros H. apply harmless_no_break in H. eapply Forall_impl; [|exact H]. intros c [_ E]. exact E. Qed.
Lemma small_pow k : 0 <= k <= 9 -> 10 ^ k <= 2 ^ 31.
Proof. intros H. transitivity (10 ^ 9); [apply Z.pow_le_mono_r; lia | vm_compute; discriminate]. Qed.
Lemma num_block_ok n w : 1 <= w <= 9 -> 0 <= n < 10 ^ w ->
  num_block n w = Ok (padl (int_str n) w) /\ zlen (padl (int_str n) w) = w /\ Forall no_line (padl (int_str n) w).
Proof.
  intros Hw Hn. pose proof (int_str_len n w ltac:(lia) Hn) as L. pose proof (small_pow w ltac:(lia)). unfold num_block. rewrite get_block_ok by exact L.
  split; [reflexivity|]. split; [now apply zlen_padl|]. apply line_padl, harmless_line, int_plain. lia.
Qed.
Lemma trim_padl n w : 0 <= n < 2 ^ 31 -> trim (padl (int_str n) w) = int_str n.
Proof.
  intros Hn. destruct (int_plain n Hn) as [H Hne]. unfold padl. rewrite <- (app_nil_r (int_str n)) at 2. apply trim_around; auto.
  apply Forall_forall. intros c Hc. apply blanks_in in Hc. left. left. exact Hc.
Qed.
Lemma trim_int n : 0 <= n < 2 ^ 31 -> trim (int_str n) = int_str n.
Proof. intros Hn. exact (trim_padl n 0 Hn) || (rewrite <- (trim_padl n 0 Hn) at 2; unfold padl, blanks; f_equal; replace (Z.to_nat (0 - zlen (int_str n))) with 0%nat by (unfold zlen; lia); reflexivity). Qed.
Lemma read_field n w : 0 <= n < 2 ^ 31 -> stoi (trim (trim (padl (int_str n) w))) = Ok n.
Proof. intros Hn. rewrite trim_padl, trim_int by auto. now apply stoi_int. Qed.

(* ---- layout ---- *)
Fixpoint chunks (n : nat) (w : Z) (s : str) : list str :=
  match n with O => [] | S n' => firstn (Z.to_nat w) s :: chunks n' w (skipn (Z.to_nat w) s) end.
Lemma chunks_length n w s : List.length (chunks n w s) = n.
Proof. revert s; induction n; intros s; cbn; auto. Qed.
Lemma chunks_line n w s : Forall no_line s -> Forall (Forall no_line) (chunks n w s).
Proof.
  revert s; induction n as [|n IH]; intros s H; cbn [chunks]; constructor.
  - rewrite <- (firstn_skipn (Z.to_nat w) s) in H. now apply Forall_app in H as [H _].
  - apply IH. rewrite <- (firstn_skipn (Z.to_nat w) s) in H. now apply Forall_app in H as [_ H].
Qed.
Lemma chunks_width n w s : 0 <= w -> Forall (fun c => zlen c <= w) (chunks n w s).
Proof. intros Hw. revert s; induction n as [|n IH]; intros s; cbn [chunks]; constructor; auto. unfold zlen. pose proof (firstn_le_length (Z.to_nat w) s). lia. Qed.
Lemma chunks_concat w : 0 < w -> forall n s, zlen s <= w * Z.of_nat n -> exists k, concat (map (fun c => padr c w) (chunks n w s)) = s ++ blanks k.
Proof.
  intros Hw. induction n as [|n IH]; intros s Hs.
  - destruct s as [|c s]; [exists 0; reflexivity|]. unfold zlen in Hs. cbn [List.length] in Hs. lia.
  - cbn [chunks map concat]. destruct (Z_le_gt_dec w (zlen s)) as [L|L].
    + destruct (IH (skipn (Z.to_nat w) s)) as (k & E); [unfold zlen in *; rewrite skipn_length; lia|]. exists k. rewrite E.
      unfold padr. assert (El : zlen (firstn (Z.to_nat w) s) = w) by (unfold zlen in *; rewrite firstn_length; lia). rewrite El, Z.sub_diag. cbn [blanks Z.to_nat repeat].
      change (blanks 0) with (@nil ascii). rewrite app_nil_r, app_assoc. now rewrite firstn_skipn.
    + destruct (IH (skipn (Z.to_nat w) s)) as (k & E); [unfold zlen in *; rewrite skipn_length; lia|]. rewrite E.
      rewrite skipn_all2 by (unfold zlen in L; lia). rewrite firstn_all2 by (unfold zlen in L; lia). cbn [app]. unfold padr.
      exists (w - zlen s + Z.max 0 k). rewrite <- app_assoc. f_equal. unfold blanks. rewrite <- repeat_app. f_equal. lia.
Qed.
Lemma skipn_twice {A} a b (l : list A) : skipn a (skipn b l) = skipn (b + a) l.
Proof. revert l; induction b as [|b IH]; intros l; [reflexivity|]. destruct l; cbn [skipn Nat.add]; [apply skipn_nil | apply IH]. Qed.
Lemma chunks_zseq w : 0 <= w -> forall n s lo, 0 <= lo ->
  map (fun i => firstn (Z.to_nat w) (skipn (Z.to_nat (i * w)) s)) (zseq lo n) = chunks n w (skipn (Z.to_nat (lo * w)) s).
Proof.
  intros Hw. induction n as [|n IH]; intros s lo Hl; cbn [zseq map chunks]; auto. f_equal. rewrite IH by lia. f_equal.
  rewrite skipn_twice. f_equal. nia.
Qed.
Definition rows_of (w : Z) (s : str) : nat := Z.to_nat ((zlen s - 1) / w + 1).
Lemma rows_enough w s : 0 < w -> s <> [] -> zlen s <= w * Z.of_nat (rows_of w s) /\ 1 <= Z.of_nat (rows_of w s) <= zlen s.
Proof.
  intros Hw Hs. assert (H1 : 1 <= zlen s) by (destruct s; [congruence|]; unfold zlen; cbn [List.length]; lia). unfold rows_of.
  assert (0 <= (zlen s - 1) / w) by (apply Z.div_pos; lia). rewrite Z2Nat.id by lia. pose proof (Z.div_mod (zlen s - 1) w ltac:(lia)) as D. pose proof (Z.mod_pos_bound (zlen s - 1) w Hw).
  split; [nia|]. split; [lia|]. nia.
Qed.
(* the lines of a layout *)
Definition lines (w : Z) (tl : Z -> str) (s : str) (line : Z) : list str :=
  map2 (fun c i => padr c w ++ tl (line + i + 1)) (chunks (rows_of w s) w s) (zseq 0 (rows_of w s)).
Lemma map2_map {A B C D} (f : B -> C -> D) (g : A -> B) (h : A -> C) l : map2 f (map g l) (map h l) = map (fun a => f (g a) (h a)) l.
Proof. induction l; cbn [map map2]; congruence. Qed.
Lemma layout_ok w tail (tl : Z -> str) s line : 0 < w -> s <> [] -> zlen s < 2 ^ 64 ->
  (forall n, line < n <= line + Z.of_nat (rows_of w s) -> tail n = Ok (tl n)) -> layout w tail s line = Ok (lines w tl s line).
Proof.
  intros Hw Hs Hl Ht. destruct (rows_enough w s Hw Hs) as [R1 R2].
  assert (H1 : 1 <= zlen s) by (destruct s; [congruence|]; unfold zlen; cbn [List.length]; lia).
  unfold layout. unfold u64. rewrite Z.mod_small by lia. fold (rows_of w s).
  rewrite (mapM_ok _ (fun i => padr (firstn (Z.to_nat w) (skipn (Z.to_nat (i * w)) s)) w ++ tl (line + i + 1))).
  - unfold lines. rewrite <- (map_id (zseq 0 (rows_of w s))) at 2. change s with (skipn (Z.to_nat (0 * w)) s) at 4. rewrite <- chunks_zseq by lia.
    now rewrite map2_map.
  - intros i Hi. apply zseq_In in Hi. unfold substr.
    assert (Hd : i * w <= zlen s - 1).
    { unfold rows_of in Hi. assert (0 <= (zlen s - 1) / w) by (apply Z.div_pos; lia). rewrite Z2Nat.id in Hi by lia.
      pose proof (Z.div_mod (zlen s - 1) w ltac:(lia)) as D. pose proof (Z.mod_pos_bound (zlen s - 1) w Hw). nia. }
    replace (i * w <=? zlen s) with true by (symmetry; apply Z.leb_le; lia). cbn [bind].
    rewrite get_block_ok by (unfold zlen; pose proof (firstn_le_length (Z.to_nat w) (skipn (Z.to_nat (i * w)) s)); lia). cbn [bind]. rewrite Ht by lia. reflexivity.
Qed.
Lemma firstn_padr c w t : 0 <= w -> zlen c <= w -> firstn (Z.to_nat w) (padr c w ++ t) = padr c w.
Proof.
  intros Hw H. rewrite firstn_app. assert (E : List.length (padr c w) = Z.to_nat w) by (pose proof (zlen_padr c w H); unfold zlen in *; lia).
  rewrite E, Nat.sub_diag. cbn [firstn]. rewrite app_nil_r. apply firstn_all2. lia.
Qed.
Lemma map2_in {A B C} (f : A -> B -> C) l1 l2 c : In c (map2 f l1 l2) -> exists a b, In a l1 /\ In b l2 /\ c = f a b.
Proof.
  revert l2; induction l1 as [|a l1 IH]; intros [|b l2] H; cbn [map2] in H; try contradiction. destruct H as [<-|H]; [exists a, b; cbn; auto|].
  destruct (IH l2 H) as (x & y & X & Y & E). exists x, y. cbn. auto.
Qed.
Lemma lines_length w tl s line : List.length (lines w tl s line) = rows_of w s.
Proof. unfold lines. rewrite map2_length; rewrite chunks_length; [reflexivity|]. now rewrite zseq_length. Qed.
Lemma map_map2 {A B C D} (g : C -> D) (f : A -> B -> C) l1 l2 : map g (map2 f l1 l2) = map2 (fun a b => g (f a b)) l1 l2.
Proof. revert l2; induction l1; intros [|]; cbn [map2 map]; congruence. Qed.
Lemma map2_left {A B C} (f : A -> C) (l1 : list A) (l2 : list B) : List.length l1 = List.length l2 -> map2 (fun a _ => f a) l1 l2 = map f l1.
Proof. revert l2; induction l1; intros [|] H; cbn [map2 map] in *; try discriminate; auto. f_equal. apply IHl1. now injection H. Qed.
Lemma map2_ext_in {A B C} (f g : A -> B -> C) l1 l2 : (forall a b, In a l1 -> In b l2 -> f a b = g a b) -> map2 f l1 l2 = map2 g l1 l2.
Proof. revert l2; induction l1; intros [|] H; cbn [map2]; auto. f_equal; [apply H; now left|]. apply IHl1. intros; apply H; now right. Qed.
(* the contents of the lines of a layout *)
Lemma lines_contents w tl s line : 0 < w -> s <> [] -> exists k, concat (map (firstn (Z.to_nat w)) (lines w tl s line)) = s ++ blanks k.
Proof.
  intros Hw Hs. destruct (rows_enough w s Hw Hs) as [R1 _]. destruct (chunks_concat w Hw (rows_of w s) s R1) as (k & E). exists k. rewrite <- E. f_equal.
  unfold lines. rewrite map_map2. rewrite (map2_ext_in _ (fun c _ => padr c w)).
  - apply map2_left. now rewrite chunks_length, zseq_length.
  - intros c i Hc _. apply firstn_padr; [lia|]. pose proof (chunks_width (rows_of w s) w s ltac:(lia)) as W. rewrite Forall_forall in W. now apply W.
Qed.

(* ---- reading lines ---- *)
Lemma until_line l r : Forall no_line l -> until newline (l ++ newline :: r) = (l, r).
Proof.
  induction 1 as [|c l Hc H IH]; cbn [app until].
  - now rewrite Ascii.eqb_refl.
  - destruct (Ascii.eqb_spec c newline) as [->|_]; [now destruct Hc|]. now rewrite IH.
Qed.
Lemma getlines_lines ls : Forall (Forall no_line) ls -> forall fuel, (List.length ls <= fuel)%nat -> getlines fuel newline (flat_map (fun l => l ++ [newline]) ls) = ls.
Proof.
  induction 1 as [|l ls Hl H IH]; intros fuel Hf; cbn [flat_map List.length] in *; [now destruct fuel|].
  destruct fuel as [|f]; [lia|]. rewrite getlines_step. rewrite <- app_assoc. cbn [app]. rewrite until_line by auto.
  destruct l as [|c l]; cbn [app]; rewrite IH by lia; reflexivity.
Qed.
Lemma lines_fuel ls : (List.length ls <= List.length (flat_map (fun l => l ++ [newline]) ls))%nat.
Proof. induction ls as [|l ls IH]; cbn [flat_map List.length]; [lia|]. rewrite !app_length. cbn [List.length]. lia. Qed.

Definition marked (c : ascii) (line : str) : Prop := Forall no_line line /\ exists a b, line = a ++ c :: b /\ zlen a = 72.
Lemma marked_at c line : marked c line -> char_at line 72 = Ok c.
Proof.
  intros (_ & a & b & -> & H). unfold char_at. rewrite zlen_app, H. replace (72 <=? 72 + zlen (c :: b)) with true by (symmetry; apply Z.leb_le; unfold zlen; lia). cbn [andb Z.leb].
  f_equal. rewrite app_nth2 by (unfold zlen in H; lia). replace (Z.to_nat 72 - List.length a)%nat with 0%nat by (unfold zlen in H; lia). reflexivity.
Qed.
Lemma substr_ok s p n : p <= zlen s -> substr s p n = Ok (firstn (Z.to_nat n) (skipn (Z.to_nat p) s)).
Proof. intros H. unfold substr. now replace (p <=? zlen s) with true by (symmetry; apply Z.leb_le; lia). Qed.
Definition line_step (st : list str * list str) (line : str) : Res (list str * list str) :=
  c <- char_at line 72 ;;
  if Ascii.eqb c "D" then l <- substr line 0 72 ;; Ok (fst st ++ [l], snd st)
  else if Ascii.eqb c "P" then l <- substr line 0 64 ;; Ok (fst st, snd st ++ [l])
  else Ok st.
Lemma step_other c ls st : c <> "D"%char -> c <> "P"%char -> Forall (marked c) ls -> foldM line_step ls st = Ok st.
Proof.
  intros HD HP H. induction H as [|l ls Hl H IH]; cbn [foldM]; auto. unfold line_step at 1. rewrite (marked_at c l Hl). cbn [bind].
  destruct (Ascii.eqb_spec c "D"); [contradiction|]. destruct (Ascii.eqb_spec c "P"); [contradiction|]. exact IH.
Qed.
Lemma step_dir ls : forall a b, Forall (marked "D") ls -> foldM line_step ls (a, b) = Ok (a ++ map (firstn (Z.to_nat 72)) ls, b).
Proof.
  induction ls as [|l ls IH]; intros a b H; cbn [foldM map]; [now rewrite app_nil_r|]. inversion H; subst. unfold line_step at 1. rewrite (marked_at _ l) by eassumption. cbn [bind].
  rewrite Ascii.eqb_refl, substr_ok by (unfold zlen; lia). cbn [bind fst snd]. rewrite IH by auto. rewrite <- app_assoc. reflexivity.
Qed.
Lemma step_par ls : forall a b, Forall (marked "P") ls -> foldM line_step ls (a, b) = Ok (a, b ++ map (firstn (Z.to_nat 64)) ls).
Proof.
  induction ls as [|l ls IH]; intros a b H; cbn [foldM map]; [now rewrite app_nil_r|]. inversion H; subst. unfold line_step at 1. rewrite (marked_at _ l) by eassumption. cbn [bind].
  change (Ascii.eqb "P" "D") with false. rewrite Ascii.eqb_refl, substr_ok by (unfold zlen; lia). cbn [bind fst snd]. rewrite IH by auto. rewrite <- app_assoc. reflexivity.
Qed.
Lemma read_lines start global dir par terminate : Forall (marked "S") start -> Forall (marked "G") global -> Forall (marked "D") dir -> Forall (marked "P") par -> Forall (marked "T") terminate ->
  iges_lines (flat_map (fun l => l ++ [newline]) (start ++ global ++ dir ++ par ++ terminate)) = Ok (map (firstn (Z.to_nat 72)) dir, map (firstn (Z.to_nat 64)) par).
Proof.
  intros H1 H2 H3 H4 H5. unfold iges_lines.
  assert (N : forall c ls, Forall (marked c) ls -> Forall (Forall no_line) ls) by (intros c ls H; eapply Forall_impl; [|exact H]; intros l Hl; apply Hl).
  rewrite getlines_lines; [|repeat (apply Forall_app; split); eauto | apply lines_fuel].
  change (foldM line_step (start ++ global ++ dir ++ par ++ terminate) ([], []) = Ok (map (firstn (Z.to_nat 72)) dir, map (firstn (Z.to_nat 64)) par)).
  rewrite !foldM_app. rewrite (step_other "S") by (auto; discriminate). cbn [bind]. rewrite foldM_app, (step_other "G") by (auto; discriminate). cbn [bind].
  rewrite foldM_app, step_dir by auto. cbn [bind]. rewrite foldM_app, step_par by auto. cbn [bind]. rewrite (step_other "T") by (auto; discriminate). reflexivity.
Qed.
(* the lines of a layout are marked *)
Lemma lines_marked w c tl s line : 0 < w <= 72 -> Forall no_line s -> s <> [] ->
  (forall n, line < n <= line + Z.of_nat (rows_of w s) -> exists a b, tl n = a ++ c :: b /\ zlen a = 72 - w /\ Forall no_line (tl n)) ->
  Forall (marked c) (lines w tl s line).
Proof.
  intros Hw Hs Hne Ht. apply Forall_forall. intros l Hl. unfold lines in Hl. apply map2_in in Hl as (ch & i & Hc & Hi & ->). apply zseq_In in Hi.
  destruct (Ht (line + i + 1) ltac:(lia)) as (a & b & E & L & N).
  pose proof (chunks_width (rows_of w s) w s ltac:(lia)) as W. rewrite Forall_forall in W. specialize (W ch Hc). cbv beta in W.
  pose proof (chunks_line (rows_of w s) w s Hs) as M. rewrite Forall_forall in M. split.
  - apply Forall_app. split; [apply line_padr; auto | exact N].
  - exists (padr ch w ++ a), b. rewrite E, <- app_assoc. split; [reflexivity|]. rewrite zlen_app, zlen_padr by lia. lia.
Qed.
