(* Integers as text, and the words of a text. *)
From Coq Require Import ZArith Ascii String List Bool Lia Reals Lra.
From Verif Require Import Base BaseFacts StrSpec StrOps StrFacts StrThms StrNum StrDelim Format FormatSpec.
Import ListNotations.
Open Scope Z_scope.

(* ---- integers ---- *)
Lemma digits10_ok : forall fuel n, 0 <= n -> (Z.to_nat (Z.log2 n) < fuel)%nat ->
  digits_ok (digits10 fuel n) /\ digits10 fuel n <> [] /\ digits_value (digits10 fuel n) = n /\ (List.length (digits10 fuel n) <= fuel)%nat.
Proof.
  induction fuel as [|f IH]; intros n Hn Hf; [lia|]. cbn [digits10]. destruct (Z.ltb_spec n 10) as [H|H].
  - split; [|split; [|split]].
    + repeat constructor; lia.
    + discriminate.
    + unfold digits_value. cbn [fold_left]. lia.
    + cbn [List.length]. lia.
  - assert (L : Z.log2 (n / 10) < Z.log2 n).
    { assert (0 < n / 10) by (apply Z.div_str_pos; lia).
      assert (n / 10 <= n / 2) by (apply Z.div_le_compat_l; lia).
      assert (Z.log2 (n / 10) <= Z.log2 (n / 2)) by (apply Z.log2_le_mono; lia).
      assert (Z.log2 (n / 2) = Z.log2 n - 1).
      { rewrite <- Z.div2_div, Z.div2_spec, Z.log2_shiftr by lia.
        assert (1 <= Z.log2 n) by (apply Z.log2_le_pow2; lia). lia. }
      lia. }
    pose proof (Z.log2_nonneg (n / 10)) as L0.
    destruct (IH (n / 10)) as (A & B & C & D); [apply Z.div_pos; lia | lia |].
    pose proof (Z.mod_pos_bound n 10 ltac:(lia)) as M.
    split; [|split; [|split]].
    + apply Forall_app. split; [exact A|]. repeat constructor; lia.
    + intros E. apply app_eq_nil in E. destruct E; discriminate.
    + unfold digits_value in *. rewrite fold_left_app. cbn [fold_left]. rewrite C. pose proof (Z.div_mod n 10 ltac:(lia)). lia.
    + rewrite app_length. cbn [List.length]. lia.
Qed.

Lemma int_str_show n : 0 <= n < 2 ^ 31 -> exists ds, int_str n = show ds /\ digits_ok ds /\ ds <> [] /\ digits_value ds = n /\ (List.length ds <= 31)%nat.
Proof.
  intros Hn. unfold int_str. replace (n <? 0) with false by (symmetry; apply Z.ltb_ge; lia). rewrite Z.abs_eq by lia. cbn [app].
  exists (digits10 (S (Z.to_nat (Z.log2 n))) n). split; [reflexivity|].
  destruct (digits10_ok (S (Z.to_nat (Z.log2 n))) n) as (A & B & C & D); [lia | lia |].
  repeat split; auto. assert (Z.log2 n < 31).
  { destruct (Z.eq_dec n 0) as [->|]; [cbn; lia|]. apply Z.log2_lt_pow2; lia. }
  lia.
Qed.

Definition int_numeral (ds : list Z) : numeral := mkNumeral false ds None None.
Lemma int_numeral_ok ds : digits_ok ds -> ds <> [] -> (List.length ds <= 31)%nat ->
  numeral_ok (int_numeral ds) /\ readable (int_numeral ds) /\ show_numeral (int_numeral ds) = show ds /\ numeral_value (int_numeral ds) = IZR (digits_value ds).
Proof.
  intros H Hne Hl. assert (E : show_numeral (int_numeral ds) = show ds) by (unfold show_numeral; cbn; now rewrite app_nil_r).
  split; [|split; [|split]]; auto.
  - unfold numeral_ok. rewrite E, show_length. cbn. repeat split; auto; try discriminate. lia.
  - unfold readable. cbn. auto.
  - unfold numeral_value. cbn [int_numeral nu_neg nu_int nu_frac nu_exp List.length]. rewrite app_nil_r. change (- Z.of_nat 0) with 0. rewrite powerRZ_O. ring.
Qed.

Lemma read_int dz n : 0 <= n < 2 ^ 31 -> string_to_double (F := Rops dz) (int_str n) = Ok (IZR n).
Proof.
  intros Hn. destruct (int_str_show n Hn) as (ds & E & A & B & C & D). destruct (int_numeral_ok ds A B D) as (Ho & Hr & Es & Ev).
  rewrite E, <- Es, read_readable by auto. rewrite Ev, C. reflexivity.
Qed.
Lemma int_plain n : 0 <= n < 2 ^ 31 -> Forall harmless (int_str n) /\ int_str n <> [].
Proof.
  intros Hn. destruct (int_str_show n Hn) as (ds & E & A & B & C & D). rewrite E. split; [now apply harmless_show|].
  destruct ds; [contradiction|discriminate].
Qed.

Lemma toward_zero_IZR n : toward_zero (IZR n) = n.
Proof.
  assert (I : forall m, Int_part (IZR m) = m).
  { intros m. destruct (base_Int_part (IZR m)) as [A B]. apply le_IZR in A.
    assert (IZR m < IZR (Int_part (IZR m) + 1))%R by (rewrite plus_IZR; lra). apply lt_IZR in H. lia. }
  unfold toward_zero. destruct (Rle_dec 0 (IZR n)); [apply I|]. rewrite <- opp_IZR, I. lia.
Qed.
Lemma to_int_IZR dz n : - 2 ^ 31 <= n < 2 ^ 31 -> to_int (F := Rops dz) toward_zero (IZR n) = Ok n.
Proof.
  intros Hn. unfold to_int. rewrite toward_zero_IZR.
  replace (- 2 ^ 31 <=? n) with true by (symmetry; apply Z.leb_le; lia).
  replace (n <? 2 ^ 31) with true by (symmetry; apply Z.ltb_lt; lia). reflexivity.
Qed.

(* ---- the words of a text when line ends are dropped ---- *)
Definition flush (cur : str) : list str := match cur with [] => [] | _ => [cur] end.
Fixpoint words (cur : str) (s : str) : list str :=
  match s with
  | [] => flush cur
  | c :: t => if Ascii.eqb c newline then words cur t
              else if Ascii.eqb c " " then flush cur ++ words [] t
              else words (cur ++ [c]) t
  end.
Definition no_break (c : ascii) : Prop := c <> " "%char /\ c <> newline.
Definition joined (s : str) : str := filter (fun c => negb (Ascii.eqb c newline)) s.

Lemma getlines_joined : forall n s, (List.length s <= n)%nat -> concat (getlines n newline s) = joined s.
Proof.
  induction n as [|n IH]; intros s Hs.
  - destruct s; [reflexivity|cbn in Hs; lia].
  - rewrite getlines_step. destruct s as [|c s]; [reflexivity|].
    pose proof (until_spec newline (c :: s)) as U. destruct (until newline (c :: s)) as [a b]. destruct U as [Ha U].
    cbn [concat].
    assert (Ja : joined a = a).
    { clear -Ha. unfold joined. induction Ha as [|x a Hx Ha IHa]; [reflexivity|]. cbn [filter].
      destruct (Ascii.eqb_spec x newline); [contradiction|]. cbn [negb]. now rewrite IHa. }
    destruct U as [U|[U ->]].
    + rewrite IH by (assert (E := f_equal (@List.length ascii) U); rewrite app_length in E; cbn in E, Hs; lia).
      rewrite U. unfold joined. rewrite filter_app. cbn [filter]. rewrite Ascii.eqb_refl. cbn [negb]. unfold joined in Ja. now rewrite Ja.
    + rewrite <- U in Ja. rewrite U in *. rewrite Ja. destruct n; cbn; now rewrite app_nil_r.
Qed.

Lemma words_pieces : forall s cur, Forall no_break cur -> pieces (fun c => c = " "%char \/ c = newline) (cur ++ joined s) (words cur s).
Proof.
  assert (NB : forall cur, Forall no_break cur -> Forall (fun c => ~ (c = " "%char \/ c = newline)) cur).
  { intros cur H. eapply Forall_impl; [|exact H]. intros c [A B] [C|C]; auto. }
  induction s as [|c s IH]; intros cur Hc; cbn [words joined filter].
  - rewrite app_nil_r. destruct cur as [|x cur]; [constructor|]. apply pieces_last; [discriminate|]. apply NB; auto.
  - destruct (Ascii.eqb_spec c newline) as [->|Hn]; cbn [negb]; [apply IH; auto|].
    destruct (Ascii.eqb_spec c " ") as [->|Hb].
    + destruct cur as [|x cur]; cbn [flush app].
      * apply pieces_sep; [auto|]. apply (IH []). constructor.
      * apply (pieces_cons _ (x :: cur)); [discriminate | apply NB; auto | auto | apply (IH []); constructor].
    + change (c :: filter (fun c0 => negb (Ascii.eqb c0 newline)) s) with ([c] ++ joined s). rewrite app_assoc. apply IH.
      apply Forall_app. split; auto. repeat constructor; auto.
Qed.

Lemma split_words s : split (concat (getlines (List.length s) newline s)) " " = words [] s.
Proof.
  rewrite getlines_joined by lia. apply split_unique. apply (words_pieces s []). constructor.
Qed.

Lemma words_word a : forall cur b, Forall no_break a -> words cur (a ++ b) = words (cur ++ a) b.
Proof.
  induction a as [|c a IH]; intros cur b H; [now rewrite app_nil_r|]. inversion H as [|? ? [H1 H2] H3]; subst. cbn [app words].
  destruct (Ascii.eqb_spec c newline); [contradiction|]. destruct (Ascii.eqb_spec c " "); [contradiction|].
  rewrite IH by auto. now rewrite <- app_assoc.
Qed.
Lemma words_blank cur b : words cur (" "%char :: b) = flush cur ++ words [] b.
Proof. reflexivity. Qed.
Lemma words_nl cur b : words cur (newline :: b) = words cur b.
Proof. reflexivity. Qed.
Lemma flush_some w : w <> [] -> flush w = [w].
Proof. destruct w; [contradiction|reflexivity]. Qed.
Lemma harmless_no_break s : Forall harmless s -> Forall no_break s.
Proof.
  intros H. eapply Forall_impl; [|exact H]. intros c (A & _). split; intros ->; apply A; [left; reflexivity | right; vm_compute; lia].
Qed.

(* text that starts a new word and ends inside a word *)
Definition emits (t : str) (ws : list str) : Prop :=
  exists l w, ws = l ++ [w] /\ w <> [] /\ forall cur rest, words cur (t ++ rest) = flush cur ++ l ++ words w rest.
Lemma emits_app t1 ws1 t2 ws2 : emits t1 ws1 -> emits t2 ws2 -> emits (t1 ++ t2) (ws1 ++ ws2).
Proof.
  intros (l1 & w1 & -> & N1 & H1) (l2 & w2 & -> & N2 & H2). exists ((l1 ++ [w1]) ++ l2), w2. split; [now rewrite !app_assoc|]. split; auto.
  intros cur rest. rewrite <- app_assoc, H1, H2, (flush_some w1) by auto. now rewrite <- !app_assoc.
Qed.
Lemma emits_concat ts : forall wss, ts <> [] -> Forall2 emits ts wss -> emits (concat ts) (concat wss).
Proof.
  induction ts as [|t ts IH]; intros wss Hne H; [contradiction|]. inversion H as [|? ws ? wss' H1 H2]; subst. cbn [concat].
  destruct ts as [|t' ts].
  - inversion H2; subst. cbn [concat]. now rewrite !app_nil_r.
  - apply emits_app; auto. apply IH; auto. discriminate.
Qed.

(* p1 blank p2 ... pn bracket line end *)
Fixpoint ended (ts : list str) : str :=
  match ts with
  | [] => []
  | [t] => t ++ of_string "]" ++ [newline]
  | t :: r => t ++ of_string " " ++ ended r
  end.
Fixpoint closed (ts : list str) : list str :=
  match ts with
  | [] => []
  | [t] => [t ++ of_string "]"]
  | t :: r => t :: closed r
  end.
Lemma closed_length ts : List.length (closed ts) = List.length ts.
Proof. induction ts as [|t [|u ts] IH]; cbn [closed List.length] in *; auto. Qed.

Lemma words_ended ts : forall cur, ts <> [] -> Forall (fun t => t <> [] /\ Forall no_break t) ts ->
  exists l w, closed ts = l ++ [w] /\ w <> [] /\
    forall rest, words cur (ended ts ++ rest) = match l with [] => words (cur ++ w) rest | x :: l' => (cur ++ x) :: l' ++ words w rest end.
Proof.
  induction ts as [|t ts IH]; intros cur Hne H; [contradiction|]. inversion H as [|? ? [Ht Hb] H']; subst.
  destruct ts as [|u ts].
  - exists [], (t ++ of_string "]"). cbn [closed ended app]. split; [reflexivity|]. split.
    + intros E. apply app_eq_nil in E. destruct E; contradiction.
    + intros rest. rewrite <- app_assoc, words_word by auto. rewrite <- app_assoc.
      rewrite (words_word (of_string "]")) by (repeat constructor; discriminate). cbn [app]. rewrite words_nl. now rewrite app_assoc.
  - destruct (IH [] ltac:(discriminate) H') as (l & w & E & Hw & G). exists (t :: l), w. cbn [closed] in *. split; [now rewrite E|]. split; auto.
    intros rest. cbn [ended]. rewrite <- app_assoc, words_word by auto. cbn [of_string list_ascii_of_string app].
    rewrite words_blank, flush_some; [|intros C; apply app_eq_nil in C; destruct C; contradiction]. cbn [ended] in G. rewrite G. cbn [app]. f_equal.
    destruct l as [|x l']; reflexivity.
Qed.

(* ---- loops that build text ---- *)
Lemma concatM_ok {A} (f : A -> Res str) (g : A -> str) l : (forall a, In a l -> f a = Ok (g a)) -> concatM f l = Ok (concat (map g l)).
Proof. intros H. unfold concatM. rewrite (mapM_ok f g) by auto. reflexivity. Qed.
Lemma ended_loop (g : Z -> str) : forall n lo m, m = lo + Z.of_nat n ->
  concat (map (fun k => g k ++ (if k <? m - 1 then of_string " " else of_string "]" ++ [newline])) (zseq lo n)) = ended (map g (zseq lo n)).
Proof.
  induction n as [|n IH]; intros lo m Hm; [reflexivity|]. cbn [zseq map concat]. rewrite (IH (lo + 1) m) by lia.
  destruct n as [|n].
  - replace (lo <? m - 1) with false by (symmetry; apply Z.ltb_ge; lia). cbn [zseq map ended]. now rewrite app_nil_r.
  - replace (lo <? m - 1) with true by (symmetry; apply Z.ltb_lt; lia). cbn [zseq map ended]. now rewrite <- app_assoc.
Qed.
