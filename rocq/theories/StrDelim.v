(* Lemmas about reading numerals and lists of numerals. *)
From Coq Require Import ZArith Bool Ascii List Reals Lra Lia.
From Verif Require Import Base BaseFacts StrSpec StrOps StrFacts StrNum.
Import ListNotations.
Open Scope Z_scope.

Section Delim.
Context (dz : R -> R).
Notation F := (Rops dz).

(* ---- values ---- *)
Lemma read_any n k : numeral_ok n -> nu_int n <> [] \/ nu_frac n <> None ->
  k = (match nu_frac n with Some _ => match nu_int n with [] => 2 ^ 64 | _ => 0 end | None => zlen (show_exp (nu_exp n)) end) ->
  string_to_double (F := F) (show_numeral n) = Ok (numeral_value n * powerRZ 10 k)%R.
Proof.
  intros Hok Hne Hk. rewrite read_numeral by auto. f_equal. rnorm. unfold numeral_value. rewrite dval_value.
  assert (E : (powerRZ 10 (1 - zlen (mdigits (nu_int n) (nu_frac n))) * powerRZ 10 (first_power (nu_int n) (nu_frac n) (nu_exp n)) =
    powerRZ 10 (- Z.of_nat (length (match nu_frac n with None => [] | Some f => f end))) * powerRZ 10 k)%R).
  { rewrite <- !powerRZ_add by lra. f_equal. unfold first_power, mdigits. destruct (nu_frac n) as [f|] eqn:Ef.
    - unfold zlen at 1. rewrite app_length. destruct (nu_int n) as [|d ip] eqn:Ei.
      + subst k. change (u64 (zlen (A := Z) [] - 1)) with (2 ^ 64 - 1). cbn [length]. lia.
      + subst k. unfold u64. rewrite Z.mod_small.
        * unfold zlen; cbn [length]. lia.
        * destruct Hok as (_ & _ & _ & Hl). unfold show_numeral in Hl. rewrite !app_length, Ei, show_length in Hl.
          unfold zlen. cbn [length] in *. lia.
    - unfold zlen at 1. rewrite ?app_length. cbn [length]. subst k. unfold zlen. rewrite ?app_length. cbn [length]. lia. }
  assert (Em : mdigits (nu_int n) (nu_frac n) = nu_int n ++ match nu_frac n with None => [] | Some f => f end).
  { unfold mdigits. destruct (nu_frac n); rewrite ?app_nil_r; reflexivity. }
  rewrite <- Em. set (D := IZR (digits_value _)). set (X := powerRZ 10 (match nu_exp n with None => 0 | Some _ => _ end)).
  transitivity (IZR (if nu_neg n then -1 else 1) * (D * (powerRZ 10 (1 - zlen (mdigits (nu_int n) (nu_frac n))) * powerRZ 10 (first_power (nu_int n) (nu_frac n) (nu_exp n))) * X))%R; [rring|].
  rewrite E. rring.
Qed.

Lemma read_readable n : numeral_ok n -> readable n -> string_to_double (F := F) (show_numeral n) = Ok (numeral_value n).
Proof.
  intros Hok (Hi & Hf). rewrite (read_any n 0); auto; [cbn [powerRZ]; f_equal; rring|].
  destruct (nu_int n); [contradiction|]. destruct (nu_frac n); [reflexivity|]. destruct Hf as [Hf|Hf]; [now contradict Hf|]. now rewrite Hf.
Qed.

(* ---- pieces ---- *)
Lemma find_first_ge f a b i : 0 <= i -> Forall (fun c => f c = false) a -> i + zlen (a ++ b) < 2 ^ 63 ->
  i + zlen a <= find_first_from i f (a ++ b).
Proof.
  intros Hi H. revert i Hi. induction H as [|c a Hc H IH]; intros i Hi Hl; cbn [app find_first_from].
  - change (zlen (A := ascii) []) with 0. revert i Hi Hl. induction b as [|c b IHb]; intros i Hi Hl; cbn [find_first_from]; [unfold npos, zlen in *; cbn [app length] in *; lia|].
    destruct (f c); [lia|]. assert (i + 1 + 0 <= find_first_from (i + 1) f b); [|lia]. apply IHb; [lia|]. unfold zlen in *. cbn [app length] in *. lia.
  - rewrite Hc. assert (i + 1 + zlen a <= find_first_from (i + 1) f (a ++ b)); [apply IH; [lia|] |]; unfold zlen in *; cbn [app length] in *; lia.
Qed.

Lemma delim_loop s ps : closed_pieces delim s ps -> zlen s < 2 ^ 63 -> forall fuel acc, (length s <= fuel)%nat ->
  delimited_loop (F := F) fuel s acc =
  bind (mapM (fun p => string_to_double (F := F) (trim p)) ps) (fun l => Ok (acc ++ l)).
Proof.
  assert (NB : forall p, Forall (fun c => ~ delim c) p -> Forall (fun c => Ascii.eqb c "," = false) p /\ Forall (fun c => Ascii.eqb c ";" = false) p).
  { intros p Hp. split; (eapply Forall_impl; [|exact Hp]); intros c Hc; apply Ascii.eqb_neq; intros ->; apply Hc; [now left | now right]. }
  intros H. induction H as [p Hp|c s ps Hc H IH|p c s ps Hne Hp Hc H IH]; intros Hl fuel acc Hf.
  - cbn [mapM bind]. rewrite app_nil_r. revert p Hp Hl Hf. induction fuel as [|fuel IH]; intros p Hp Hl Hf; [reflexivity|].
    cbn [delimited_loop]. destruct p as [|c p]; [reflexivity|]. destruct (NB _ Hp) as (N1 & N2).
    unfold find_first_of. rewrite !find_first_none by auto. rewrite Z.ltb_irrefl. cbn [andb skipn]. apply IH; [now inversion Hp | unfold zlen in *; cbn [length] in *; lia | cbn [length] in Hf; lia].
  - destruct fuel as [|fuel]; [cbn [length] in Hf; lia|]. cbn [delimited_loop].
    assert (E : (let f1 := find_first_of (c :: s) (fun c => Ascii.eqb c ",") in let f2 := find_first_of (c :: s) (fun c => Ascii.eqb c ";") in
       ((f1 <? f2) && negb (f1 =? 0)) = false /\ ((f2 <? f1) && negb (f2 =? 0)) = false)).
    { cbv zeta. assert (G1 : forall f, 0 <= find_first_of (c :: s) f).
      { intros f. pose proof (find_first_ge f [] (c :: s) 0) as G. cbn [app] in G. specialize (G ltac:(lia) ltac:(constructor) ltac:(lia)). change (zlen (A := ascii) []) with 0 in G. unfold find_first_of. lia. }
      pose proof (G1 (fun c => Ascii.eqb c ",")) as G2. pose proof (G1 (fun c => Ascii.eqb c ";")) as G3.
      assert (Z0 : find_first_of (c :: s) (fun c => Ascii.eqb c ",") = 0 \/ find_first_of (c :: s) (fun c => Ascii.eqb c ";") = 0)
        by (destruct Hc as [-> | ->]; [now left | now right]).
      split; apply andb_false_iff; destruct Z0 as [Z0|Z0]; rewrite Z0 in *; rewrite ?Z.ltb_ge; auto. }
    cbv zeta in E. destruct E as (E1 & E2). rewrite E1, E2. cbn [skipn]. apply IH; [unfold zlen in *; cbn [length] in *; lia | cbn [length] in Hf; lia].
  - destruct fuel as [|fuel]; [rewrite app_length in Hf; cbn [length] in Hf; lia|].
    destruct (NB _ Hp) as (N1 & N2). assert (Hp0 : 0 < zlen p) by (destruct p; [contradiction | unfold zlen; cbn [length]; lia]).
    assert (Sub : substr (p ++ c :: s) 0 (zlen p) = Ok p).
    { unfold substr. destruct (Z.leb_spec 0 (zlen (p ++ c :: s))); [|unfold zlen in *; lia]. f_equal. cbn [Z.to_nat skipn].
      unfold zlen. rewrite Nat2Z.id, firstn_app, firstn_all, Nat.sub_diag. cbn [firstn]. apply app_nil_r. }
    assert (Sk : skipn (Z.to_nat (zlen p + 1)) (p ++ c :: s) = s).
    { replace (Z.to_nat (zlen p + 1)) with (length (p ++ [c])) by (rewrite app_length; unfold zlen; cbn [length]; lia).
      change (p ++ c :: s) with (p ++ [c] ++ s). rewrite app_assoc, skipn_app, skipn_all, Nat.sub_diag. reflexivity. }
    assert (Step : forall x, string_to_double (F := F) (trim p) = x ->
       delimited_loop (F := F) (S fuel) (p ++ c :: s) acc = bind x (fun x => delimited_loop (F := F) fuel s (acc ++ [x]))).
    { intros x <-. cbn [delimited_loop]. destruct (p ++ c :: s) as [|c0 s0] eqn:Eps; [destruct p; discriminate|]. rewrite <- Eps in *.
      unfold find_first_of. destruct Hc as [-> | ->].
      - rewrite (find_first_at _ p ","%char s 0 N1 eq_refl).
        pose proof (find_first_ge (fun c => Ascii.eqb c ";") (p ++ [","%char]) s 0) as G. rewrite <- app_assoc in G. cbn [app] in G.
        specialize (G ltac:(lia) ltac:(apply Forall_app; split; [exact N2 | repeat constructor]) ltac:(lia)).
        destruct (Z.ltb_spec (0 + zlen p) (find_first_from 0 (fun c => Ascii.eqb c ";") (p ++ ","%char :: s))) as [_|G'];
          [|unfold zlen in G, G'; rewrite app_length in G; cbn [length] in G; lia].
        destruct (Z.eqb_spec (0 + zlen p) 0); [lia|]. cbn [andb negb]. rewrite Z.add_0_l, Sub. cbn [bind]. rewrite Sk. reflexivity.
      - rewrite (find_first_at _ p ";"%char s 0 N2 eq_refl).
        pose proof (find_first_ge (fun c => Ascii.eqb c ",") (p ++ [";"%char]) s 0) as G. rewrite <- app_assoc in G. cbn [app] in G.
        specialize (G ltac:(lia) ltac:(apply Forall_app; split; [exact N1 | repeat constructor]) ltac:(lia)).
        assert (G2 : zlen p < find_first_from 0 (fun c => Ascii.eqb c ",") (p ++ ";"%char :: s))
          by (unfold zlen in *; rewrite app_length in G; cbn [length] in G; lia).
        destruct (Z.ltb_spec (find_first_from 0 (fun c => Ascii.eqb c ",") (p ++ ";"%char :: s)) (0 + zlen p)); [lia|].
        destruct (Z.ltb_spec (0 + zlen p) (find_first_from 0 (fun c => Ascii.eqb c ",") (p ++ ";"%char :: s))) as [_|G']; [|lia].
        destruct (Z.eqb_spec (0 + zlen p) 0); [lia|]. cbn [andb negb]. rewrite Z.add_0_l, Sub. cbn [bind]. rewrite Sk. reflexivity. }
    rewrite (Step _ eq_refl). clear Step Sub Sk. cbn [mapM]. destruct (string_to_double (F := F) (trim p)) as [x|e|]; cbn [bind]; auto.
    rewrite IH; [|unfold zlen in *; rewrite app_length in Hl; cbn [length] in Hl; lia | rewrite app_length in Hf; cbn [length] in Hf; lia].
    destruct (mapM (fun p : str => string_to_double (F := F) (trim p)) ps) as [l|e|]; cbn [bind]; auto. rewrite <- app_assoc. reflexivity.
Qed.
Lemma delimited_pieces s ps : closed_pieces delim s ps -> zlen s < 2 ^ 63 ->
  delimited_to_vector (F := F) s = mapM (fun p => string_to_double (F := F) (trim p)) ps.
Proof.
  intros H Hl. unfold delimited_to_vector. rewrite (delim_loop s ps) by auto. destruct (mapM (fun p : str => string_to_double (F := F) (trim p)) ps); reflexivity.
Qed.
End Delim.

Lemma closed_pieces_exist (sep : ascii -> Prop) : (forall c, {sep c} + {~ sep c}) -> forall s, exists ps, closed_pieces sep s ps.
Proof.
  intros dec s. assert (G : forall p s, Forall (fun c => ~ sep c) p -> exists ps, closed_pieces sep (p ++ s) ps).
  { clear s. intros p s; revert p. induction s as [|c s IH]; intros p Hp; [rewrite app_nil_r; exists []; now constructor|].
    destruct (dec c) as [Hc|Hc].
    - destruct (IH [] ltac:(constructor)) as (ps & H). cbn [app] in H. destruct p as [|x p]; [exists ps; now apply closed_sep|].
      exists ((x :: p) :: ps). apply closed_cons; auto. discriminate.
    - destruct (IH (p ++ [c])) as (ps & H); [apply Forall_app; auto|]. rewrite <- app_assoc in H. now exists ps. }
  apply (G []). constructor.
Qed.
Lemma delim_dec c : {delim c} + {~ delim c}.
Proof. unfold delim. destruct (Ascii.ascii_dec c ","); [left; auto|]. destruct (Ascii.ascii_dec c ";"); [left; auto|]. right. intros [H|H]; auto. Qed.

(* ---- numerals consist of harmless characters ---- *)
Definition harmless (c : ascii) : Prop := ~ white c /\ c <> "["%char /\ c <> "]"%char /\ ~ delim c.
Lemma harmless_digit d : 0 <= d <= 9 -> harmless (dchar d).
Proof.
  intros H. assert (C : d = 0 \/ d = 1 \/ d = 2 \/ d = 3 \/ d = 4 \/ d = 5 \/ d = 6 \/ d = 7 \/ d = 8 \/ d = 9) by lia.
  unfold harmless, white, delim.
  destruct C as [-> | [-> | [-> | [-> | [-> | [-> | [-> | [-> | [-> | ->]]]]]]]]]; (repeat split); try (intros C; discriminate C); (intros [C|C]; first [discriminate C | vm_compute in C; lia]).
Qed.
Lemma harmless_mark c : In c ["-"; "+"; "."; "E"; "e"]%char -> harmless c.
Proof.
  intros H. unfold harmless, white, delim. cbn [In] in H.
  destruct H as [<- | [<- | [<- | [<- | [<- | []]]]]]; (repeat split); try (intros C; discriminate C); (intros [C|C]; first [discriminate C | vm_compute in C; lia]).
Qed.
Lemma harmless_show ds : digits_ok ds -> Forall harmless (show ds).
Proof. intros H. unfold show. rewrite Forall_map. eapply Forall_impl; [|exact H]. intros d Hd. now apply (harmless_digit d). Qed.
Lemma harmless_numeral n : numeral_ok n -> Forall harmless (show_numeral n).
Proof.
  intros (Hi & Hf & He & _). unfold show_numeral. repeat (apply Forall_app; split).
  - destruct (nu_neg n); repeat constructor. all: apply harmless_mark; cbn; tauto.
  - now apply harmless_show.
  - destruct (nu_frac n) as [f|]; constructor; [apply harmless_mark; cbn; tauto | apply harmless_show; auto].
  - destruct (nu_exp n) as [e|]; [|constructor]. destruct (He e eq_refl) as (_ & Hd & _). unfold show_expo. constructor.
    + apply harmless_mark. destruct (ex_upper e); cbn; tauto.
    + apply Forall_app. split; [|now apply harmless_show]. destruct (ex_sign e) as [[]|]; repeat constructor; apply harmless_mark; cbn; tauto.
Qed.
Lemma starts_not_harmless (P : ascii -> Prop) s t : s <> [] -> Forall harmless s -> (forall c, harmless c -> ~ P c) -> starts_not P (s ++ t).
Proof. intros Hs H HP. destruct H as [|c s Hc H]; [contradiction|]. cbn. auto. Qed.
Lemma trim_around l s r : s <> [] -> Forall harmless s ->
  Forall (fun c => white c \/ c = "["%char) l -> Forall (fun c => white c \/ c = "]"%char) r -> trim (l ++ s ++ r) = s.
Proof.
  intros Hs H Hl Hr. symmetry. apply (trim_unique _ s l r); auto.
  - apply starts_not_harmless; auto. intros c (H1 & H2 & _). tauto.
  - rewrite <- (app_nil_r (rev s)). apply starts_not_harmless.
    + intros E. apply Hs. rewrite <- (rev_involutive s), E. reflexivity.
    + now apply Forall_rev.
    + intros c (H1 & _ & H2 & _). tauto.
Qed.

Lemma numeral_nonempty n : nu_int n <> [] -> show_numeral n <> [].
Proof. intros H. unfold show_numeral. destruct (nu_neg n), (nu_int n); try discriminate; contradiction. Qed.
Lemma white_no_delim c : white c -> ~ delim c.
Proof. unfold white, delim. intros [E|H] [E'|E']; subst; try discriminate; vm_compute in H; lia. Qed.
Lemma entry_no_delim e : entry_ok e -> Forall (fun c => ~ delim c) (fst (show_entry e)).
Proof.
  intros (Hl & Hr & _ & Hn & _). cbn [show_entry fst]. apply Forall_app; split; [|apply Forall_app; split].
  - eapply Forall_impl; [|exact Hl]. intros c [H| ->]; [now apply white_no_delim|]. intros [E|E]; discriminate.
  - eapply Forall_impl; [|apply (harmless_numeral _ Hn)]. intros c H. apply H.
  - eapply Forall_impl; [|exact Hr]. intros c [H| ->]; [now apply white_no_delim|]. intros [E|E]; discriminate.
Qed.
Lemma entries_pieces es rest : Forall entry_ok es -> Forall (fun c => ~ delim c) rest ->
  closed_pieces delim (join_each (map show_entry es) ++ rest) (map (fun e => fst (show_entry e)) es).
Proof.
  intros H Hr. induction H as [|e es He H IH]; [now constructor|].
  cbn [map join_each flat_map]. rewrite <- !app_assoc. apply closed_cons; auto.
  - cbn. destruct He as (_ & _ & _ & _ & (Hi & _)). intros E. apply app_eq_nil in E as (_ & E). apply app_eq_nil in E as (E & _). now apply (numeral_nonempty _ Hi).
  - now apply entry_no_delim.
  - apply He.
Qed.
Lemma read_entries dz es rest : Forall entry_ok es -> Forall (fun c => ~ delim c) rest -> zlen (join_each (map show_entry es) ++ rest) < 2 ^ 63 ->
  delimited_to_vector (F := Rops dz) (join_each (map show_entry es) ++ rest) = Ok (map (fun e => numeral_value (en_num e)) es).
Proof.
  intros H Hr Hl. rewrite (delimited_pieces dz _ _ (entries_pieces es rest H Hr) Hl). clear Hl Hr.
  induction H as [|e es He H IH]; [reflexivity|]. cbn [map mapM].
  destruct He as (Hl' & Hr' & _ & Hn & Hread). cbn [show_entry fst].
  rewrite trim_around; auto using harmless_numeral; [|apply numeral_nonempty, Hread].
  refine (eq_trans (f_equal (fun r => bind r _) (read_readable dz _ Hn Hread)) _). cbn [bind].
  refine (eq_trans (f_equal (fun r => bind r _) IH) _). reflexivity.
Qed.
