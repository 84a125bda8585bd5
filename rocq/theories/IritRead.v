(* Reading the words of an IRIT file. *)
From Coq Require Import ZArith Ascii String List Bool Lia Reals Lra.
From Verif Require Import Base BaseFacts MultiIndex MultiIndexSpec MultiIndexFacts TensorSum KnotVec KnotVecSpec Spaces SpacesSpec SpacesFacts SplineEval SplineSpec SplineNew EvalFacts
  StrSpec StrOps StrFacts StrNum StrDelim Convert ConvertSpec ConvertFacts VtkSpec VtkFacts Format FormatSpec FormatFacts Irit IritFacts.
Import ListNotations.
Open Scope Z_scope.

(* ---- the words of L stand at position p ---- *)
Definition stands (e : list str) (p : Z) (L : list str) : Prop := exists pre post, e = pre ++ L ++ post /\ zlen pre = p.
Lemma stands_cons e p x L : stands e p (x :: L) -> vget e p = Ok x /\ stands e (p + 1) L.
Proof.
  intros (pre & post & -> & <-). split.
  - apply vget_at; [unfold zlen; lia|]. unfold zlen. rewrite Nat2Z.id, nth_error_app2, Nat.sub_diag by lia. reflexivity.
  - exists (pre ++ [x]), post. split; [now rewrite <- app_assoc|]. unfold zlen. rewrite app_length. cbn [List.length]. lia.
Qed.
Lemma stands_app e p L M : stands e p (L ++ M) -> stands e p L /\ stands e (p + zlen L) M.
Proof.
  intros (pre & post & -> & <-). split.
  - exists pre, (M ++ post). split; [now rewrite <- app_assoc|reflexivity].
  - exists (pre ++ L), post. split; [now rewrite <- !app_assoc|]. unfold zlen. rewrite app_length. lia.
Qed.
Lemma stands_nth e p L k d : stands e p L -> 0 <= k < zlen L -> vget e (p + k) = Ok (nth (Z.to_nat k) L d).
Proof.
  intros (pre & post & -> & <-) Hk. apply vget_at; [unfold zlen in *; lia|]. unfold zlen in *.
  rewrite nth_error_app2 by lia. rewrite nth_error_app1 by lia. replace (Z.to_nat (Z.of_nat (List.length pre) + k) - List.length pre)%nat with (Z.to_nat k) by lia.
  apply nth_error_nth'. lia.
Qed.
Lemma stands_fuel e p L : stands e p L -> (List.length L <= List.length e)%nat.
Proof. intros (pre & post & -> & _). rewrite !app_length. lia. Qed.

Lemma skip_ok e : forall A p fuel B, stands e p (A ++ of_string "[KV" :: B) -> Forall (fun t => starts_with t (of_string "[KV") = false) A ->
  (List.length A < fuel)%nat -> skip_to_knots fuel e p = Ok (p + zlen A + 1).
Proof.
  induction A as [|a A IH]; intros p fuel B H HA Hf; (destruct fuel as [|fuel]; [cbn in Hf; lia|]); cbn [skip_to_knots app] in *.
  - destruct (stands_cons _ _ _ _ H) as [-> _]. cbn [bind]. change (starts_with (of_string "[KV") (of_string "[KV")) with true. cbn iota. f_equal. unfold zlen. cbn. lia.
  - destruct (stands_cons _ _ _ _ H) as [-> H']. cbn [bind]. inversion HA as [|? ? Ha HA']; subst. rewrite Ha.
    rewrite (IH (p + 1) fuel B) by (auto; cbn [List.length] in Hf; lia). f_equal. unfold zlen. cbn [List.length]. lia.
Qed.

Lemma first_point_ok e : forall A p fuel x B, stands e p (A ++ x :: B) ->
  Forall (fun t => starts_with t bracket_open = false \/ starts_with t (of_string "[KV") = true) A ->
  starts_with x bracket_open = true -> starts_with x (of_string "[KV") = false -> (List.length A < fuel)%nat ->
  first_point_loop fuel e p = Ok (p + zlen A).
Proof.
  induction A as [|a A IH]; intros p fuel x B H HA X1 X2 Hf; (destruct fuel as [|fuel]; [cbn in Hf; lia|]); cbn [first_point_loop app] in *.
  - destruct (stands_cons _ _ _ _ H) as [-> _]. cbn [bind]. rewrite X1, X2. cbn [negb orb]. f_equal. unfold zlen. cbn. lia.
  - destruct (stands_cons _ _ _ _ H) as [-> H']. cbn [bind]. inversion HA as [|? ? Ha HA']; subst.
    replace (negb (starts_with a bracket_open) || starts_with a (of_string "[KV"))%bool with true by (destruct Ha as [-> | ->]; [reflexivity | now rewrite orb_true_r]).
    rewrite (IH (p + 1) fuel x B) by (auto; cbn [List.length] in Hf; lia). f_equal. unfold zlen. cbn [List.length]. lia.
Qed.

(* ---- prefixes and suffixes of words ---- *)
Lemma starts_no c t r : t <> [] -> Forall (fun x => x <> c) t -> starts_with (t ++ r) [c] = false.
Proof.
  intros Hne H. apply not_true_is_false. rewrite starts_with_spec. intros (q & E). destruct t as [|x t]; [contradiction|]. inversion H; subst. cbn in E. congruence.
Qed.
Lemma starts_yes c t : starts_with (c :: t) [c] = true.
Proof. apply starts_with_spec. exists t. reflexivity. Qed.
Lemma starts_kv_no t : t <> [] -> Forall (fun x => x <> "K"%char) t -> starts_with (of_string "[" ++ t) (of_string "[KV") = false.
Proof.
  intros Hne H. apply not_true_is_false. rewrite starts_with_spec. intros (q & E). destruct t as [|x t]; [contradiction|]. inversion H; subst. cbn in E. congruence.
Qed.
Lemma starts_longer t : starts_with t bracket_open = false -> starts_with t (of_string "[KV") = false.
Proof.
  intros H. apply not_true_is_false. intros E. apply starts_with_spec in E. destruct E as (q & E). subst t.
  assert (starts_with (of_string "[KV" ++ q) bracket_open = true) by (apply starts_with_spec; eexists; reflexivity). congruence.
Qed.
Lemma ends_no t : t <> [] -> Forall (fun x => x <> "]"%char) t -> zlen t < 2 ^ 63 -> ends_with t bracket_close = false.
Proof.
  intros Hne H Hl. apply not_true_is_false. rewrite ends_with_spec by (auto; vm_compute; reflexivity).
  intros [[(q & E) _]|E].
  - subst t. apply Forall_app in H. destruct H as [_ H]. inversion H; subst. congruence.
  - change (zlen bracket_close) with 1 in E. unfold zlen in E. destruct t; [contradiction|cbn [List.length] in E; lia].
Qed.
Lemma ends_yes t : Forall (fun x => x <> "]"%char) t -> zlen t < 2 ^ 62 -> ends_with (t ++ of_string "]") bracket_close = true.
Proof.
  intros H Hl. apply ends_with_spec; [unfold zlen in *; rewrite app_length; cbn [List.length of_string list_ascii_of_string]; lia | vm_compute; reflexivity|].
  left. split; [exists t; reflexivity|]. intros n Hn (a & b & E & La).
  rewrite app_length in Hn. cbn [List.length of_string list_ascii_of_string bracket_close] in Hn.
  assert (N : nth_error (t ++ of_string "]") n = Some "]"%char).
  { rewrite E, nth_error_app2 by lia. rewrite La, Nat.sub_diag. reflexivity. }
  rewrite nth_error_app1 in N by lia. apply nth_error_In in N. rewrite Forall_forall in H. now apply (H _ N).
Qed.
Lemma str_eqb_eq a b : str_eqb a b = true <-> a = b.
Proof.
  unfold str_eqb. split.
  - intros H. apply andb_true_iff in H. destruct H as [H1 H2]. apply Z.eqb_eq in H1. apply is_prefix_spec in H2. destruct H2 as (r & ->).
    unfold zlen in H1. rewrite app_length in H1. destruct r; [now rewrite app_nil_r | cbn [List.length] in H1; lia].
  - intros ->. rewrite Z.eqb_refl. cbn [andb]. apply is_prefix_spec. exists []. now rewrite app_nil_r.
Qed.

(* ---- characters of numerals ---- *)
Definition numchar (c : ascii) : Prop := c <> "B"%char /\ c <> "K"%char /\ c <> "["%char /\ c <> "]"%char /\ c <> "P"%char.
Lemma numchar_show ds : digits_ok ds -> Forall numchar (show ds).
Proof.
  intros H. unfold show. rewrite Forall_map. eapply Forall_impl; [|exact H]. intros d Hd.
  cbv beta in Hd. assert (C : d = 0 \/ d = 1 \/ d = 2 \/ d = 3 \/ d = 4 \/ d = 5 \/ d = 6 \/ d = 7 \/ d = 8 \/ d = 9) by lia.
  destruct C as [-> | [-> | [-> | [-> | [-> | [-> | [-> | [-> | [-> | ->]]]]]]]]]; repeat split; discriminate.
Qed.
Lemma numchar_numeral n : numeral_ok n -> Forall numchar (show_numeral n).
Proof.
  intros (Hi & Hf & He & _). unfold show_numeral. repeat (apply Forall_app; split).
  - destruct (nu_neg n); repeat constructor; discriminate.
  - now apply numchar_show.
  - destruct (nu_frac n) as [f|]; constructor; [repeat split; discriminate | apply numchar_show; auto].
  - destruct (nu_exp n) as [e|]; [|constructor]. destruct (He e eq_refl) as (_ & Hd & _). unfold show_expo. constructor.
    + destruct (ex_upper e); repeat split; discriminate.
    + apply Forall_app. split; [|now apply numchar_show]. destruct (ex_sign e) as [[]|]; repeat constructor; discriminate.
Qed.
Lemma numchar_int n : 0 <= n < 2 ^ 31 -> Forall numchar (int_str n).
Proof. intros Hn. destruct (int_str_show n Hn) as (ds & E & A & _). rewrite E. now apply numchar_show. Qed.

(* ---- positions of BSPLINE ---- *)
Fixpoint bpos (k : Z) (l : list str) : list Z :=
  match l with
  | [] => []
  | x :: t => if str_eqb x (of_string "BSPLINE") then (k - 1) :: bpos (k + 1) t else bpos (k + 1) t
  end.
Lemma positions_bpos e : irit_positions e = Ok (bpos 0 e).
Proof.
  unfold irit_positions. rewrite for_up_foldM. rewrite Z.sub_0_r. unfold zlen. rewrite Nat2Z.id.
  assert (G : forall l pre acc, foldM (fun (acc : list Z) i => x <- vget (pre ++ l) i ;; Ok (if str_eqb x (of_string "BSPLINE") then acc ++ [i - 1] else acc))
            (zseq (zlen pre) (List.length l)) acc = Ok (acc ++ bpos (zlen pre) l)).
  { induction l as [|x l IH]; intros pre acc; cbn [List.length zseq foldM bpos]; [now rewrite app_nil_r|].
    assert (S : stands (pre ++ x :: l) (zlen pre) [x]) by (exists pre, l; split; reflexivity).
    destruct (stands_cons _ _ _ _ S) as [-> _]. cbn [bind].
    replace (pre ++ x :: l) with ((pre ++ [x]) ++ l) by (now rewrite <- app_assoc).
    replace (zlen pre + 1) with (zlen (pre ++ [x])) by (unfold zlen; rewrite app_length; cbn [List.length]; lia).
    rewrite IH. destruct (str_eqb x (of_string "BSPLINE")); [now rewrite <- app_assoc|reflexivity]. }
  exact (G e [] []).
Qed.
Lemma bpos_app a b k : bpos k (a ++ b) = bpos k a ++ bpos (k + zlen a) b.
Proof.
  revert k; induction a as [|x a IH]; intros k; cbn [app bpos]; [unfold zlen; cbn; now rewrite Z.add_0_r|].
  rewrite IH. replace (k + 1 + zlen a) with (k + zlen (x :: a)) by (unfold zlen; cbn [List.length]; lia).
  destruct (str_eqb x (of_string "BSPLINE")); reflexivity.
Qed.
Lemma bpos_none a k : Forall (fun x => x <> of_string "BSPLINE") a -> bpos k a = [].
Proof.
  intros H. revert k. induction H as [|x a Hx H IH]; intros k; cbn [bpos]; [reflexivity|]. rewrite IH.
  destruct (str_eqb x (of_string "BSPLINE")) eqn:E; [apply str_eqb_eq in E; contradiction|reflexivity].
Qed.

Section Values.
Context {dz : R -> R}.
Notation F := (Rops dz).
Variable fmt : R -> str.
Variable tol : R.
Notation P := (prints fmt tol).

(* the number that is read back for x *)
Definition rval (x : R) : R := match string_to_double (F := F) (fmt x) with Ok v => v | _ => 0%R end.
Lemma rval_ok x : P x -> string_to_double (F := F) (fmt x) = Ok (rval x) /\ (Rabs (rval x - x) <= tol)%R.
Proof. intros H. destruct (prints_text (dz := dz) fmt tol x H) as (_ & _ & _ & v & E & T). unfold rval. rewrite E. auto. Qed.
Lemma rval_back x : P x -> comes_back fmt tol x (rval x).
Proof.
  intros H. split; [now apply rval_ok|]. intros H0. destruct (prints_text (dz := dz) fmt 0 x H0) as (_ & _ & _ & v & E & T). unfold rval. rewrite E.
  pose proof (Rabs_pos (v - x)) as A. assert (A0 : Rabs (v - x) = 0%R) by lra. destruct (Req_dec (v - x) 0) as [Z0|N0]; [lra|]. apply Rabs_no_R0 in N0. contradiction.
Qed.
Lemma fmt_chars x : P x -> fmt x <> [] /\ Forall harmless (fmt x) /\ Forall numchar (fmt x) /\ zlen (fmt x) < 2 ^ 32.
Proof.
  intros H. destruct (prints_text (dz := dz) fmt tol x H) as (A & B & C & _). repeat split; auto.
  destruct H as (n & E & Ho & _). rewrite E. now apply numchar_numeral.
Qed.
Lemma fmt_words xs : Forall P xs -> Forall (fun t => t <> [] /\ Forall no_break t) (map fmt xs).
Proof.
  intros H. rewrite Forall_map. eapply Forall_impl; [|exact H]. intros x Hx. destruct (fmt_chars x Hx) as (A & B & _). split; auto. now apply harmless_no_break.
Qed.

(* words around a numeral *)
Definition numword (t : str) (x : R) : Prop := exists l r, t = l ++ fmt x ++ r /\ (l = [] \/ l = of_string "[") /\ (r = [] \/ r = of_string "]").
Lemma numword_read t x : P x -> numword t x -> string_to_double (F := F) (trim t) = Ok (rval x).
Proof.
  intros Hx (l & r & -> & Hl & Hr). destruct (fmt_chars x Hx) as (A & B & _). rewrite trim_around; auto; [now apply rval_ok| |].
  - destruct Hl as [-> | ->]; [constructor|]. constructor; [now right | constructor].
  - destruct Hr as [-> | ->]; [constructor|]. constructor; [now right | constructor].
Qed.
Lemma word_ends x l : P x -> (l = [] \/ l = of_string "[") ->
  ends_with (l ++ fmt x) bracket_close = false /\ ends_with (l ++ fmt x ++ of_string "]") bracket_close = true.
Proof.
  intros Hx Hl. destruct (fmt_chars x Hx) as (A & _ & B & C).
  assert (G : Forall (fun c => c <> "]"%char) (l ++ fmt x) /\ l ++ fmt x <> [] /\ zlen (l ++ fmt x) < 2 ^ 33).
  { split; [|split].
    - apply Forall_app. split; [destruct Hl as [-> | ->]; repeat constructor; discriminate|]. eapply Forall_impl; [|exact B]. intros c H; apply H.
    - intros E. apply app_eq_nil in E. destruct E; contradiction.
    - unfold zlen in *. rewrite app_length. destruct Hl as [-> | ->]; cbn [List.length of_string list_ascii_of_string]; lia. }
  destruct G as (G1 & G2 & G3). split.
  - apply ends_no; auto. lia.
  - rewrite app_assoc. apply ends_yes; auto. lia.
Qed.

Lemma closed_words xs : Forall P xs -> Forall2 numword (closed (map fmt xs)) xs /\ Forall (fun t => starts_with t bracket_open = false) (closed (map fmt xs)).
Proof.
  induction 1 as [|x xs Hx H IH]; [split; constructor|]. destruct (fmt_chars x Hx) as (A & _ & B & _).
  assert (B' : Forall (fun c => c <> "["%char) (fmt x)) by (eapply Forall_impl; [|exact B]; intros c C; apply C).
  destruct xs as [|y xs].
  - cbn [map closed]. split; (constructor; [|constructor]).
    + exists [], (of_string "]"). repeat split; auto.
    + apply (starts_no "["%char); auto.
  - destruct IH as [I1 I2]. cbn [map closed] in *. split; constructor; auto.
    + exists [], []. rewrite app_nil_r. repeat split; auto.
    + rewrite <- (app_nil_r (fmt x)). apply (starts_no "["%char); auto.
Qed.
Lemma read_knots_ok e : forall L xs p fuel x B (acc : list R), stands e p (L ++ x :: B) -> Forall2 numword L xs -> Forall P xs ->
  Forall (fun t => starts_with t bracket_open = false) L -> starts_with x bracket_open = true -> (List.length L < fuel)%nat ->
  read_knots (F := F) fuel e p acc = Ok (p + zlen L, acc ++ map rval xs).
Proof.
  induction L as [|t L IH]; intros xs p fuel x B acc H HW HP HN HX Hf; (destruct fuel as [|fuel]; [cbn in Hf; lia|]); cbn [read_knots app] in *.
  - inversion HW; subst. destruct (stands_cons _ _ _ _ H) as [-> _]. cbn [bind]. rewrite HX. cbn [map]. rewrite app_nil_r. f_equal. f_equal. unfold zlen. cbn. lia.
  - inversion HW as [|? y ? ys Ht HW']; subst. inversion HP; subst. inversion HN as [|? ? N1 N2]; subst.
    destruct (stands_cons _ _ _ _ H) as [-> H']. cbn [bind]. rewrite N1. rewrite (numword_read t y) by auto. cbn [bind].
    rewrite (IH ys (p + 1) fuel x B) by (auto; cbn [List.length] in Hf; lia). cbn [map]. rewrite <- app_assoc. f_equal. f_equal. unfold zlen. cbn [List.length]. lia.
Qed.

(* a control point *)
Record row_shape (W : list str) (xs : list R) : Prop := {
  rs_split : exists l w, W = l ++ [w] /\ Forall (fun t => ends_with t bracket_close = false) l /\ ends_with w bracket_close = true;
  rs_words : Forall2 numword W xs;
  rs_head : exists t r, W = t :: r /\ starts_with t bracket_open = true /\ starts_with t (of_string "[KV") = false
}.
Lemma closed_split xs : xs <> [] -> Forall P xs -> exists l w, closed (map fmt xs) = l ++ [w] /\
  Forall (fun t => ends_with t bracket_close = false) l /\ ends_with w bracket_close = true.
Proof.
  intros Hne H. induction H as [|x xs Hx H IH]; [contradiction|]. destruct xs as [|y xs].
  - exists [], (fmt x ++ of_string "]"). cbn [map closed app]. split; auto. split; [constructor|]. now apply (word_ends x []); auto.
  - destruct (IH ltac:(discriminate)) as (l & w & E & A & B). exists (fmt x :: l), w. cbn [map closed] in *. rewrite E. split; auto. split; auto.
    constructor; auto. now apply (word_ends x []); auto.
Qed.
Lemma row_ok xs : xs <> [] -> Forall P xs -> row_shape (opened (map fmt xs)) xs.
Proof.
  intros Hne H. destruct xs as [|x xs]; [contradiction|]. inversion H as [|? ? Hx Hxs]; subst. destruct (fmt_chars x Hx) as (A & _ & B & _).
  assert (BK : Forall (fun c => c <> "K"%char) (fmt x)) by (eapply Forall_impl; [|exact B]; intros c C; apply C).
  unfold opened. destruct xs as [|y xs].
  - cbn [map closed]. split.
    + exists [], (of_string "[" ++ fmt x ++ of_string "]"). split; [reflexivity|]. split; [constructor|]. now apply word_ends; auto.
    + constructor; [|constructor]. exists (of_string "["), (of_string "]"). repeat split; auto.
    + eexists _, []. split; [reflexivity|]. split; [apply (starts_yes "["%char)|]. apply starts_kv_no.
      * intros E. apply app_eq_nil in E. destruct E; contradiction.
      * apply Forall_app. split; auto. repeat constructor; discriminate.
  - destruct (closed_words (y :: xs) Hxs) as [W _]. destruct (closed_split (y :: xs) ltac:(discriminate) Hxs) as (l & w & E & L1 & L2).
    cbn [map closed] in *. split.
    + exists ((of_string "[" ++ fmt x) :: l), w. rewrite E. split; [reflexivity|]. split; auto. constructor; auto. now apply word_ends; auto.
    + constructor; auto. exists (of_string "["), []. rewrite app_nil_r. repeat split; auto.
    + eexists _, _. split; [reflexivity|]. split; [apply (starts_yes "["%char)|]. now apply starts_kv_no.
Qed.

Lemma read_row_ok e (wt : R) : forall l w xs p fuel (acc : list R), stands e p (l ++ [w]) -> Forall2 numword (l ++ [w]) xs -> Forall P xs ->
  Forall (fun t => ends_with t bracket_close = false) l -> ends_with w bracket_close = true -> (List.length l < fuel)%nat ->
  read_row (F := F) fuel e p wt acc = Ok (p + zlen l + 1, acc ++ map (fun x => ndiv (n := F) (rval x) wt) xs).
Proof.
  induction l as [|t l IH]; intros w xs p fuel acc H HW HP HL Hw Hf; (destruct fuel as [|fuel]; [cbn in Hf; lia|]); cbn [read_row app] in *.
  - inversion HW as [|? x ? xs' Hx HW']; subst. inversion HW'; subst. inversion HP; subst. destruct (stands_cons _ _ _ _ H) as [-> _]. cbn [bind].
    rewrite (numword_read w x) by auto. cbn [bind]. rewrite Hw. cbn [map]. f_equal. f_equal. unfold zlen. cbn. lia.
  - inversion HW as [|? x ? xs' Hx HW']; subst. inversion HP; subst. inversion HL as [|? ? L1 L2]; subst. destruct (stands_cons _ _ _ _ H) as [-> H']. cbn [bind].
    rewrite (numword_read t x) by auto. cbn [bind]. rewrite L1. rewrite (IH w xs' (p + 1) fuel) by (auto; cbn [List.length] in Hf; lia).
    cbn [map]. rewrite <- app_assoc. f_equal. f_equal. unfold zlen. cbn [List.length]. lia.
Qed.
Lemma skip_row_ok e : forall l w p fuel, stands e p (l ++ [w]) -> Forall (fun t => ends_with t bracket_close = false) l -> ends_with w bracket_close = true ->
  (List.length l < fuel)%nat -> skip_row fuel e p = Ok (p + zlen l + 1).
Proof.
  induction l as [|t l IH]; intros w p fuel H HL Hw Hf; (destruct fuel as [|fuel]; [cbn in Hf; lia|]); cbn [skip_row app] in *.
  - destruct (stands_cons _ _ _ _ H) as [-> _]. cbn [bind]. rewrite Hw. f_equal. unfold zlen. cbn. lia.
  - inversion HL as [|? ? L1 L2]; subst. destruct (stands_cons _ _ _ _ H) as [-> H']. cbn [bind]. rewrite L1.
    rewrite (IH w (p + 1) fuel) by (auto; cbn [List.length] in Hf; lia). f_equal. unfold zlen. cbn [List.length]. lia.
Qed.
End Values.
