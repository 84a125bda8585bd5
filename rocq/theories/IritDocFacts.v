(* Reading IRIT files of any origin. *)
From Coq Require Import ZArith Ascii String List Bool Lia Reals Lra.
From Verif Require Import Base BaseFacts MultiIndex MultiIndexSpec MultiIndexFacts TensorSum KnotVec KnotVecSpec Spaces SpacesSpec SpacesFacts SplineEval SplineSpec SplineNew EvalFacts
  StrSpec StrOps StrFacts StrThms StrNum StrDelim Convert ConvertSpec ConvertFacts VtkSpec VtkFacts Format FormatSpec FormatFacts IritFacts IritRead Irit IritFile Rebuild XmlReadSpec XmlReadFacts
  IgesReadSpec IgesReadFacts IritDocSpec.
Import ListNotations.
Open Scope Z_scope.

Lemma kind_word d t : kind_of d t -> irit_dimension t = d /\ starts_with t (of_string "[KV") = false /\ 1 <= d <= 3 /\ t <> of_string "BSPLINE".
Proof. intros [[-> ->]|[[-> ->]|[-> ->]]]; (split; [reflexivity|]; split; [reflexivity|]; split; [lia|discriminate]). Qed.
Lemma kind_none t : (forall d, ~ kind_of d t) -> irit_dimension t = 0.
Proof.
  intros H. unfold irit_dimension.
  destruct (str_eqb t (of_string "[CURVE")) eqn:E1; [apply str_eqb_eq in E1; exfalso; apply (H 1); left; auto|].
  destruct (str_eqb t (of_string "[SURFACE")) eqn:E2; [apply str_eqb_eq in E2; exfalso; apply (H 2); right; left; auto|].
  destruct (str_eqb t (of_string "[TRIVAR")) eqn:E3; [apply str_eqb_eq in E3; exfalso; apply (H 3); right; right; auto|]. reflexivity.
Qed.
Lemma total_le l : Forall (fun n => 1 <= n) l -> 1 <= total l /\ Forall (fun n => 1 <= n <= total l) l.
Proof.
  induction 1 as [|a l Ha H [IH1 IH2]]; [split; [cbn; lia|constructor]|]. change (total (a :: l)) with (a * total l). split; [nia|]. constructor; [nia|].
  eapply Forall_impl; [|exact IH2]. cbv beta. intros n Hn. nia.
Qed.
Lemma int_word_start n : starts_with (of_string "E" ++ int_str n) bracket_open = false /\ starts_with (of_string "P" ++ int_str n) bracket_open = false /\
  starts_with (of_string "E" ++ int_str n) (of_string "P") = false /\ starts_with (of_string "P" ++ int_str n) (of_string "P") = true.
Proof.
  split; [|split; [|split]]; [apply (starts_no "["%char) | apply (starts_no "["%char) | apply (starts_no "P"%char) | apply (starts_yes "P"%char)];
    try discriminate; repeat constructor; discriminate.
Qed.

Section Values.
Context {dz : R -> R}.
Notation F := (Rops dz).
Notation P := good_numeral.

Lemma num_chars n : P n -> show_numeral n <> [] /\ Forall harmless (show_numeral n) /\ Forall numchar (show_numeral n) /\ zlen (show_numeral n) < 2 ^ 32.
Proof.
  intros [Ho Hr]. split; [apply numeral_nonempty; apply Hr|]. split; [now apply harmless_numeral|]. split; [now apply numchar_numeral | apply Ho].
Qed.
Definition nword (t : str) (n : numeral) : Prop := exists l r, t = l ++ show_numeral n ++ r /\ (l = [] \/ l = of_string "[") /\ (r = [] \/ r = of_string "]").
Lemma nword_read t n : P n -> nword t n -> string_to_double (F := F) (trim t) = Ok (numeral_value n).
Proof.
  intros Hn (l & r & -> & Hl & Hr). destruct (num_chars n Hn) as (A & B & _). destruct Hn as [Ho Hrd]. rewrite trim_around; auto; [now apply read_readable| |].
  - destruct Hl as [-> | ->]; [constructor|]. constructor; [now right | constructor].
  - destruct Hr as [-> | ->]; [constructor|]. constructor; [now right | constructor].
Qed.
Lemma nword_head t n : P n -> nword t n -> t <> of_string "BSPLINE".
Proof.
  intros Hn (l & r & -> & Hl & _). destruct (num_chars n Hn) as (A & _ & B & _). destruct Hl as [-> | ->]; [|discriminate]. cbn [app]. now apply head_no_b.
Qed.
Lemma nword_ends n l : P n -> (l = [] \/ l = of_string "[") ->
  ends_with (l ++ show_numeral n) bracket_close = false /\ ends_with (l ++ show_numeral n ++ of_string "]") bracket_close = true.
Proof.
  intros Hx Hl. destruct (num_chars n Hx) as (A & _ & B & C).
  assert (G : Forall (fun c => c <> "]"%char) (l ++ show_numeral n) /\ l ++ show_numeral n <> [] /\ zlen (l ++ show_numeral n) < 2 ^ 33).
  { split; [|split].
    - apply Forall_app. split; [destruct Hl as [-> | ->]; repeat constructor; discriminate|]. eapply Forall_impl; [|exact B]. intros c H; apply H.
    - intros E. apply app_eq_nil in E. destruct E; contradiction.
    - unfold zlen in *. rewrite app_length. destruct Hl as [-> | ->]; cbn [List.length of_string list_ascii_of_string]; lia. }
  destruct G as (G1 & G2 & G3). split.
  - apply ends_no; auto. lia.
  - rewrite app_assoc. apply ends_yes; auto. lia.
Qed.
Notation after xs := (bracket_after (map show_numeral xs)).
Lemma after_words xs : Forall P xs -> Forall2 nword (after xs) xs /\ Forall (fun t => starts_with t bracket_open = false) (after xs).
Proof.
  induction 1 as [|x xs Hx H IH]; [split; constructor|]. destruct (num_chars x Hx) as (A & _ & B & _).
  assert (B' : Forall (fun c => c <> "["%char) (show_numeral x)) by (eapply Forall_impl; [|exact B]; intros c C; apply C).
  destruct xs as [|y xs].
  - cbn [map bracket_after]. split; (constructor; [|constructor]).
    + exists [], (of_string "]"). repeat split; auto.
    + apply (starts_no "["%char); auto.
  - destruct IH as [I1 I2]. cbn [map bracket_after] in *. split; constructor; auto.
    + exists [], []. rewrite app_nil_r. repeat split; auto.
    + rewrite <- (app_nil_r (show_numeral x)). apply (starts_no "["%char); auto.
Qed.
Lemma knots_one e : forall L xs p fuel x B (acc : list R), stands e p (L ++ x :: B) -> Forall2 nword L xs -> Forall P xs ->
  Forall (fun t => starts_with t bracket_open = false) L -> starts_with x bracket_open = true -> (List.length L < fuel)%nat ->
  read_knots (F := F) fuel e p acc = Ok (p + zlen L, acc ++ map numeral_value xs).
Proof.
  induction L as [|t L IH]; intros xs p fuel x B acc H HW HP HN HX Hf; (destruct fuel as [|fuel]; [cbn in Hf; lia|]); cbn [read_knots app] in *.
  - inversion HW; subst. destruct (stands_cons _ _ _ _ H) as [-> _]. cbn [bind]. rewrite HX. cbn [map]. rewrite app_nil_r. f_equal. f_equal. unfold zlen. cbn. lia.
  - inversion HW as [|? y ? ys Ht HW']; subst. inversion HP; subst. inversion HN as [|? ? N1 N2]; subst.
    destruct (stands_cons _ _ _ _ H) as [-> H']. cbn [bind]. rewrite N1. rewrite (nword_read t y) by auto. cbn [bind].
    rewrite (IH ys (p + 1) fuel x B) by (auto; cbn [List.length] in Hf; lia). cbn [map]. rewrite <- app_assoc. f_equal. f_equal. unfold zlen. cbn [List.length]. lia.
Qed.
Lemma after_split xs : xs <> [] -> Forall P xs -> exists l w, after xs = l ++ [w] /\
  Forall (fun t => ends_with t bracket_close = false) l /\ ends_with w bracket_close = true.
Proof.
  intros Hne H. induction H as [|x xs Hx H IH]; [contradiction|]. destruct xs as [|y xs].
  - exists [], (show_numeral x ++ of_string "]"). cbn [map bracket_after app]. split; auto. split; [constructor|]. now apply (nword_ends x []); auto.
  - destruct (IH ltac:(discriminate)) as (l & w & E & A & B). exists (show_numeral x :: l), w. cbn [map bracket_after] in *. rewrite E. split; auto. split; auto.
    constructor; auto. now apply (nword_ends x []); auto.
Qed.
Record tuple_shape (W : list str) (xs : list numeral) : Prop := {
  ts_split : exists l w, W = l ++ [w] /\ Forall (fun t => ends_with t bracket_close = false) l /\ ends_with w bracket_close = true;
  ts_words : Forall2 nword W xs;
  ts_head : exists t r, W = t :: r /\ starts_with t bracket_open = true /\ starts_with t (of_string "[KV") = false
}.
Lemma tuple_ok xs : xs <> [] -> Forall P xs -> tuple_shape (brackets (map show_numeral xs)) xs.
Proof.
  intros Hne H. destruct xs as [|x xs]; [contradiction|]. inversion H as [|? ? Hx Hxs]; subst. destruct (num_chars x Hx) as (A & _ & B & _).
  assert (BK : Forall (fun c => c <> "K"%char) (show_numeral x)) by (eapply Forall_impl; [|exact B]; intros c C; apply C).
  unfold brackets. destruct xs as [|y xs].
  - cbn [map bracket_after]. split.
    + exists [], (of_string "[" ++ show_numeral x ++ of_string "]"). split; [reflexivity|]. split; [constructor|]. now apply nword_ends; auto.
    + constructor; [|constructor]. exists (of_string "["), (of_string "]"). repeat split; auto.
    + eexists _, []. split; [reflexivity|]. split; [apply (starts_yes "["%char)|]. apply starts_kv_no.
      * intros E. apply app_eq_nil in E. destruct E; contradiction.
      * apply Forall_app. split; auto. repeat constructor; discriminate.
  - destruct (after_words (y :: xs) Hxs) as [W _]. destruct (after_split (y :: xs) ltac:(discriminate) Hxs) as (l & w & E & L1 & L2).
    cbn [map bracket_after] in *. split.
    + exists ((of_string "[" ++ show_numeral x) :: l), w. rewrite E. split; [reflexivity|]. split; auto. constructor; auto. now apply nword_ends; auto.
    + constructor; auto. exists (of_string "["), []. rewrite app_nil_r. repeat split; auto.
    + eexists _, _. split; [reflexivity|]. split; [apply (starts_yes "["%char)|]. now apply starts_kv_no.
Qed.
Lemma tuple_read e (wt : R) : forall l w xs p fuel (acc : list R), stands e p (l ++ [w]) -> Forall2 nword (l ++ [w]) xs -> Forall P xs ->
  Forall (fun t => ends_with t bracket_close = false) l -> ends_with w bracket_close = true -> (List.length l < fuel)%nat ->
  read_row (F := F) fuel e p wt acc = Ok (p + zlen l + 1, acc ++ map (fun x => ndiv (n := F) (numeral_value x) wt) xs).
Proof.
  induction l as [|t l IH]; intros w xs p fuel acc H HW HP HL Hw Hf; (destruct fuel as [|fuel]; [cbn in Hf; lia|]); cbn [read_row app] in *.
  - inversion HW as [|? x ? xs' Hx HW']; subst. inversion HW'; subst. inversion HP; subst. destruct (stands_cons _ _ _ _ H) as [-> _]. cbn [bind].
    rewrite (nword_read w x) by auto. cbn [bind]. rewrite Hw. cbn [map]. f_equal. f_equal. unfold zlen. cbn. lia.
  - inversion HW as [|? x ? xs' Hx HW']; subst. inversion HP; subst. inversion HL as [|? ? L1 L2]; subst. destruct (stands_cons _ _ _ _ H) as [-> H']. cbn [bind].
    rewrite (nword_read t x) by auto. cbn [bind]. rewrite L1. rewrite (IH w xs' (p + 1) fuel) by (auto; cbn [List.length] in Hf; lia).
    cbn [map]. rewrite <- app_assoc. f_equal. f_equal. unfold zlen. cbn [List.length]. lia.
Qed.

Notation kvwords kvs := (flat_map (fun kv => of_string "[KV" :: after kv) kvs).
Lemma knots_loop e : forall (kvs : list (list numeral)) (l : list Z) A p x B acc, List.length l = List.length kvs ->
  stands e p (A ++ kvwords kvs ++ x :: B) ->
  Forall (fun t => starts_with t (of_string "[KV") = false) A -> starts_with x bracket_open = true -> Forall (Forall P) kvs ->
  exists p', foldM (fun (st : Z * list (list R)) (_ : Z) =>
    p <- skip_to_knots (S (List.length e)) e (fst st) ;;
    r <- read_knots (F := F) (S (List.length e)) e p [] ;;
    Ok (fst r, snd st ++ [snd r])) l (p, acc) = Ok (p', acc ++ map (map numeral_value) kvs).
Proof.
  induction kvs as [|kv kvs IH]; intros l A p x B acc Hl H HA Hx HP; (destruct l as [|i l]; [|]); cbn [List.length] in Hl; try lia.
  - exists p. cbn [foldM map]. now rewrite app_nil_r.
  - inversion HP as [|? ? HP1 HP2]; subst. cbn [foldM map flat_map fst snd] in *.
    assert (H0 : stands e p (A ++ of_string "[KV" :: (after kv ++ kvwords kvs ++ x :: B))).
    { cbn [app] in H. now rewrite <- app_assoc in H. }
    pose proof (stands_fuel _ _ _ H0) as Hf. rewrite app_length in Hf. cbn [List.length] in Hf. rewrite app_length in Hf.
    assert (E1 := skip_ok e A p (S (List.length e)) _ H0 HA ltac:(lia)). rewrite E1. cbn [bind].
    destruct (after_words kv HP1) as [W1 W2].
    destruct (stands_app _ _ _ _ H0) as [_ H1]. destruct (stands_cons _ _ _ _ H1) as [_ H2].
    set (q := p + zlen A + 1) in *.
    assert (X : exists y C, kvwords kvs ++ x :: B = y :: C /\ starts_with y bracket_open = true).
    { destruct kvs as [|kv' kvs]; cbn [flat_map app]; eexists _, _; (split; [reflexivity|]); [exact Hx|vm_compute; reflexivity]. }
    destruct X as (y & C & EX & Hy).
    assert (H3 : stands e q (after kv ++ y :: C)) by (rewrite <- EX; exact H2).
    assert (E2 := knots_one e _ kv q (S (List.length e)) y C [] H3 W1 HP1 W2 Hy ltac:(unfold str in *; lia)).
    rnorm. rewrite E2. cbn [bind fst snd app].
    destruct (stands_app _ _ _ _ H2) as [_ H4].
    destruct (IH l [] (q + zlen (after kv)) x B (acc ++ [map numeral_value kv]) ltac:(lia) H4 ltac:(constructor) Hx HP2) as (p' & E).
    exists p'. etransitivity; [exact E|]. rewrite <- app_assoc. reflexivity.
Qed.

Notation tupwords ts := (flat_map (fun t => brackets (map show_numeral t)) ts).
Lemma weights_read e : forall (ws : list numeral) (rows : list (list numeral)) p (done : list R) M, List.length ws = List.length rows ->
  Forall P ws -> Forall (fun r => r <> [] /\ Forall P r) rows -> stands e p (tupwords (map2 cons ws rows) ++ M) ->
  exists p', foldM (fun (st : Z * list R) i =>
    t <- vget e (fst st) ;; x <- string_to_double (F := F) (trim t) ;;
    ws <- vset (snd st) i x ;;
    p' <- skip_row (S (List.length e)) e (fst st + 1) ;;
    Ok (p', ws)) (zseq (zlen done) (List.length ws)) (p, done ++ repeat 1%R (List.length ws)) = Ok (p', done ++ map numeral_value ws).
Proof.
  induction ws as [|n ws IH]; intros rows p done M HL HW HR Hs; destruct rows as [|r rows]; try discriminate; cbn [List.length zseq foldM map repeat].
  - exists p. reflexivity.
  - inversion HW as [|? ? Hn HW']; subst. inversion HR as [|? ? [Hne Hr] HR']; subst. cbn [map2 flat_map fst snd List.length] in *. rewrite <- app_assoc in Hs.
    pose proof (tuple_ok (n :: r) ltac:(discriminate) ltac:(now constructor)) as [(l & w & EW & L1 & L2) RW _].
    pose proof (len2 _ _ _ RW) as LR. rewrite EW in Hs, RW, LR.
    destruct l as [|t l]; [cbn [app List.length] in LR; destruct r; [congruence|cbn [List.length] in LR; lia]|].
    assert (Hs' := Hs). cbn [app] in Hs'. destruct (stands_cons _ _ _ _ Hs') as [Et Hrest].
    rewrite Et. cbn [bind].
    cbn [app] in RW. inversion RW as [|? ? ? ? Rt _]; subst. inversion L1 as [|? ? _ L1']; subst.
    rewrite (nword_read t _ Hn Rt). cbn [bind].
    assert (EV : vset (done ++ 1%R :: repeat 1%R (List.length ws)) (zlen done) (numeral_value n) = Ok ((done ++ [numeral_value n]) ++ repeat 1%R (List.length ws))).
    { rewrite vset_ok by (unfold zlen; rewrite app_length; cbn [List.length]; lia). f_equal.
      unfold zlen. rewrite Nat2Z.id. rewrite <- app_assoc. cbn [app]. clear. induction done as [|y done IH]; cbn [upd app List.length]; [reflexivity|now rewrite IH]. }
    rnorm. rewrite EV. cbn [bind].
    destruct (stands_app _ _ _ _ Hrest) as [Hrow Hnext].
    pose proof (stands_fuel _ _ _ Hrow) as Hf. rewrite app_length in Hf. cbn [List.length] in Hf.
    rewrite (skip_row_ok e l w (p + 1) (S (List.length e)) Hrow L1' L2 ltac:(lia)). cbn [bind].
    destruct (IH rows (p + 1 + zlen l + 1) (done ++ [numeral_value n]) M ltac:(lia) HW' HR') as (p' & E).
    { replace (p + 1 + zlen l + 1) with (p + 1 + zlen (l ++ [w])) by (unfold zlen; rewrite app_length; cbn [List.length]; lia). exact Hnext. }
    exists p'. replace (zlen done + 1) with (zlen (done ++ [numeral_value n])) by (unfold zlen; rewrite app_length; cbn [List.length]; lia).
    rnorm. rewrite E. rewrite <- app_assoc. reflexivity.
Qed.
Lemma points_read e (ra : bool) (ws : list R) : forall (ts : list (list numeral)) k p (acc : list (list R)) M,
  Forall (fun t => t <> [] /\ Forall P t) ts -> stands e p (tupwords ts ++ M) -> 0 <= k -> List.length ws = (Z.to_nat k + List.length ts)%nat ->
  exists p', foldM (fun (st : Z * list (list R)) i =>
    w <- vget ws i ;;
    r <- read_row (F := F) (S (List.length e)) e (fst st) w [] ;;
    Ok (fst r, snd st ++ [if ra then skipn 1 (snd r) else snd r])) (zseq k (List.length ts)) (p, acc)
    = Ok (p', acc ++ map2 (fun t w => let r := map (fun x => ndiv (n := F) (numeral_value x) w) t in if ra then skipn 1 r else r) ts (skipn (Z.to_nat k) ws)).
Proof.
  induction ts as [|t ts IH]; intros k p acc M HT Hs Hk Hw; cbn [List.length zseq foldM map2] in *.
  - exists p. now rewrite app_nil_r.
  - inversion HT as [|? ? [Hne Ht] HT']; subst. cbn [flat_map] in Hs. rewrite <- app_assoc in Hs.
    pose proof (tuple_ok t Hne Ht) as [(l & w & EW & L1 & L2) RW _].
    assert (EK : exists wk rest, skipn (Z.to_nat k) ws = wk :: rest /\ skipn (Z.to_nat (k + 1)) ws = rest /\ vget ws k = Ok wk).
    { destruct (skipn (Z.to_nat k) ws) as [|wk rest] eqn:E; [apply (f_equal (@List.length R)) in E; rewrite skipn_length in E; cbn in E; lia|].
      exists wk, rest. split; [reflexivity|]. split.
      - replace (Z.to_nat (k + 1)) with (S (Z.to_nat k)) by lia. clear - E. revert ws E. induction (Z.to_nat k) as [|m IH]; intros ws E; destruct ws as [|a ws]; cbn [skipn] in *; try discriminate; [now injection E|]. apply IH. exact E.
      - apply vget_at; [lia|]. rewrite <- (firstn_skipn (Z.to_nat k) ws), E. rewrite nth_error_app2; rewrite firstn_length; [|lia]. replace (_ - _)%nat with 0%nat by lia. reflexivity. }
    destruct EK as (wk & rest & E1 & E2 & E3). rewrite E1. cbn [fst snd]. rnorm. rewrite E3. cbn [bind].
    destruct (stands_app _ _ _ _ Hs) as [Hrow Hnext]. rewrite EW in Hrow, RW.
    pose proof (stands_fuel _ _ _ Hrow) as Hf. rewrite app_length in Hf. cbn [List.length] in Hf.
    assert (ER := tuple_read e wk l w _ p (S (List.length e)) [] Hrow RW Ht L1 L2 ltac:(lia)).
    rnorm. rewrite ER. cbn [bind fst snd app].
    match goal with |- context [foldM _ _ (_, ?a)] => destruct (IH (k + 1) (p + zlen l + 1) a M HT') as (p' & E) end.
    + replace (p + zlen l + 1) with (p + zlen (brackets (map show_numeral t))) by (rewrite EW; unfold zlen; rewrite app_length; cbn [List.length]; lia). exact Hnext.
    + lia.
    + lia.
    + exists p'. rewrite E. rewrite E2, <- app_assoc. reflexivity.
Qed.
Lemma ints_read e q (g : Z -> Z) : forall ns zs k M, Forall P ns -> Forall2 integer ns zs -> Forall (fun n => 0 <= n < 2 ^ 31) zs -> stands e (q + k) (map show_numeral ns ++ M) ->
  mapM (fun i => t <- vget e (q + i) ;; x <- string_to_double (F := F) t ;; z <- to_int (F := F) toward_zero x ;; Ok (g z)) (zseq k (List.length ns)) = Ok (map g zs).
Proof.
  intros ns zs k M HP H. revert k. induction H as [|n z ns zs Hi H IH]; intros k HB Hs; cbn [List.length zseq mapM map]; [reflexivity|].
  inversion HP as [|? ? [Ho Hr] HP']; subst. inversion HB; subst. cbn [map app] in Hs. destruct (stands_cons _ _ _ _ Hs) as [-> Hs']. cbn [bind].
  rewrite (read_readable dz n Ho Hr). cbn [bind]. unfold integer in Hi. rewrite Hi. rnorm. rewrite (to_int_IZR dz) by lia. cbn [bind].
  rewrite IH; auto. replace (q + (k + 1)) with (q + k + 1) by lia. exact Hs'.
Qed.
Lemma product_read e q : forall ns zs k M acc, Forall P ns -> Forall2 integer ns zs -> Forall (fun n => 0 <= n < 2 ^ 31) zs -> stands e (q + k) (map show_numeral ns ++ M) ->
  foldM (fun n i => t <- vget e (q + i) ;; x <- string_to_double (F := F) t ;; z <- to_int (F := F) toward_zero x ;; Ok (n * z)) (zseq k (List.length ns)) acc = Ok (acc * total zs).
Proof.
  intros ns zs k M acc HP H. revert k acc. induction H as [|n z ns zs Hi H IH]; intros k acc HB Hs; cbn [List.length zseq foldM].
  - f_equal. cbn. lia.
  - inversion HP as [|? ? [Ho Hr] HP']; subst. inversion HB; subst. cbn [map app] in Hs. destruct (stands_cons _ _ _ _ Hs) as [-> Hs']. cbn [bind].
    rewrite (read_readable dz n Ho Hr). cbn [bind]. unfold integer in Hi. rewrite Hi. rnorm. rewrite (to_int_IZR dz) by lia. cbn [bind].
    rewrite IH; auto; [|replace (q + (k + 1)) with (q + k + 1) by lia; exact Hs']. f_equal. change (total (z :: zs)) with (z * total zs). lia.
Qed.

Section One.
Variables (x : source) (p : Z) (e : list str) (kind : str) (sizes orders : list numeral).
Hypothesis D : describes x 0.
Hypothesis PO : exists dim rows ws degs knots, x = points_of dim rows ws degs knots.
Hypothesis NZ : divisible x.
Hypothesis KD : kind_of (zlen (so_degs x)) kind.
Hypothesis GS : Forall good_numeral sizes.
Hypothesis GO : Forall good_numeral orders.
Hypothesis IS : Forall2 integer sizes (sizes_of x).
Hypothesis IO : Forall2 integer orders (map (fun q => q + 1) (so_degs x)).
Definition front : list str := map show_numeral sizes ++ map show_numeral orders ++ [point_type x].
Definition object : list str := kind :: of_string "BSPLINE" :: front ++ kvwords (so_knots x) ++ tupwords (tuples x).
Hypothesis S0 : stands e p object.
Notation d := (zlen (so_degs x)).
Definition ra : bool := match so_weights x with None => false | Some _ => true end.
Definition wv : list R := match so_weights x with None => repeat 1%R (List.length (so_rows x)) | Some ws => map numeral_value ws end.

Lemma dim_row : Forall (fun r => zlen r = so_dim x) (so_rows x).
Proof.
  destruct PO as (dim & rows & ws & degs & knots & E). pose proof (de_rows _ _ D) as H. pose proof (de_dim _ _ D) as H1. revert H H1. rewrite E. cbn [points_of so_rows so_names so_dim]. unfold zlen. rewrite repeat_length.
  intros H H1. eapply Forall_impl; [|exact H]. cbv beta. lia.
Qed.
Lemma dim_pos : 1 <= d <= 3.
Proof. apply (kind_word _ _ KD). Qed.
Lemma size_ranges : Forall (fun n => 0 <= n < 2 ^ 31) (sizes_of x) /\ Forall (fun n => 0 <= n < 2 ^ 31) (map (fun q => q + 1) (so_degs x)) /\ total (sizes_of x) = zlen (so_rows x) /\ 1 <= total (sizes_of x).
Proof.
  destruct (de_small _ _ D) as (_ & S2 & _). pose proof (de_count _ _ D) as C. pose proof (de_dirs _ _ D) as G. fold (sizes_of x) in C.
  assert (H1 : Forall (fun n => 1 <= n) (sizes_of x) /\ Forall2 (fun n q => 0 <= q /\ q + 1 <= n) (sizes_of x) (so_degs x)).
  { clear - G. unfold sizes_of. induction G as [|kv q l1 l2 (A & (B & _) & _) G [I1 I2]]; cbn [map2]; [split; constructor|]. unfold zlen. rewrite map_length in B. split; constructor; auto; lia. }
  destruct H1 as [H1 H2]. destruct (total_le _ H1) as [T1 T2]. split; [|split; [|split; auto]].
  - eapply Forall_impl; [|exact T2]. cbv beta. lia.
  - rewrite Forall_map. rewrite <- C in T2. clear - T2 H2 S2. revert T2. generalize (zlen (so_rows x)) S2. clear S2. intros N HN T2. induction H2 as [|n q l1 l2 [A B] H2 IH]; constructor; inversion T2; subst; auto. lia.
Qed.
Lemma lens : List.length (so_knots x) = Z.to_nat d /\ List.length sizes = Z.to_nat d /\ List.length orders = Z.to_nat d.
Proof.
  pose proof (len2 _ _ _ (de_dirs _ _ D)) as L. pose proof (len2 _ _ _ IS) as L1. pose proof (len2 _ _ _ IO) as L2. rewrite map_length in L2.
  unfold sizes_of in L1. rewrite map2_length in L1 by exact L. unfold zlen. rewrite Nat2Z.id. lia.
Qed.
Lemma at_front : stands e (p + 2) (front ++ kvwords (so_knots x) ++ tupwords (tuples x)).
Proof. replace (p + 2) with (p + 1 + 1) by lia. apply (stands_cons e _ (of_string "BSPLINE")). apply (stands_cons e _ kind). exact S0. Qed.
Lemma get_kind : vget e p = Ok kind.
Proof. exact (proj1 (stands_cons _ _ _ _ S0)). Qed.

Lemma number_is : irit_number (F := F) toward_zero p e = Ok (total (sizes_of x)).
Proof.
  destruct lens as (_ & L & _). destruct size_ranges as (R1 & _). unfold irit_number. rewrite get_kind. cbn [bind]. rewrite (proj1 (kind_word _ _ KD)).
  rewrite for_up_foldM, Z.sub_0_r, <- L. pose proof at_front as A. unfold front in A. rewrite <- app_assoc in A. rewrite <- (Z.add_0_r (p + 2)) in A.
  pose proof (product_read e (p + 2) sizes (sizes_of x) 0 _ 1 GS IS R1 A) as E. rewrite Z.mul_1_l in E. exact E.
Qed.
Lemma degrees_are : irit_get_degrees (F := F) toward_zero d p e = Ok (so_degs x).
Proof.
  destruct lens as (_ & L1 & L). destruct size_ranges as (_ & R2 & _). pose proof dim_pos as Hd. unfold irit_get_degrees. rewrite <- L.
  pose proof at_front as A. unfold front in A. rewrite <- !app_assoc in A. destruct (stands_app _ _ _ _ A) as [_ B].
  match type of B with stands _ ?q _ => replace q with (p + d + 2 + 0) in B by (unfold zlen at 2; rewrite map_length, L1; lia) end.
  etransitivity; [exact (ints_read e (p + d + 2) (fun z => z - 1) orders _ 0 _ GO IO R2 B)|]. f_equal. rewrite map_map. rewrite <- (map_id (so_degs x)) at 2. apply map_ext. intros; lia.
Qed.
Lemma rational_is : irit_is_rational d p e = Ok ra.
Proof.
  destruct lens as (_ & L1 & L). pose proof dim_pos as Hd. unfold irit_is_rational.
  pose proof at_front as A. unfold front in A. rewrite <- !app_assoc in A. destruct (stands_app _ _ _ _ A) as [_ B]. destruct (stands_app _ _ _ _ B) as [_ C]. destruct (stands_cons _ _ _ _ C) as [E _].
  match type of E with vget _ ?q = _ => replace (p + 2 * d + 2) with q by (unfold zlen at 1 2; rewrite !map_length, L, L1; lia) end.
  rewrite E. cbn [bind]. f_equal. unfold point_type, ra. destruct (so_weights x); apply int_word_start.
Qed.
Lemma number_plain n : P n -> starts_with (show_numeral n) bracket_open = false.
Proof.
  intros H. destruct (num_chars n H) as (A & _ & B & _). rewrite <- (app_nil_r (show_numeral n)). apply (starts_no "["%char); auto. eapply Forall_impl; [|exact B]. intros c C; apply C.
Qed.
Lemma front_plain : Forall (fun t => starts_with t bracket_open = false) front.
Proof.
  unfold front. repeat (apply Forall_app; split).
  - rewrite Forall_map. eapply Forall_impl; [|exact GS]. apply number_plain.
  - rewrite Forall_map. eapply Forall_impl; [|exact GO]. apply number_plain.
  - constructor; [|constructor]. unfold point_type. destruct (so_weights x); apply int_word_start.
Qed.
Lemma tuples_good : Forall (fun t => t <> [] /\ Forall P t) (tuples x) /\ List.length (tuples x) = List.length (so_rows x).
Proof.
  pose proof (de_values _ _ D) as V. pose proof dim_row as DR. pose proof (de_dim _ _ D) as H1. unfold tuples. destruct (so_weights x) as [ws|] eqn:Ew.
  - destruct (de_weights _ _ D ws Ew) as [L G]. clear - V G L. revert ws L G. induction V as [|r rows Hr V IH]; intros [|w ws] L G; cbn [map2]; try (unfold zlen in L; discriminate L).
    + split; [constructor | reflexivity].
    + inversion G; subst. destruct (IH ws ltac:(unfold zlen in *; cbn [List.length] in *; lia)) as [A B]; auto. split; [|cbn [List.length]; now rewrite B]. constructor; auto. split; [discriminate|now constructor].
  - split; auto. clear - V DR H1. induction V as [|r rows Hr V IH]; constructor; inversion DR; subst; auto. split; auto. intros ->. unfold zlen in *. cbn in *. lia.
Qed.
Lemma rows_some : exists r0 rest, so_rows x = r0 :: rest.
Proof. destruct size_ranges as (_ & _ & E & T). destruct (so_rows x) as [|r0 rest]; [unfold zlen in E; cbn in E; lia|]. eauto. Qed.
Lemma first_tuple : exists w B, tupwords (tuples x) = w :: B /\ starts_with w bracket_open = true /\ starts_with w (of_string "[KV") = false.
Proof.
  destruct tuples_good as [G L]. destruct rows_some as (r0 & rest & E). destruct (tuples x) as [|t ts]; [rewrite E in L; discriminate|].
  inversion G as [|? ? [Hne Ht] _]; subst. destruct (tuple_ok t Hne Ht) as [_ _ (w & r & EW & A & B)]. cbn [flat_map]. rewrite EW. cbn [app]. eauto.
Qed.
Lemma knots_are : irit_get_knots (F := F) d p e = Ok (map (map numeral_value) (so_knots x)).
Proof.
  destruct lens as (L & _ & _). unfold irit_get_knots. rewrite for_up_foldM, Z.sub_0_r.
  destruct first_tuple as (w & B & EB & X1 & _).
  destruct (knots_loop e (so_knots x) (zseq 0 (Z.to_nat d)) (kind :: of_string "BSPLINE" :: front) p w B []) as (p' & E).
  - now rewrite zseq_length.
  - pose proof S0 as A. unfold object in A. rewrite EB in A. cbn [app]. exact A.
  - constructor; [apply (kind_word _ _ KD)|]. constructor; [vm_compute; reflexivity|]. eapply Forall_impl; [|exact front_plain]. intros t. apply starts_longer.
  - exact X1.
  - apply D.
  - exact (f_equal (fun m : Res (Z * list (list R)) => bind m (fun st => Ok (snd st))) E).
Qed.
Lemma first_at : exists q, irit_first_point p e = Ok q /\ stands e q (tupwords (tuples x)).
Proof.
  destruct first_tuple as (w & B & EB & X1 & X2). destruct (stands_cons _ _ _ _ S0) as [_ A].
  assert (A' : stands e (p + 1) ((of_string "BSPLINE" :: front ++ kvwords (so_knots x)) ++ w :: B)).
  { rewrite EB in A. cbn [app]. rewrite <- app_assoc. exact A. }
  exists (p + 1 + zlen (of_string "BSPLINE" :: front ++ kvwords (so_knots x))). split.
  - unfold irit_first_point. pose proof (stands_fuel _ _ _ A') as Hf. rewrite app_length in Hf. cbn [List.length] in Hf.
    apply (first_point_ok e _ (p + 1) _ w B); auto; [|cbn [List.length]; lia].
    constructor; [left; vm_compute; reflexivity|]. apply Forall_app. split.
    + eapply Forall_impl; [|exact front_plain]. auto.
    + rewrite flat_map_concat_map. apply Forall_concat. rewrite Forall_map. eapply Forall_impl; [|exact (de_knots _ _ D)].
      intros kv Hk. constructor; [right; vm_compute; reflexivity|]. destruct (after_words kv Hk) as [_ W]. eapply Forall_impl; [|exact W]. auto.
  - rewrite EB. exact (proj2 (stands_app _ _ _ _ A')).
Qed.
Lemma rows_full : Forall (fun r => r <> [] /\ Forall P r) (so_rows x).
Proof.
  pose proof (de_values _ _ D) as V. pose proof dim_row as DR. pose proof (de_dim _ _ D) as H1. clear - V DR H1.
  induction V as [|r rows Hr V IH]; constructor; inversion DR; subst; auto. split; auto. intros ->. unfold zlen in *. cbn in *. lia.
Qed.
Lemma total_rows : Z.to_nat (total (sizes_of x)) = List.length (so_rows x).
Proof. destruct size_ranges as (_ & _ & -> & _). unfold zlen. lia. Qed.
Lemma weights_are : irit_get_weights (F := F) toward_zero p e ra = Ok wv.
Proof.
  destruct size_ranges as (_ & _ & ET & T). pose proof total_rows as TR.
  unfold irit_get_weights. rewrite number_is. cbn [bind]. unfold vmake. replace (total (sizes_of x) <? 0) with false by (symmetry; apply Z.ltb_ge; lia). cbn [bind].
  unfold ra, wv. destruct (so_weights x) as [ws|] eqn:Ew; [|rewrite TR; reflexivity].
  destruct first_at as (q & -> & Hq). cbn [bind]. rewrite for_up_foldM, Z.sub_0_r. destruct (de_weights _ _ D ws Ew) as [L G]. unfold zlen in L.
  unfold tuples in Hq. rewrite Ew in Hq. destruct (weights_read e ws (so_rows x) q [] [] ltac:(lia) G rows_full) as (p' & E).
  { now rewrite app_nil_r. }
  replace (Z.to_nat (total (sizes_of x))) with (List.length ws) by lia. exact (f_equal (fun m : Res (Z * list R) => bind m (fun st => Ok (snd st))) E).
Qed.
Lemma wv_length : List.length wv = List.length (so_rows x).
Proof. unfold wv. destruct (so_weights x) as [ws|] eqn:Ew; [|apply repeat_length]. rewrite map_length. destruct (de_weights _ _ D ws Ew) as [L _]. unfold zlen in L. lia. Qed.
Definition pts : list (list R) := map2 (fun r w => map (fun n => (numeral_value n / w)%R) r) (so_rows x) wv.
Lemma wv_nonzero : Forall (fun w => w <> 0%R) wv.
Proof.
  unfold wv. destruct (so_weights x) as [ws|] eqn:Ew; [rewrite Forall_map; now apply NZ|]. apply Forall_forall. intros w Hw. apply repeat_spec in Hw. subst w. lra.
Qed.
Lemma divides (r : list numeral) (w : R) : w <> 0%R -> map (fun n => ndiv (n := F) (numeral_value n) w) r = map (fun n => (numeral_value n / w)%R) r.
Proof. intros Hw. apply map_ext. intros n. now apply (ndiv_R dz). Qed.
Lemma points_are : irit_get_points (F := F) toward_zero p e ra wv = Ok pts.
Proof.
  pose proof total_rows as TR. pose proof wv_length as WL. unfold irit_get_points. rewrite number_is. cbn [bind]. destruct first_at as (q & -> & Hq). cbn [bind]. rewrite for_up_foldM, Z.sub_0_r.
  destruct tuples_good as [G L]. rewrite TR, <- L.
  destruct (points_read e ra wv (tuples x) 0 q [] []) as (p' & E).
  - exact G.
  - now rewrite app_nil_r.
  - lia.
  - rewrite WL, <- L. reflexivity.
  - match type of E with _ = Ok (_, ?r) => assert (ER : r = pts) end.
    { change (skipn (Z.to_nat 0) wv) with wv. cbn [app]. pose proof wv_nonzero as NW. revert WL NW. unfold pts, tuples, ra. clear - D. destruct (so_weights x) as [ws|] eqn:Ew.
      - destruct (de_weights _ _ D ws Ew) as [Lw _]. unfold zlen in Lw. apply Nat2Z.inj in Lw. revert Lw. generalize wv (so_rows x). clear. intros wv rows. revert ws wv.
        induction rows as [|r rows IH]; intros [|n ws] [|w wv] Lw WL NW; cbn [map2 List.length] in *; try discriminate; auto. inversion NW; subst. cbn [map skipn]. rewrite divides by auto. f_equal. apply IH; auto.
      - generalize wv (so_rows x). clear. intros wv rows. revert wv. induction rows as [|r rows IH]; intros [|w wv] WL NW; cbn [map2 List.length] in *; try discriminate; auto. inversion NW; subst. cbn [map]. rewrite divides by auto. f_equal. apply IH; auto. }
    rewrite ER in E. exact (f_equal (fun m : Res (Z * list (list R)) => bind m (fun st => Ok (snd st))) E).
Qed.
Definition homog : spline F :=
  mkSpline (F := F) (mkps dz (map (map numeral_value) (so_knots x)) (so_degs x))
    (mkPhys (F := F) (so_dim x) (map2 (fun kv q => zlen kv - q - 1) (map (map numeral_value) (so_knots x)) (so_degs x)) (concat pts) (option_map (map numeral_value) (so_weights x))).
Lemma pts_length : List.length pts = List.length (so_rows x).
Proof. unfold pts. apply map2_length. symmetry. apply wv_length. Qed.
Lemma pts_rows : Forall (fun r => zlen r = so_dim x) pts.
Proof.
  unfold pts. generalize wv dim_row. clear. intros l H. revert l. induction H as [|r rows Hr H IH]; intros [|w l]; cbn [map2]; constructor; auto. unfold zlen in *. now rewrite map_length.
Qed.
Lemma homog_ok : spline_new (F := F) (map (map numeral_value) (so_knots x)) (so_degs x) pts (option_map (map numeral_value) (so_weights x)) = Ok homog /\ well_formed homog.
Proof.
  destruct (de_small _ _ D) as (S1 & S2 & S3). pose proof pts_length as PL. apply (spline_new_ok dz).
  - pose proof (de_dirs _ _ D) as G. clear - G. induction G; cbn [map]; constructor; auto.
  - apply D.
  - exact pts_rows.
  - rewrite count_same. unfold zlen at 1. rewrite PL. apply D.
  - unfold zlen in *. rewrite PL. lia.
  - intros w Ew. destruct (so_weights x) as [ns|] eqn:En; [|discriminate]. cbn [option_map] in Ew. injection Ew as <-.
    destruct (de_weights _ _ D ns En) as [L _]. unfold zlen in *. now rewrite map_length, PL.
Qed.
Lemma homog_described : described_homogeneous x homog.
Proof.
  destruct homog_ok as [_ Hwf]. split; auto; try reflexivity.
  intros idx c Hi Hc n0. apply all_indices_box in Hi. pose proof (get1d_range _ _ Hi) as Hr. rewrite <- position_get1d in Hr.
  assert (Et : total (npts_of homog) = zlen (so_rows x)) by (unfold homog, npts_of; cbn [sp_ph ph_npts]; rewrite count_same; symmetry; apply D).
  pose proof pts_length as PL. pose proof wv_length as WL.
  unfold coordinate. change (ph_cps (sp_ph homog)) with (concat pts). change (ph_dim (sp_ph homog)) with (so_dim x).
  rewrite (concat_nth pts (so_dim x)); auto; [|exact pts_rows | unfold zlen in *; rewrite PL; lia].
  set (k := position (npts_of homog) idx) in *. unfold zlen in Et.
  assert (EW : weight homog idx = nth (Z.to_nat k) wv 0%R).
  { unfold weight. change (ph_wts (sp_ph homog)) with (option_map (map numeral_value) (so_weights x)). unfold wv. fold k. destruct (so_weights x) as [ws|]; cbn [option_map]; [reflexivity|].
    rewrite nth_indep with (d' := 1%R) by (rewrite repeat_length; lia). symmetry. apply nth_repeat. }
  rewrite EW. clear EW.
  assert (Lr : zlen (nth (Z.to_nat k) (so_rows x) []) = so_dim x) by (pose proof dim_row as G; rewrite Forall_forall in G; apply G; apply nth_In; lia).
  assert (G : forall (rows : list (list numeral)) (ws : list R) n, List.length ws = List.length rows -> (n < List.length rows)%nat ->
    nth n (map2 (fun r w => map (fun n => (numeral_value n / w)%R) r) rows ws) [] = map (fun m => (numeral_value m / nth n ws 0%R)%R) (nth n rows [])).
  { clear. induction rows as [|r rows IH]; intros [|w ws] n HL Hn; cbn [List.length map2] in *; try lia. destruct n; cbn [nth]; auto. apply IH; lia. }
  unfold pts. rewrite G by lia. rewrite (nth_map_in _ _ _ n0) by (unfold zlen in Lr; lia). reflexivity.
Qed.
Definition homog_object : any (spline F) := match so_weights x with None => AnyB d homog | Some _ => AnyN d homog end.
Lemma homog_holds : holds d homog_object homog.
Proof.
  split; [reflexivity|]. unfold homog_object, is_bspline, homog. cbn [sp_ph ph_wts]. destruct (so_weights x) as [ns|]; cbn [option_map]; [right | left]; split; eauto.
Qed.
Lemma object_read : irit_get_spline (F := F) toward_zero d p e = Ok homog_object.
Proof.
  unfold irit_get_spline. rewrite knots_are. cbn [bind]. rewrite degrees_are. cbn [bind]. rewrite rational_is. cbn [bind].
  match goal with |- bind _ ?k = _ => transitivity (bind (Ok wv) k); [exact (f_equal (fun m : Res (list R) => bind m k) weights_are)|] end. cbn [bind].
  match goal with |- bind _ ?k = _ => transitivity (bind (Ok pts) k); [exact (f_equal (fun m : Res (list (list R)) => bind m k) points_are)|] end. cbn [bind].
  destruct homog_ok as [E _]. unfold homog_object, ra, wv in *. destruct (so_weights x) as [ws|]; exact (f_equal (fun m : Res (spline F) => bind m _) E).
Qed.
Lemma object_bspline k : bpos k object = [k].
Proof.
  unfold object. cbn [bpos]. destruct (str_eqb kind (of_string "BSPLINE")) eqn:E; [apply str_eqb_eq in E; exfalso; now apply (kind_word _ _ KD)|].
  change (str_eqb (of_string "BSPLINE") (of_string "BSPLINE")) with true. cbn iota. rewrite bpos_none; [f_equal; lia|].
  assert (N : forall ns, Forall P ns -> Forall (fun t => t <> of_string "BSPLINE") (map show_numeral ns)).
  { intros ns H. rewrite Forall_map. eapply Forall_impl; [|exact H]. cbv beta. intros n Hn. apply (nword_head _ n Hn). exists [], []. rewrite app_nil_r. auto. }
  assert (N2 : forall W ns, Forall P ns -> Forall2 nword W ns -> Forall (fun t => t <> of_string "BSPLINE") W).
  { intros W ns H H2. induction H2; constructor; inversion H; subst; auto. eapply nword_head; eauto. }
  unfold front. repeat (apply Forall_app; split); auto.
  - constructor; [|constructor]. unfold point_type. destruct (so_weights x); discriminate.
  - rewrite flat_map_concat_map. apply Forall_concat. rewrite Forall_map. eapply Forall_impl; [|exact (de_knots _ _ D)].
    intros kv Hk. constructor; [discriminate|]. destruct (after_words kv Hk) as [W _]. eapply N2; eauto.
  - rewrite flat_map_concat_map. apply Forall_concat. rewrite Forall_map. eapply Forall_impl; [|exact (proj1 tuples_good)].
    intros t [Hne Ht]. eapply N2; [exact Ht|]. apply (ts_words _ _ (tuple_ok t Hne Ht)).
Qed.
End One.

Lemma parts_read e : forall parts xs pre post acc, e = pre ++ concat parts ++ post -> Forall2 says_words parts xs ->
  exists os, foldM (fun acc p => t <- vget e p ;; let d := irit_dimension t in
      if (d =? 1) || (d =? 2) || (d =? 3) then s <- irit_get_spline (F := F) toward_zero d p e ;; Ok (acc ++ [s]) else Ok acc)
    (bpos (zlen pre) (concat parts)) acc = Ok (acc ++ os) /\
  Forall2 (fun x o => exists s, holds (zlen (so_degs x)) o s /\ described_homogeneous x s) (sources xs) os.
Proof.
  intros parts xs pre post acc He H. revert pre acc He. induction H as [|W o parts xs Hw H IH]; intros pre acc He; cbn [concat].
  - exists []. cbn [bpos foldM sources flat_map]. rewrite app_nil_r. split; [reflexivity|constructor].
  - rewrite bpos_app, foldM_app.
    assert (IH' : forall acc, exists os, foldM (fun acc p => t <- vget e p ;; let d := irit_dimension t in
      if (d =? 1) || (d =? 2) || (d =? 3) then s <- irit_get_spline (F := F) toward_zero d p e ;; Ok (acc ++ [s]) else Ok acc)
      (bpos (zlen pre + zlen W) (concat parts)) acc = Ok (acc ++ os) /\
      Forall2 (fun x o => exists s, holds (zlen (so_degs x)) o s /\ described_homogeneous x s) (sources xs) os).
    { intros acc'. destruct (IH (pre ++ W) acc') as (os & E & G); [rewrite He; cbn [concat]; now rewrite <- !app_assoc|].
      exists os. split; auto. replace (zlen pre + zlen W) with (zlen (pre ++ W)) by (unfold zlen; rewrite app_length; lia). exact E. }
    clear IH. destruct o as [x|]; cbn [says_words sources flat_map] in *.
    + destruct Hw as (D & PO & NZ & kind & sizes & orders & -> & KD & GS & GO & IS & IO).
      match goal with |- context [bpos _ ?W] => assert (EO : W = object x kind sizes orders) by (unfold object, front; cbn [app]; now rewrite <- !app_assoc); rewrite EO in * end. clear EO.
      assert (S0 : stands e (zlen pre) (object x kind sizes orders)) by (exists pre, (concat parts ++ post); split; [rewrite He; cbn [concat]; now rewrite <- app_assoc|reflexivity]).
      rewrite object_bspline by auto. cbn [foldM]. assert (EK := get_kind x _ e kind sizes orders S0).
      match goal with |- context [vget e ?q] => replace (vget e q) with (Ok kind) by (symmetry; exact EK) end. cbn [bind]. cbv zeta. destruct (kind_word _ _ KD) as (-> & _ & Hd & _).
      replace ((zlen (so_degs x) =? 1) || (zlen (so_degs x) =? 2) || (zlen (so_degs x) =? 3))%bool with true
        by (assert (zlen (so_degs x) = 1 \/ zlen (so_degs x) = 2 \/ zlen (so_degs x) = 3) as [-> | [-> | ->]] by lia; reflexivity).
      assert (ER := object_read x _ e kind sizes orders D PO NZ KD GS GO IS IO S0).
      match goal with |- context [irit_get_spline toward_zero ?a ?q e] => replace (irit_get_spline (F := F) toward_zero a q e) with (Ok (homog_object x)) by (symmetry; exact ER) end. cbn [bind].
      destruct (IH' (acc ++ [homog_object x])) as (os & E & G). exists (homog_object x :: os). split; [etransitivity; [exact E|]; now rewrite <- app_assoc|].
      constructor; auto. exists (homog x). split; [apply homog_holds | now apply homog_described].
    + destruct Hw as [Hn|(t & -> & Hk & Ht)].
      * rewrite bpos_none by (apply Forall_forall; intros w I E; subst w; contradiction). cbn [foldM]. apply IH'.
      * cbn [bpos]. destruct (str_eqb t (of_string "BSPLINE")) eqn:Et; [apply str_eqb_eq in Et; contradiction|]. change (str_eqb (of_string "BSPLINE") (of_string "BSPLINE")) with true. cbn iota. cbn [foldM].
        assert (S0 : stands e (zlen pre) [t; of_string "BSPLINE"]) by (exists pre, (concat parts ++ post); split; [rewrite He; cbn [concat]; now rewrite <- app_assoc|reflexivity]).
        replace (zlen pre + 1 - 1) with (zlen pre) by lia. match goal with |- context [vget e ?q] => replace (vget e q) with (Ok t) by (symmetry; exact (proj1 (stands_cons _ _ _ _ S0))) end. cbn [bind]. cbv zeta. rewrite (kind_none t Hk). cbn [orb Z.eqb]. apply IH'.
Qed.
Lemma words_read text words : words_of_file text words -> split (concat (getlines (List.length text) newline text)) Irit.blank = words.
Proof. intros (ls & T & W). rewrite (text_lines _ _ T). exact (split_words _ _ W). Qed.
Lemma irit_document_read text parts xs : words_of_file text (concat parts) -> Forall2 says_words parts xs ->
  exists os, read_irit (F := F) toward_zero text = Ok os /\
    Forall2 (fun x o => exists s, holds (zlen (so_degs x)) o s /\ described_homogeneous x s) (sources xs) os.
Proof.
  intros HT H. destruct (parts_read (concat parts) parts xs [] [] [] ltac:(cbn [app]; now rewrite app_nil_r) H) as (os & E & G). exists os. split; auto.
  unfold read_irit. rewrite (words_read _ _ HT), positions_bpos. cbn [bind]. exact E.
Qed.

(* ---- a spline without knot vectors ---- *)
Lemma skip_out e : forall n p, Forall (fun t => starts_with t (of_string "[KV") = false) (skipn (Z.to_nat p) e) -> 0 <= p -> skip_to_knots n e p = UB.
Proof.
  induction n as [|n IH]; intros p H Hp; cbn [skip_to_knots]; [reflexivity|].
  destruct (Z_lt_le_dec p (zlen e)) as [L|L]; [|now rewrite vget_out by lia].
  rewrite (vget_nth e p []) by lia. cbn [bind]. unfold zlen in L.
  assert (E : skipn (Z.to_nat p) e = nth (Z.to_nat p) e [] :: skipn (Z.to_nat (p + 1)) e).
  { replace (Z.to_nat (p + 1)) with (S (Z.to_nat p)) by lia. assert (Hn : (Z.to_nat p < List.length e)%nat) by lia. revert Hn. generalize (Z.to_nat p). clear. induction e as [|a e IH]; intros m Hm; cbn [List.length] in Hm; [lia|].
    destruct m; [reflexivity|]. cbn [skipn nth]. apply IH. lia. }
  rewrite E in H. inversion H as [|? ? H1 H2]; subst. rewrite H1. apply IH; auto. lia.
Qed.
Lemma irit_no_knots text parts xs kind d rest : words_of_file text (concat parts ++ kind :: of_string "BSPLINE" :: rest) -> Forall2 says_words parts xs -> kind_of d kind ->
  Forall (fun t => forall r, t <> of_string "[KV" ++ r) rest -> read_irit (F := F) toward_zero text = UB.
Proof.
  intros HT H KD HR. destruct (kind_word _ _ KD) as (K1 & K2 & K3 & K4).
  destruct (parts_read (concat parts ++ kind :: of_string "BSPLINE" :: rest) parts xs [] (kind :: of_string "BSPLINE" :: rest) [] eq_refl H) as (os & E & _).
  unfold read_irit. rewrite (words_read _ _ HT), positions_bpos. cbn [bind]. rewrite bpos_app, foldM_app. change (zlen (@nil str)) with 0 in E.
  match goal with |- bind _ ?k = _ => transitivity (bind (Ok ([] ++ os)) k); [exact (f_equal (fun m : Res (list (any (spline F))) => bind m k) E)|] end. cbn [bind app].
  cbn [bpos]. destruct (str_eqb kind (of_string "BSPLINE")) eqn:Et; [apply str_eqb_eq in Et; contradiction|]. change (str_eqb (of_string "BSPLINE") (of_string "BSPLINE")) with true. cbn iota. cbn [foldM].
  assert (S0 : stands (concat parts ++ kind :: of_string "BSPLINE" :: rest) (zlen (concat parts)) (kind :: of_string "BSPLINE" :: rest)) by (exists (concat parts), []; split; [now rewrite app_nil_r|reflexivity]).
  replace (0 + zlen (concat parts) + 1 - 1) with (zlen (concat parts)) by lia. rewrite (proj1 (stands_cons _ _ _ _ S0)). cbn [bind]. cbv zeta. rewrite K1.
  replace ((d =? 1) || (d =? 2) || (d =? 3))%bool with true by (assert (d = 1 \/ d = 2 \/ d = 3) as [-> | [-> | ->]] by lia; reflexivity).
  unfold irit_get_spline, irit_get_knots. rewrite for_up_foldM, Z.sub_0_r. replace (Z.to_nat d) with (S (Z.to_nat (d - 1))) by lia. cbn [zseq foldM fst snd].
  rewrite skip_out; [reflexivity| |unfold zlen; lia].
  unfold zlen. rewrite Nat2Z.id, skipn_app, skipn_all, Nat.sub_diag. cbn [app skipn]. constructor; auto. constructor; [vm_compute; reflexivity|].
  eapply Forall_impl; [|exact HR]. cbv beta. intros t Ht. apply not_true_is_false. intros X. apply starts_with_spec in X. destruct X as (q & X). exact (Ht q X).
Qed.
End Values.
