(* Reading numerals. *)
From Coq Require Import ZArith Bool Ascii List Reals Lra Lia.
From Verif Require Import Base BaseFacts StrSpec StrOps StrFacts.
Import ListNotations.
Open Scope Z_scope.

Definition dchar (d : Z) : ascii := ascii_of_nat (48 + Z.to_nat d).
Lemma digit_cases d (P : Z -> Prop) : P 0 -> P 1 -> P 2 -> P 3 -> P 4 -> P 5 -> P 6 -> P 7 -> P 8 -> P 9 -> 0 <= d <= 9 -> P d.
Proof.
  intros. assert (d = 0 \/ d = 1 \/ d = 2 \/ d = 3 \/ d = 4 \/ d = 5 \/ d = 6 \/ d = 7 \/ d = 8 \/ d = 9) as C by lia.
  repeat (destruct C as [->|C]; auto). now subst.
Qed.
Lemma digit_dchar d : 0 <= d <= 9 -> digit (dchar d) = Some d.
Proof. apply (digit_cases d (fun d => digit (dchar d) = Some d)); reflexivity. Qed.
Lemma dchar_plain d : 0 <= d <= 9 -> isspace (dchar d) = false /\ Ascii.eqb (dchar d) "-" = false /\ Ascii.eqb (dchar d) "+" = false /\
  Ascii.eqb (dchar d) "." = false /\ Ascii.eqb (dchar d) "E" = false /\ Ascii.eqb (dchar d) "e" = false.
Proof.
  apply (digit_cases d (fun d => isspace (dchar d) = false /\ Ascii.eqb (dchar d) "-" = false /\ Ascii.eqb (dchar d) "+" = false /\
  Ascii.eqb (dchar d) "." = false /\ Ascii.eqb (dchar d) "E" = false /\ Ascii.eqb (dchar d) "e" = false)); repeat split.
Qed.
Lemma dchar_not_sign d : 0 <= d <= 9 -> dchar d <> "-"%char /\ dchar d <> "+"%char.
Proof. intros H. destruct (dchar_plain d H) as (_ & H1 & H2 & _). split; intros E; rewrite E in *; discriminate. Qed.

Lemma digits_from_show ds acc : digits_ok ds -> digits_from acc (show ds) = fold_left (fun v d => 10 * v + d) ds acc.
Proof.
  intros H. revert acc; induction H as [|d ds Hd H IH]; intros acc; cbn [show map digits_from fold_left]; auto.
  fold (dchar d). rewrite digit_dchar by auto. apply IH.
Qed.

Lemma stoi_head d rest : 0 <= d <= 9 ->
  stoi (dchar d :: rest) = let v := 1 * digits_from 0 (dchar d :: rest) in if (- 2 ^ 31 <=? v) && (v <? 2 ^ 31) then Ok v else Throw OutOfRange.
Proof.
  apply (digit_cases d (fun d => stoi (dchar d :: rest) =
    let v := 1 * digits_from 0 (dchar d :: rest) in if (- 2 ^ 31 <=? v) && (v <? 2 ^ 31) then Ok v else Throw OutOfRange)); reflexivity.
Qed.

Lemma stoi_digits ds : ds <> [] -> digits_ok ds -> digits_value ds < 2 ^ 31 -> stoi (show ds) = Ok (digits_value ds).
Proof.
  intros Hne H Hv. destruct ds as [|d ds]; [contradiction|]. pose proof H as H'. inversion H as [|? ? Hd Hds]; subst.
  change (show (d :: ds)) with (dchar d :: show ds). rewrite stoi_head by auto. cbv zeta.
  change (dchar d :: show ds) with (show (d :: ds)). rewrite digits_from_show by auto. fold (digits_value (d :: ds)).
  assert (Hp : 0 <= digits_value (d :: ds)).
  { unfold digits_value. clear - H'. assert (G : forall ds acc, digits_ok ds -> 0 <= acc -> 0 <= fold_left (fun v d => 10 * v + d) ds acc).
    { intros l. induction l as [|x l IH]; intros acc Hl Ha; cbn [fold_left]; auto. apply Forall_cons_iff in Hl as (Hx & Hl). apply IH; [exact Hl | lia]. }
    apply G; auto. lia. }
  rewrite Z.mul_1_l.
  destruct (Z.leb_spec (- 2 ^ 31) (digits_value (d :: ds))); [|lia]. destruct (Z.ltb_spec (digits_value (d :: ds)) (2 ^ 31)); [|lia]. reflexivity.
Qed.

Lemma digits_value_app a b : digits_value (a ++ b) = digits_value a * 10 ^ zlen b + digits_value b.
Proof.
  unfold digits_value. rewrite fold_left_app. generalize (fold_left (fun v d => 10 * v + d) a 0). 
  assert (G : forall b x y, fold_left (fun v d => 10 * v + d) b (x + y) = x * 10 ^ zlen b + fold_left (fun v d => 10 * v + d) b y).
  { clear. induction b as [|d b IH]; intros x y; cbn [fold_left].
    - unfold zlen; cbn [length]. change (10 ^ Z.of_nat 0) with 1. lia.
    - replace (10 * (x + y) + d) with (10 * x + (10 * y + d)) by lia. rewrite IH. unfold zlen; cbn [length].
      rewrite Nat2Z.inj_succ, Z.pow_succ_r by lia. lia. }
  intros z. rewrite <- (Z.add_0_r z) at 1. apply G.
Qed.

Ltac rring := match goal with |- @eq _ ?a ?b => change (@eq R a b) end; ring.
Section Num.
Variable dz : R -> R.
Local Notation F := (Rops dz).

Lemma npow10_R k : npow10 (F := F) k = powerRZ 10 k.
Proof.
  assert (G : forall p, Pos.iter (fun x => (10 * x)%R) 1%R p = (10 ^ Pos.to_nat p)%R).
  { intros p. rewrite Pos2Nat.inj_iter. induction (Pos.to_nat p) as [|n IH]; cbn; auto. now rewrite IH. }
  destruct k as [|p|p]; cbn [npow10 powerRZ].
  - reflexivity.
  - rnorm. apply G.
  - rnorm. rewrite G. rewrite ndiv_R by (apply pow_nonzero; lra). unfold Rdiv. now rewrite Rmult_1_l.
Qed.
Lemma pow10_pos k : (0 < powerRZ 10 k)%R.
Proof. apply powerRZ_lt. lra. Qed.

Lemma pow_IZR10 n : IZR (10 ^ Z.of_nat n) = powerRZ 10 (Z.of_nat n).
Proof. rewrite <- pow_powerRZ. rewrite pow_IZR. reflexivity. Qed.

Lemma pow10_m1 : powerRZ 10 (- (1)) = (/ 10)%R.
Proof. change (powerRZ 10 (- (1))) with (/ 10 ^ 1)%R. rewrite pow_1. reflexivity. Qed.

(* d1 + d2/10 + d3/100 + ... *)
Fixpoint dval (ds : list Z) : R := match ds with [] => 0%R | d :: t => (IZR d + dval t / 10)%R end.
Lemma dval_value ds : dval ds = (IZR (digits_value ds) * powerRZ 10 (1 - zlen ds))%R.
Proof.
  induction ds as [|d ds IH]; cbn [dval]; [unfold digits_value; cbn; lra|].
  rewrite IH. change (d :: ds) with ([d] ++ ds). rewrite digits_value_app. change (digits_value [d]) with d.
  unfold zlen. rewrite app_length. cbn [length]. rewrite plus_IZR, mult_IZR.
  replace (1 - Z.of_nat (1 + length ds)) with (- Z.of_nat (length ds)) by lia.
  replace (1 - Z.of_nat (length ds)) with (1 + - Z.of_nat (length ds)) by lia. rewrite powerRZ_add by lra.
  assert (E : (IZR (10 ^ Z.of_nat (length ds)) * powerRZ 10 (- Z.of_nat (length ds)) = 1)%R).
  { rewrite pow_IZR10. rewrite <- powerRZ_add by lra. now replace (Z.of_nat (length ds) + - Z.of_nat (length ds)) with 0 by lia. }
  rewrite Rmult_plus_distr_r, Rmult_assoc, E. rewrite powerRZ_1. field.
Qed.

Lemma nth_show pre d rest : nth (length pre) (pre ++ dchar d :: rest) "000"%char = dchar d.
Proof. rewrite app_nth2, Nat.sub_diag by lia. reflexivity. Qed.

Lemma substr_one pre c rest : substr (pre ++ c :: rest) (zlen pre) 1 = Ok [c].
Proof.
  unfold substr. destruct (Z.leb_spec (zlen pre) (zlen (pre ++ c :: rest))) as [_|H]; [|unfold zlen in H; rewrite app_length in H; lia].
  f_equal. unfold zlen. rewrite Nat2Z.id, skipn_app, skipn_all, Nat.sub_diag. reflexivity.
Qed.

Lemma stoi_one d : 0 <= d <= 9 -> stoi [dchar d] = Ok d.
Proof. apply (digit_cases d (fun d => stoi [dchar d] = Ok d)); reflexivity. Qed.

Lemma loop_digits ds : forall pre rest found last fuel (st : R * R), digits_ok ds ->
  (forall j, zlen pre <= j < zlen pre + zlen ds -> j <> found) -> zlen pre + zlen ds - 1 <= last ->
  mantissa_loop (F := F) (length ds + fuel) (pre ++ show ds ++ rest) found last (zlen pre) st =
  mantissa_loop (F := F) fuel (pre ++ show ds ++ rest) found last (zlen pre + zlen ds)
    ((fst st + dval ds * snd st)%R, (snd st * powerRZ 10 (- zlen ds))%R).
Proof.
  induction ds as [|d ds IH]; intros pre rest found last fuel st Hd Hf Hl.
  - cbn [length Nat.add dval]. change (zlen (@nil Z)) with 0. rewrite Z.add_0_r. f_equal. destruct st; cbn [fst snd powerRZ Z.opp]. f_equal; ring.
  - apply Forall_cons_iff in Hd as (Hd & Hds). cbn [length Nat.add mantissa_loop].
    assert (El : zlen (d :: ds) = zlen ds + 1) by (unfold zlen; cbn [length]; lia). assert (0 <= zlen ds) by (unfold zlen; lia).
    destruct (Z.leb_spec (zlen pre) last); [|lia].
    destruct (Z.eqb_spec (zlen pre) found) as [E|_]; [exfalso; apply (Hf (zlen pre)); lia|].
    change (show (d :: ds)) with (dchar d :: show ds). cbn [app].
    rewrite substr_one. cbn [bind]. rewrite stoi_one by auto. cbn [bind].
    replace (pre ++ dchar d :: show ds ++ rest) with ((pre ++ [dchar d]) ++ show ds ++ rest) by (rewrite <- app_assoc; reflexivity).
    assert (Ep : zlen (pre ++ [dchar d]) = zlen pre + 1) by (unfold zlen; rewrite app_length; cbn [length]; lia).
    rewrite <- Ep. rewrite IH; auto; [|intros j Hj; apply Hf; lia | lia].
    rewrite Ep. f_equal; [lia|]. cbn [fst snd]. rnorm. rewrite ndiv_R by lra. cbn [dval]. f_equal.
    + field.
    + rewrite El. replace (- (zlen ds + 1)) with (- (1) + - zlen ds) by lia. rewrite powerRZ_add by lra.
      rewrite pow10_m1. field.
Qed.

(* the mantissa of a numeral *)
Definition mant (ip : list Z) (fr : option (list Z)) : list ascii :=
  show ip ++ match fr with None => [] | Some f => "."%char :: show f end.
Definition mdigits (ip : list Z) (fr : option (list Z)) : list Z := ip ++ match fr with None => [] | Some f => f end.

Lemma show_length ds : length (show ds) = length ds.
Proof. apply map_length. Qed.

Lemma dval_app a b : dval (a ++ b) = (dval a + dval b * powerRZ 10 (- zlen a))%R.
Proof.
  induction a as [|d a IH]; cbn [app dval].
  - change (zlen (@nil Z)) with 0. cbn. ring.
  - rewrite IH. unfold zlen. cbn [length]. replace (- Z.of_nat (S (length a))) with (- (1) + - Z.of_nat (length a)) by lia.
    rewrite powerRZ_add by lra. rewrite pow10_m1. field.
Qed.

Lemma mantissa_ok ip fr rest found last (factor : R) : digits_ok ip -> (forall f, fr = Some f -> digits_ok f) ->
  (fr <> None -> found = zlen ip) -> (fr = None -> found < 0 \/ zlen ip <= found) -> last = zlen (mant ip fr) - 1 ->
  exists st, mantissa_loop (F := F) (S (length (mant ip fr ++ rest))) (mant ip fr ++ rest) found last 0 (0%R, factor) = Ok st /\
    fst st = (dval (mdigits ip fr) * factor)%R.
Proof.
  intros Hip Hfr Hf1 Hf2 Hl. unfold mant in *.
  assert (Lip : zlen (show ip) = zlen ip) by (unfold zlen; now rewrite show_length).
  destruct fr as [f|].
  - specialize (Hf1 ltac:(discriminate)). specialize (Hfr f eq_refl). unfold mdigits.
    assert (El : last = zlen ip + zlen f) by (rewrite Hl; unfold zlen; rewrite app_length; cbn [length]; rewrite !show_length; lia).
    eexists. replace (S (length ((show ip ++ "."%char :: show f) ++ rest))) with (length ip + (S (length f + (1 + length rest))))%nat
      by (rewrite !app_length; cbn [length]; rewrite !show_length; lia).
    replace ((show ip ++ "."%char :: show f) ++ rest) with ([] ++ show ip ++ ("."%char :: show f ++ rest)) by (cbn; rewrite <- app_assoc; reflexivity).
    change 0 with (zlen (@nil ascii)) at 1. rewrite loop_digits; auto;
      [| intros j Hj; change (zlen (@nil ascii)) with 0 in Hj; lia | change (zlen (@nil ascii)) with 0; unfold zlen in *; lia].
    change (zlen (@nil ascii)) with 0. rewrite Z.add_0_l. cbn [mantissa_loop].
    destruct (Z.leb_spec (zlen ip) last); [|unfold zlen in *; lia]. destruct (Z.eqb_spec (zlen ip) found); [|lia].
    replace ([] ++ show ip ++ "."%char :: show f ++ rest) with ((show ip ++ ["."%char]) ++ show f ++ rest) by (cbn; rewrite <- app_assoc; reflexivity).
    assert (Ep : zlen ip + 1 = zlen (show ip ++ ["."%char])) by (unfold zlen; rewrite app_length, show_length; cbn [length]; lia).
    rewrite Ep. rewrite loop_digits; auto; [|intros j Hj; lia | lia].
    cbn [Nat.add mantissa_loop]. destruct (Z.leb_spec (zlen (show ip ++ ["."%char]) + zlen f) last); [lia|].
    split; [reflexivity|]. cbn [fst snd]. rewrite dval_app. rring.
  - specialize (Hf2 eq_refl). unfold mdigits. rewrite !app_nil_r in *.
    eexists. replace (S (length (show ip ++ rest))) with (length ip + (1 + length rest))%nat by (rewrite app_length, show_length; lia).
    change (show ip ++ rest) with ([] ++ show ip ++ rest). change 0 with (zlen (@nil ascii)) at 1.
    rewrite loop_digits; auto; [| intros j Hj; change (zlen (@nil ascii)) with 0 in Hj; lia | change (zlen (@nil ascii)) with 0; lia].
    change (zlen (@nil ascii)) with 0. rewrite Z.add_0_l. cbn [Nat.add mantissa_loop].
    destruct (Z.leb_spec (zlen ip) last); [lia|]. split; [reflexivity|]. cbn [fst snd]. rring.
Qed.

Definition dotb (c : ascii) : bool := Ascii.eqb c ".".
Definition expb (c : ascii) : bool := Ascii.eqb c "E" || Ascii.eqb c "e".
Lemma show_no_dot ds : digits_ok ds -> Forall (fun c => dotb c = false) (show ds).
Proof. intros H. unfold show. rewrite Forall_map. eapply Forall_impl; [|exact H]. intros d Hd. apply (dchar_plain d Hd). Qed.
Lemma show_no_exp ds : digits_ok ds -> Forall (fun c => expb c = false) (show ds).
Proof.
  intros H. unfold show. rewrite Forall_map. eapply Forall_impl; [|exact H]. intros d Hd. fold (dchar d).
  destruct (dchar_plain d Hd) as (_ & _ & _ & _ & E1 & E2). unfold expb. now rewrite E1, E2.
Qed.
Lemma mant_no_exp ip fr : digits_ok ip -> (forall f, fr = Some f -> digits_ok f) -> Forall (fun c => expb c = false) (mant ip fr).
Proof.
  intros Hip Hfr. unfold mant. apply Forall_app. split; [now apply show_no_exp|].
  destruct fr as [f|]; constructor; auto. apply show_no_exp; auto.
Qed.

Definition show_exp (ex : option expo) : list ascii := match ex with None => [] | Some e => show_expo e end.
Lemma exp_no_dot ex : (forall e, ex = Some e -> expo_ok e) -> Forall (fun c => dotb c = false) (show_exp ex).
Proof.
  intros H. destruct ex as [e|]; [|constructor]. destruct (H e eq_refl) as (_ & Hd & _). cbn [show_exp]. unfold show_expo.
  constructor; [destruct (ex_upper e); reflexivity|]. apply Forall_app. split; [|now apply show_no_dot].
  destruct (ex_sign e) as [[]|]; repeat constructor.
Qed.

Lemma find_dot ip fr ex : digits_ok ip -> (forall e, ex = Some e -> expo_ok e) ->
  find_first_of (mant ip fr ++ show_exp ex) dotb = match fr with None => npos | Some _ => zlen ip end.
Proof.
  intros Hip Hex. unfold find_first_of, mant. destruct fr as [f|].
  - rewrite <- app_assoc. cbn [app]. rewrite find_first_at; [unfold zlen; rewrite show_length; lia | now apply show_no_dot | reflexivity].
  - rewrite app_nil_r. apply find_first_none. apply Forall_app. split; [now apply show_no_dot | now apply exp_no_dot].
Qed.
Lemma find_exp ip fr ex : digits_ok ip -> (forall f, fr = Some f -> digits_ok f) ->
  find_first_of (mant ip fr ++ show_exp ex) expb = match ex with None => npos | Some _ => zlen (mant ip fr) end.
Proof.
  intros Hip Hfr. unfold find_first_of. destruct ex as [e|]; cbn [show_exp].
  - unfold show_expo. rewrite find_first_at; [lia | now apply mant_no_exp | destruct (ex_upper e); reflexivity].
  - rewrite app_nil_r. apply find_first_none. now apply mant_no_exp.
Qed.

Lemma skipn_zlen {A} (a b : list A) : skipn (Z.to_nat (zlen a)) (a ++ b) = b.
Proof. unfold zlen. rewrite Nat2Z.id, skipn_app, skipn_all, Nat.sub_diag. reflexivity. Qed.

Lemma exponent_part m e (x : R) : expo_ok e -> 
  (ce <- char_at (m ++ show_expo e) (zlen m + 1) ;;
   let minus := Ascii.eqb ce "-" in
   let k := if minus || Ascii.eqb ce "+" then zlen m + 1 else zlen m in
   t <- substr (m ++ show_expo e) (k + 1) (zlen (m ++ show_expo e) - k) ;;
   p <- stoi t ;;
   Ok (x * (if minus then ndiv (n := F) n1 (npow10 p) else npow10 (F := F) p))%R) = Ok (x * powerRZ 10 (expo_value e))%R.
Proof.
  intros (Hne & Hd & Hv). unfold show_expo, expo_value. set (L := (if ex_upper e then "E" else "e")%char).
  destruct (ex_digits e) as [|d ds] eqn:Ed; [contradiction|]. rewrite <- Ed in *.
  assert (Hd0 : 0 <= d <= 9) by (rewrite Ed in Hd; now inversion Hd).
  assert (Sub : forall pre, substr (pre ++ show (ex_digits e)) (zlen pre) (zlen (pre ++ show (ex_digits e)) - zlen pre + 1) = Ok (show (ex_digits e))).
  { intros pre. unfold substr. destruct (Z.leb_spec (zlen pre) (zlen (pre ++ show (ex_digits e)))) as [_|H]; [|unfold zlen in H; rewrite app_length in H; lia].
    f_equal. rewrite skipn_zlen. apply firstn_all2. unfold zlen. rewrite app_length. lia. }
  destruct (ex_sign e) as [[|]|] eqn:Es; cbn [app].
  - assert (Ec : char_at (m ++ L :: "-"%char :: show (ex_digits e)) (zlen m + 1) = Ok "-"%char).
    { unfold char_at. destruct (Z.leb_spec 0 (zlen m + 1)); [|unfold zlen in *; lia].
      destruct (Z.leb_spec (zlen m + 1) (zlen (m ++ L :: "-"%char :: show (ex_digits e)))) as [_|H']; [|unfold zlen in H'; rewrite app_length in H'; cbn [length] in H'; lia].
      cbn [andb]. f_equal. rewrite app_nth2 by (unfold zlen; lia). replace (Z.to_nat (zlen m + 1) - length m)%nat with 1%nat by (unfold zlen; lia). reflexivity. }
    rewrite Ec. cbn [bind Ascii.eqb Bool.eqb orb]. cbv zeta.
    replace (m ++ L :: "-"%char :: show (ex_digits e)) with ((m ++ [L; "-"%char]) ++ show (ex_digits e)) by (rewrite <- app_assoc; reflexivity).
    replace (zlen m + 1 + 1) with (zlen (m ++ [L; "-"%char])) by (unfold zlen; rewrite app_length; cbn [length]; lia).
    replace (zlen ((m ++ [L; "-"%char]) ++ show (ex_digits e)) - (zlen m + 1)) with (zlen ((m ++ [L; "-"%char]) ++ show (ex_digits e)) - zlen (m ++ [L; "-"%char]) + 1)
      by (unfold zlen; rewrite !app_length; cbn [length]; lia).
    rewrite Sub. cbn [bind]. rewrite stoi_digits by (auto; rewrite Ed; discriminate). cbn [bind]. rewrite npow10_R. rnorm.
    rewrite ndiv_R by (pose proof (pow10_pos (digits_value (ex_digits e))); lra). f_equal. f_equal.
    rewrite powerRZ_neg'. unfold Rdiv. ring.
  - assert (Ec : char_at (m ++ L :: "+"%char :: show (ex_digits e)) (zlen m + 1) = Ok "+"%char).
    { unfold char_at. destruct (Z.leb_spec 0 (zlen m + 1)); [|unfold zlen in *; lia].
      destruct (Z.leb_spec (zlen m + 1) (zlen (m ++ L :: "+"%char :: show (ex_digits e)))) as [_|H']; [|unfold zlen in H'; rewrite app_length in H'; cbn [length] in H'; lia].
      cbn [andb]. f_equal. rewrite app_nth2 by (unfold zlen; lia). replace (Z.to_nat (zlen m + 1) - length m)%nat with 1%nat by (unfold zlen; lia). reflexivity. }
    rewrite Ec. cbn [bind Ascii.eqb Bool.eqb orb]. cbv zeta.
    replace (m ++ L :: "+"%char :: show (ex_digits e)) with ((m ++ [L; "+"%char]) ++ show (ex_digits e)) by (rewrite <- app_assoc; reflexivity).
    replace (zlen m + 1 + 1) with (zlen (m ++ [L; "+"%char])) by (unfold zlen; rewrite app_length; cbn [length]; lia).
    replace (zlen ((m ++ [L; "+"%char]) ++ show (ex_digits e)) - (zlen m + 1)) with (zlen ((m ++ [L; "+"%char]) ++ show (ex_digits e)) - zlen (m ++ [L; "+"%char]) + 1)
      by (unfold zlen; rewrite !app_length; cbn [length]; lia).
    rewrite Sub. cbn [bind]. rewrite stoi_digits by (auto; rewrite Ed; discriminate). cbn [bind]. rewrite npow10_R. reflexivity.
  - assert (Ec : char_at (m ++ L :: show (ex_digits e)) (zlen m + 1) = Ok (dchar d)).
    { unfold char_at. destruct (Z.leb_spec 0 (zlen m + 1)); [|unfold zlen in *; lia]. rewrite Ed.
      destruct (Z.leb_spec (zlen m + 1) (zlen (m ++ L :: show (d :: ds)))) as [_|H']; [|unfold zlen in H'; rewrite app_length in H'; cbn [length] in H'; lia].
      cbn [andb]. f_equal. rewrite app_nth2 by (unfold zlen; lia). replace (Z.to_nat (zlen m + 1) - length m)%nat with 1%nat by (unfold zlen; lia). reflexivity. }
    rewrite Ec. destruct (dchar_plain d Hd0) as (_ & E1 & E2 & _). cbn [bind]. rewrite E1, E2. cbn [orb]. cbv zeta.
    replace (m ++ L :: show (ex_digits e)) with ((m ++ [L]) ++ show (ex_digits e)) by (rewrite <- app_assoc; reflexivity).
    replace (zlen m + 1) with (zlen (m ++ [L])) by (unfold zlen; rewrite app_length; cbn [length]; lia).
    replace (zlen ((m ++ [L]) ++ show (ex_digits e)) - zlen m) with (zlen ((m ++ [L]) ++ show (ex_digits e)) - zlen (m ++ [L]) + 1)
      by (unfold zlen; rewrite !app_length; cbn [length]; lia).
    rewrite Sub. cbn [bind]. rewrite stoi_digits by (auto; rewrite Ed; discriminate). cbn [bind]. rewrite npow10_R. reflexivity.
Qed.

Definition first_power (ip : list Z) (fr : option (list Z)) (ex : option expo) : Z :=
  match fr with Some _ => u64 (zlen ip - 1) | None => zlen ip + zlen (show_exp ex) - 1 end.

Lemma read_numeral n : numeral_ok n -> nu_int n <> [] \/ nu_frac n <> None ->
  string_to_double (F := F) (show_numeral n) =
  Ok (IZR (if nu_neg n then -1 else 1) * (dval (mdigits (nu_int n) (nu_frac n)) * powerRZ 10 (first_power (nu_int n) (nu_frac n) (nu_exp n)) *
      powerRZ 10 (match nu_exp n with None => 0 | Some e => expo_value e end)))%R.
Proof.
  intros (Hip & Hfr & Hex & Hlen) Hne.
  set (s := mant (nu_int n) (nu_frac n) ++ show_exp (nu_exp n)).
  assert (Es : show_numeral n = (if nu_neg n then ["-"%char] else []) ++ s).
  { unfold show_numeral, s, mant. fold (show_exp (nu_exp n)). now rewrite <- app_assoc. }
  assert (Hm : mant (nu_int n) (nu_frac n) <> []).
  { unfold mant. destruct (nu_int n); [|discriminate]. destruct (nu_frac n); [discriminate|]. destruct Hne as [H|H]; now contradict H. }
  assert (Hlm : 0 < zlen (mant (nu_int n) (nu_frac n))).
  { destruct (mant (nu_int n) (nu_frac n)); [contradiction|]. unfold zlen; cbn [length]; lia. }
  assert (Hls : zlen s = zlen (mant (nu_int n) (nu_frac n)) + zlen (show_exp (nu_exp n))) by (unfold s, zlen; rewrite app_length; lia).
  assert (Hls' : zlen s < 2 ^ 63).
  { rewrite Es in Hlen. unfold zlen. rewrite app_length in Hlen. lia. }
  assert (Hc : exists c t, s = c :: t /\ Ascii.eqb c "-" = false).
  { unfold s, mant. destruct (nu_int n) as [|d ip].
    - destruct (nu_frac n); [|destruct Hne as [H|H]; now contradict H]. cbn [show map app]. eauto.
    - cbn [show map app]. fold (dchar d). do 2 eexists. split; [reflexivity|]. inversion Hip; subst. now apply dchar_plain. }
  destruct Hc as (c & t & Ect & Hc). unfold string_to_double. rewrite Es.
  assert (E0 : char_at ((if nu_neg n then ["-"%char] else []) ++ s) 0 = Ok (if nu_neg n then "-"%char else c)).
  { rewrite Ect. destruct (nu_neg n); reflexivity. }
  rewrite E0. cbn [bind].
  assert (E1 : Ascii.eqb (if nu_neg n then "-"%char else c) "-" = nu_neg n) by (destruct (nu_neg n); [reflexivity | exact Hc]).
  rewrite E1.
  assert (E2 : (if nu_neg n then skipn 1 ((if nu_neg n then ["-"%char] else []) ++ s) else (if nu_neg n then ["-"%char] else []) ++ s) = s)
    by (destruct (nu_neg n); reflexivity).
  rewrite E2. clear E0 E1 E2. cbv zeta.
  change (find_first_of s (fun c => Ascii.eqb c ".")) with (find_first_of s dotb).
  change (find_first_of s (fun c => Ascii.eqb c "E" || Ascii.eqb c "e")) with (find_first_of s expb).
  assert (Efd : find_first_of s dotb = match nu_frac n with None => npos | Some _ => zlen (nu_int n) end) by (unfold s; now apply find_dot).
  assert (Efe : find_first_of s expb = match nu_exp n with None => npos | Some _ => zlen (mant (nu_int n) (nu_frac n)) end) by (unfold s; now apply find_exp).
  rewrite Efd, Efe.
  set (ip := nu_int n) in *. set (fr := nu_frac n) in *. set (ex := nu_exp n) in *.
  assert (Hlast : (if match ex with None => npos | Some _ => zlen (mant ip fr) end =? npos then u64 (zlen s - 1) else
     u64 (match ex with None => npos | Some _ => zlen (mant ip fr) end - 1)) = zlen (mant ip fr) - 1).
  { unfold u64. destruct ex as [e|].
    - destruct (Z.eqb_spec (zlen (mant ip fr)) npos); [unfold npos in *; unfold zlen in *; lia|]. apply Z.mod_small. unfold zlen in *; lia.
    - change (npos =? npos) with true. cbv iota. assert (zlen s = zlen (mant ip fr)) by (rewrite Hls; unfold zlen; cbn; lia). rewrite Z.mod_small by (unfold zlen in *; lia). lia. }
  rewrite Hlast.
  assert (Hpow : (if negb (match fr with None => npos | Some _ => zlen ip end =? npos) then u64 (match fr with None => npos | Some _ => zlen ip end - 1) else u64 (zlen s - 1)) = first_power ip fr ex).
  { unfold first_power. destruct fr as [f|] eqn:Ef.
    - destruct (Z.eqb_spec (zlen ip) npos); [|reflexivity]. exfalso. assert (zlen ip <= zlen (mant ip (Some f))).
      { unfold mant, zlen. rewrite app_length, show_length. lia. } unfold npos in *. unfold zlen in *. lia.
    - change (npos =? npos) with true. cbn [negb]. unfold u64. rewrite Z.mod_small by (unfold zlen in *; lia). rewrite Hls. unfold mant. rewrite app_nil_r. unfold zlen. rewrite show_length. lia. }
  rewrite Hpow. rewrite npow10_R.
  destruct (mantissa_ok ip fr (show_exp ex) (match fr with None => npos | Some _ => zlen ip end) (zlen (mant ip fr) - 1)
      (powerRZ 10 (first_power ip fr ex))) as (st & Est & Vst); auto.
  { now destruct fr. }
  { intros ->. right. assert (zlen ip <= zlen (mant ip None)) by (unfold mant, zlen; rewrite app_length, show_length; lia). unfold npos, zlen in *. lia. }
  fold s in Est. refine (eq_trans (f_equal (fun r => bind r _) Est) _). cbn [bind]. rewrite Vst.
  destruct ex as [e|] eqn:Ee.
  - destruct (Z.eqb_spec (zlen (mant ip fr)) npos) as [E|_]; [unfold npos, zlen in *; lia|].
    refine (eq_trans (f_equal (fun r => bind r _) (exponent_part (mant ip fr) e _ (Hex e eq_refl))) _). reflexivity.
  - change (npos =? npos) with true. cbv iota. cbn [bind powerRZ]. rnorm. f_equal. rring.
Qed.
End Num.
