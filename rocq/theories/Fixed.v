(* Numbers printed with six decimals. *)
From Coq Require Import ZArith Ascii String List Bool Lia Reals Lra.
From Verif Require Import Base BaseFacts StrSpec StrOps StrFacts StrThms StrNum StrDelim Format FormatSpec FormatFacts.
Import ListNotations.
Open Scope Z_scope.

Lemma digits_value_app a b : digits_value (a ++ b) = digits_value a * 10 ^ Z.of_nat (List.length b) + digits_value b.
Proof.
  unfold digits_value. rewrite fold_left_app. generalize (fold_left (fun v d => 10 * v + d) a 0) as v.
  assert (G : forall b v, fold_left (fun v d => 10 * v + d) b v = v * 10 ^ Z.of_nat (List.length b) + fold_left (fun v d => 10 * v + d) b 0).
  { clear. induction b as [|d b IH]; intros v; cbn [fold_left List.length]; [change (10 ^ Z.of_nat 0) with 1; lia|].
    rewrite (IH (10 * v + d)), (IH (10 * 0 + d)). rewrite Nat2Z.inj_succ, Z.pow_succ_r by lia. lia. }
  intros v. apply G.
Qed.
Definition six (n : Z) : list Z := map (fun k => (n / 10 ^ k) mod 10) [5; 4; 3; 2; 1; 0].
Lemma six_value n : digits_value (six n) = n mod 1000000.
Proof.
  unfold six, digits_value. cbn [map fold_left].
  change (10 ^ 5) with 100000. change (10 ^ 4) with 10000. change (10 ^ 3) with 1000. change (10 ^ 2) with 100. change (10 ^ 1) with 10. change (10 ^ 0) with 1.
  rewrite Z.div_1_r. Z.div_mod_to_equations. lia.
Qed.
Lemma six_ok n : digits_ok (six n).
Proof. unfold six, digits_ok. rewrite Forall_map. apply Forall_forall. intros k _. pose proof (Z.mod_pos_bound (n / 10 ^ k) 10 ltac:(lia)). lia. Qed.

Lemma micro_near x : 0 <= micro x /\ (Rabs (IZR (micro x) / 1000000 - Rabs x) <= 1 / 2000000)%R.
Proof.
  unfold micro. pose proof (Rabs_pos x) as Hx. destruct (base_Int_part (Rabs x * 1000000 + 1 / 2)) as [A B]. set (n := Int_part (Rabs x * 1000000 + 1 / 2)) in *. split.
  - assert (-1 < IZR n)%R by lra. apply lt_IZR in H. lia.
  - apply Rabs_le. lra.
Qed.
Lemma fixed6_numeral x : (Rabs x < IZR (2 ^ 1024))%R -> exists ds,
  let n := mkNumeral (if Rlt_dec x 0 then true else false) ds (Some (six (micro x))) None in
  fixed6 x = show_numeral n /\ numeral_ok n /\ readable n /\
  numeral_value n = ((if Rlt_dec x 0 then -1 else 1) * (IZR (micro x) / 1000000))%R.
Proof.
  intros Hx. destruct (micro_near x) as [M0 M1]. set (n := micro x) in *.
  assert (Hn : n < 2 ^ 1045).
  { apply lt_IZR. assert (E : (2 ^ 1045 = 2 ^ 1024 * 2097152)%Z) by (vm_compute; reflexivity). rewrite E, mult_IZR. apply Rabs_def2 with (a := (1 / 2000000 + 1)%R) in M1 || idtac.
    pose proof (Rle_abs (IZR n / 1000000 - Rabs x)). assert (1 <= IZR (2 ^ 1024))%R by (apply IZR_le; vm_compute; discriminate). lra. }
  assert (Hq : 0 <= n / 1000000 <= n) by (split; [apply Z.div_pos; lia | apply Z.div_le_upper_bound; lia]).
  exists (digits10 (S (Z.to_nat (Z.log2 (n / 1000000)))) (n / 1000000)).
  destruct (digits10_ok (S (Z.to_nat (Z.log2 (n / 1000000)))) (n / 1000000)) as (A & B & C & D); [lia|lia|].
  assert (Lg : Z.log2 (n / 1000000) <= 1045).
  { etransitivity; [apply Z.log2_le_mono; apply Hq|]. destruct (Z.eq_dec n 0) as [E|E]; [rewrite E; vm_compute; discriminate|].
    apply Z.lt_le_incl. apply Z.log2_lt_pow2; lia. }
  cbv zeta. split; [|split; [|split]].
  - unfold fixed6, show_numeral. fold n. cbn [nu_neg nu_int nu_frac nu_exp]. rewrite app_nil_r. fold (six n).
    replace (int_str (n / 1000000)) with (show (digits10 (S (Z.to_nat (Z.log2 (n / 1000000)))) (n / 1000000))).
    + destruct (Rlt_dec x 0); reflexivity.
    + unfold int_str. replace (n / 1000000 <? 0) with false by (symmetry; apply Z.ltb_ge; lia). rewrite Z.abs_eq by lia. reflexivity.
  - unfold numeral_ok. cbn [nu_neg nu_int nu_frac nu_exp]. repeat split; auto; try discriminate.
    + intros f [= <-]. apply six_ok.
    + unfold show_numeral. cbn [nu_neg nu_int nu_frac nu_exp]. rewrite app_nil_r, !app_length. cbn [List.length]. rewrite !show_length. change (List.length (six n)) with 6%nat.
      assert (List.length (if if Rlt_dec x 0 then true else false then ["-"%char] else []) <= 1)%nat by (destruct (Rlt_dec x 0); cbn; lia). lia.
  - unfold readable. cbn. split; [exact B | left; discriminate].
  - unfold numeral_value. cbn [nu_neg nu_int nu_frac nu_exp]. rewrite digits_value_app, C, six_value. change (List.length (six n)) with 6%nat.
    change (10 ^ Z.of_nat 6) with 1000000. rewrite (Z.mul_comm (n / 1000000)), <- Z.div_mod by lia. rewrite powerRZ_O, Rmult_1_r.
    assert (E10 : powerRZ 10 (- Z.of_nat 6) = (/ 1000000)%R) by (change (- Z.of_nat 6) with (-6); unfold powerRZ; change (Pos.to_nat 6) with 6%nat; f_equal; ring). rewrite E10. destruct (Rlt_dec x 0); unfold Rdiv; ring.
Qed.
Lemma fixed6_prints x : (Rabs x < IZR (2 ^ 1024))%R -> prints fixed6 (1 / 2000000) x.
Proof.
  intros Hx. destruct (fixed6_numeral x Hx) as (ds & E & A & B & C). eexists. split; [exact E|]. split; [exact A|]. split; [exact B|]. rewrite C.
  destruct (micro_near x) as [_ M]. destruct (Rlt_dec x 0) as [H|H].
  - rewrite (Rabs_left x) in M by lra. replace (-1 * (IZR (micro x) / 1000000) - x)%R with (- (IZR (micro x) / 1000000 - - x))%R by ring. now rewrite Rabs_Ropp.
  - rewrite (Rabs_right x) in M by lra. now rewrite Rmult_1_l.
Qed.
Lemma fixed6_zero dz x : (0 <= x < 1 / 2000000)%R -> string_to_double (F := Rops dz) (fixed6 x) = Ok 0%R.
Proof.
  intros H. destruct (fixed6_numeral x) as (ds & E & A & B & C).
  { rewrite Rabs_right by lra. apply Rlt_trans with 1%R; [lra|]. apply IZR_lt. vm_compute. reflexivity. }
  rewrite E. rewrite read_readable by auto. rewrite C. f_equal. destruct (Rlt_dec x 0) as [L|_]; [lra|]. 
  assert (micro x = 0) as ->; [|lra]. unfold micro. rewrite Rabs_right by lra.
  destruct (base_Int_part (x * 1000000 + 1 / 2)) as [P Q]. set (k := Int_part (x * 1000000 + 1 / 2)) in *.
  assert (IZR k < 1)%R by lra. assert (-1 < IZR k)%R by lra. apply lt_IZR in H0. apply lt_IZR in H1. lia.
Qed.
