(* The basis functions evaluated in doubles against their exact values. *)
From Coq Require Import ZArith List Bool Lia Reals Floats Lra Psatz.
From Verif Require Import Base BaseFacts KnotVec KnotVecSpec KnotVecFacts Basis BasisFacts RSum BSplineTheory SpacesSpec
  DoubleSpec DoubleFacts DoubleError DoubleKnots.
Import ListNotations.
Open Scope Z_scope.

Lemma bf_le_1 dz kv k p i u : nondecreasing kv -> separated kv -> in_span kv k u ->
  0 <= i -> i + Z.of_nat p + 1 < zlen kv -> (bf_eval (mkbf dz kv i p) u <= 1)%R.
Proof.
  intros Hn Hs Hsp H0 H1. destruct p as [|q].
  - cbn [mkbf bf_eval]. destruct (in_support _ _ _ _); cbn; lra.
  - rewrite (bf_eval_piece dz kv k (S q) i u Hn Hs Hsp H0 H1) by (left; lia).
    destruct Hsp as (A1 & A2 & A3 & A4 & A5).
    assert (Nn : forall j, (0 <= B (tk kv) k (S q) j u)%R).
    { intros j. apply (B_nonneg (tk kv) (tk_monotone kv Hn) k A3); [exact A4 | lra]. }
    destruct (Z_le_dec i k) as [C1|C1]; [|rewrite B_outside by lia; lra].
    destruct (Z_le_dec k (i + Z.of_nat (S q))) as [C2|C2]; [|rewrite B_outside by lia; lra].
    pose proof (B_sum (tk kv) (tk_monotone kv Hn) k A3 (S q) u (k - Z.of_nat (S q)) (S (S q)) ltac:(lia) ltac:(lia)) as S1.
    assert (Hi : In i (zseq (k - Z.of_nat (S q)) (S (S q)))) by (apply zseq_In; lia).
    apply in_split in Hi as (l1 & l2 & E). rewrite E, lsum_app in S1. cbn [lsum fold_right map] in S1.
    assert (P1 : (0 <= lsum (fun i => B (tk kv) k (S q) i u) l1)%R) by (apply lsum_nonneg; auto).
    assert (P2 : (0 <= lsum (fun i => B (tk kv) k (S q) i u) l2)%R) by (apply lsum_nonneg; auto).
    change (lsum (fun i => B (tk kv) k (S q) i u) l1 + lsum (fun i => B (tk kv) k (S q) i u) (i :: l2) = 1)%R in S1.
    change (lsum (fun i => B (tk kv) k (S q) i u) (i :: l2)) with
      (B (tk kv) k (S q) i u + lsum (fun i => B (tk kv) k (S q) i u) l2)%R in S1. lra.
Qed.

(* ---- one product ---- *)
Lemma pow2_mul m n : (2 ^ m * 2 ^ n = 2 ^ (m + n))%R.
Proof. symmetry. apply pow_add. Qed.
Lemma pow2_le m n : (m <= n)%nat -> (2 ^ m <= 2 ^ n)%R.
Proof. intros. apply Rle_pow; [lra | assumption]. Qed.
Lemma pow2_ge1 m : (1 <= 2 ^ m)%R.
Proof. apply pow_R1_Rle. lra. Qed.

Lemma mul_close x y (m n : nat) f b X Y g c : (m + n <= 1023)%nat ->
  finite x -> finite y -> (Rabs (dval x) <= 2 ^ m)%R -> (Rabs (dval y) <= 2 ^ n)%R ->
  (1 <= f)%R -> (1 <= g)%R -> (0 <= b)%R -> (0 <= c)%R -> (X <= 1)%R ->
  close f b (dval x) X -> close g c (dval y) Y ->
  finite (x * y)%float /\ (Rabs (dval (x * y)%float) <= 2 ^ (m + n))%R /\
  close (f * g * phi) (phi * (f * c + b * (g * Y + c)) + underflow) (dval (x * y)%float) (X * Y).
Proof.
  intros Hmn Fx Fy Bx By Hf Hg Hb Hc HX Cx Cy.
  assert (Bxy : (Rabs (dval x * dval y) <= 2 ^ (m + n))%R).
  { rewrite Rabs_mult, pow_add. apply Rmult_le_compat; auto using Rabs_pos. }
  destruct (mul_exact x y Fx Fy) as [Fz Ez]; [eapply Rle_trans; [exact Bxy | apply pow2_le; lia]|].
  split; [exact Fz|]. rewrite Ez. split; [apply rnd_abs_le; [lia | exact Bxy]|].
  pose proof (close_mul f g b c _ X _ Y Hf Hg Hb Hc Cx Cy HX) as C.
  destruct (rnd_error (dval x * dval y)) as (d & h & Hd & Hh & E).
  assert (GY : (0 <= g * Y + c)%R) by (destruct Cy as (? & _); nra).
  apply (close_round (f * g) (f * c + b * (g * Y + c)) (dval x * dval y) (X * Y) d h); auto.
  - nra.
  - nra.
  - apply rnd_nonneg. destruct Cx as (_ & ? & _), Cy as (_ & ? & _). nra.
Qed.

Lemma tol_inv : (/ tolerance <= 2 ^ 50)%R.
Proof.
  unfold tolerance. rewrite <- (Rinv_inv (2 ^ 50)). apply Rinv_le_contravar; [apply Rinv_0_lt_compat, pow_lt; lra|].
  apply (Rmult_le_reg_r (2 ^ 52)); [apply pow_lt; lra|]. unfold Rdiv. rewrite Rmult_assoc, Rinv_l by (apply pow_nonzero; lra).
  replace (2 ^ 52)%R with (2 ^ 50 * 4)%R by ring. rewrite <- Rmult_assoc, Rinv_l by (apply pow_nonzero; lra). lra.
Qed.

(* the inverse of a knot difference *)
Lemma inverse_close r t : moderate r -> moderate t -> (tolerance <= dval r - dval t)%R ->
  finite (inverse_or_zero (F := Fops) (r - t)%float) /\
  (Rabs (dval (inverse_or_zero (F := Fops) (r - t)%float)) <= 2 ^ 50)%R /\
  within (phi * phi) (dval (inverse_or_zero (F := Fops) (r - t)%float)) (/ (dval r - dval t)).
Proof.
  intros Mr Mt H. destruct (sub_moderate r t Mr Mt) as (F1 & E1 & d & Hd & E1').
  set (w := (r - t)%float) in *. pose proof tolerance_pos as Tp.
  assert (Lw : (tolerance <= dval w)%R) by (rewrite E1, <- eps_format; now apply rnd_le).
  assert (Uw : (dval w <= 2 ^ 501)%R).
  { rewrite E1. apply Rle_trans with (Rabs (rnd (dval r - dval t))); [apply Rle_abs|]. apply rnd_abs_le; [lia|].
    destruct Mr as [_ Mr], Mt as [_ Mt]. pose proof (Rabs_triang (dval r) (- dval t)) as T. rewrite Rabs_Ropp in T.
    unfold Rminus. replace (2 ^ 501)%R with (2 ^ 500 + 2 ^ 500)%R by (rewrite <- (tech_pow_Rmult 2 500); ring). lra. }
  unfold inverse_or_zero. destruct (abs_exact w) as [Ea Fa]. change (nabs (n := Fops) w) with (PrimFloat.abs w).
  change (nltb (n := Fops)) with PrimFloat.ltb. rewrite ltb_exact by (auto; apply eps_exact).
  rewrite Ea, (proj2 eps_exact), Rabs_right by lra. unfold Rltb. destruct (Rlt_dec (dval w) tolerance) as [C|_]; [lra|].
  change (@ndiv Fops (@n1 Fops) w) with (1 / w)%float.
  assert (Iw : (dval 1%float / dval w <= 2 ^ 50)%R).
  { rewrite (proj2 one_exact). unfold Rdiv. rewrite Rmult_1_l. apply Rle_trans with (/ tolerance)%R; [|apply tol_inv].
    apply Rinv_le_contravar; lra. }
  assert (Ip : (0 < dval 1%float / dval w)%R).
  { rewrite (proj2 one_exact). unfold Rdiv. rewrite Rmult_1_l. apply Rinv_0_lt_compat. lra. }
  destruct (div_exact 1 w (proj1 one_exact)) as [F2 E2]; [lra | |].
  { rewrite Rabs_right by lra. eapply Rle_trans; [exact Iw|]. apply pow2_le. lia. }
  split; [exact F2|]. rewrite E2. split; [apply rnd_abs_le; [lia | rewrite Rabs_right by lra; exact Iw]|].
  destruct (rnd_normal (dval 1%float / dval w)) as (d2 & Hd2 & E3).
  { rewrite Rabs_right by lra. rewrite (proj2 one_exact). unfold Rdiv. rewrite Rmult_1_l.
    apply Rle_trans with (/ 2 ^ 501)%R; [|apply Rinv_le_contravar; lra].
    apply Rinv_le_contravar; [apply pow_lt; lra | apply pow2_le; lia]. }
  rewrite E3. pose proof phi_gt. apply within_round; [lra | | exact Hd2].
  rewrite (proj2 one_exact). unfold Rdiv. rewrite Rmult_1_l. apply within_inv; [lra | lra |].
  rewrite E1'. apply within_factor; [lra | exact Hd].
Qed.
Lemma inverse_same r t : moderate r -> moderate t -> dval r = dval t ->
  inverse_or_zero (F := Fops) (r - t)%float = 0%float.
Proof.
  intros Mr Mt H. pose proof (near_same r t Mr Mt H) as N. unfold num_are_equal in N. unfold inverse_or_zero.
  cbn [nltb nabs nsub Fops n0] in *. rewrite N. reflexivity.
Qed.

(* ---- one term of the recursion ---- *)
Definition basis_slack (p : nat) : R := (4 ^ (p + 2) * underflow)%R.
Lemma basis_slack_S p : basis_slack (S p) = (4 * basis_slack p)%R.
Proof. unfold basis_slack. replace (S p + 2)%nat with (S (p + 2)) by lia. rewrite <- tech_pow_Rmult. ring. Qed.
Lemma basis_slack_eta p : (16 * underflow <= basis_slack p)%R.
Proof.
  unfold basis_slack. apply Rmult_le_compat_r; [pose proof underflow_pos; lra|]. replace 16%R with (4 ^ 2)%R by ring.
  apply Rle_pow; [lra | lia].
Qed.
Lemma basis_slack_le1 p : (p <= 500)%nat -> (basis_slack p <= / 2)%R.
Proof.
  intros H. unfold basis_slack, underflow. replace 4%R with (2 ^ 2)%R by ring. rewrite <- pow_mult.
  apply (Rmult_le_reg_r (2 ^ 1075)); [apply pow_lt; lra|]. rewrite Rmult_assoc, Rinv_l by (apply pow_nonzero; lra).
  rewrite Rmult_1_r. replace (2 ^ 1075)%R with (2 * 2 ^ 1074)%R by (symmetry; apply (tech_pow_Rmult 2 1074)).
  rewrite <- Rmult_assoc, Rinv_l, Rmult_1_l by lra. apply pow2_le. lia.
Qed.

Lemma term_close dz p q r t lv L g c :
  moderate p -> moderate q -> moderate r -> moderate t ->
  (0 <= dval p - dval q)%R -> (dval r = dval t \/ tolerance <= dval r - dval t)%R ->
  finite lv -> close g c (dval lv) L -> (1 <= g)%R -> (g <= 4 / 3)%R -> (0 <= c <= / 2)%R -> (L <= 1)%R ->
  (dval p - dval q <= dval r - dval t \/ (dval lv = 0 /\ L = 0))%R ->
  let v := ((p - q) * inverse_or_zero (F := Fops) (r - t)%float * lv)%float in
  finite v /\ (Rabs (dval v) <= 2 ^ 553)%R /\
  close (phi ^ 5 * g) (phi * (phi ^ 4 * c + underflow * (g + c)) + underflow) (dval v)
    ((dval p - dval q) * inverse_or_zero (F := Rops dz) (dval r - dval t)%R * L).
Proof.
  intros Mp Mq Mr Mt HU HD Fl Cl Hg1 Hg Hc HL Hcase v.
  pose proof underflow_pos as Up. pose proof phi_gt as Pg. pose proof (phi_pow_ge 4) as P4. pose proof (phi_pow_ge 5) as P5.
  assert (Slack : (0 <= phi * (phi ^ 4 * c + underflow * (g + c)) + underflow)%R).
  { assert (0 <= phi ^ 4 * c)%R by nra. assert (0 <= underflow * (g + c))%R by nra. nra. }
  assert (Zero : forall w, finite w -> dval w = 0%R -> finite w /\ (Rabs (dval w) <= 2 ^ 553)%R /\
     close (phi ^ 5 * g) (phi * (phi ^ 4 * c + underflow * (g + c)) + underflow) (dval w) 0).
  { intros w Fw Ew. rewrite Ew, Rabs_R0. split; [exact Fw|]. split; [apply pow_le; lra|].
    unfold close. replace (0 - 0)%R with 0%R by ring. rewrite Rabs_R0. lra. }
  destruct (sub_moderate p q Mp Mq) as (FU & EU & d & Hd & EU').
  assert (BU : (Rabs (dval (p - q)%float) <= 2 ^ 501)%R).
  { rewrite EU. apply rnd_abs_le; [lia|]. destruct Mp as [_ Mp], Mq as [_ Mq].
    pose proof (Rabs_triang (dval p) (- dval q)) as T. rewrite Rabs_Ropp in T.
    unfold Rminus. replace (2 ^ 501)%R with (2 ^ 500 + 2 ^ 500)%R by (rewrite <- (tech_pow_Rmult 2 500); ring). lra. }
  assert (Bl : (Rabs (dval lv) <= 2 ^ 1)%R).
  { pose proof (close_upper _ _ _ _ Cl) as Ul. destruct Cl as (A & B & _). rewrite Rabs_right by lra. cbn [pow]. nra. }
  rewrite inverse_or_zero_R. pose proof tolerance_pos as Tp.
  destruct HD as [HD|HD].
  - replace (dval r - dval t)%R with 0%R by lra. rewrite Rabs_R0. destruct (Rlt_dec 0 tolerance) as [_|C]; [|lra].
    rewrite Rmult_0_r, Rmult_0_l. unfold v. rewrite (inverse_same r t Mr Mt HD).
    destruct (mul_exact (p - q) 0 FU (proj1 zero_exact)) as [F1 E1].
    { rewrite (proj2 zero_exact), Rmult_0_r, Rabs_R0. apply pow_le. lra. }
    rewrite (proj2 zero_exact), Rmult_0_r, rnd_0 in E1.
    destruct (mul_exact ((p - q) * 0) lv F1 Fl) as [F2 E2].
    { rewrite E1, Rmult_0_l, Rabs_R0. apply pow_le. lra. }
    rewrite E1, Rmult_0_l, rnd_0 in E2. now apply Zero.
  - rewrite (Rabs_right (dval r - dval t)) by lra. destruct (Rlt_dec _ _) as [C|_]; [lra|].
    destruct (inverse_close r t Mr Mt HD) as (FI & BI & WI).
    set (di := inverse_or_zero (F := Fops) (r - t)%float) in *. clearbody di. change float in (type of di).
    set (D := (dval r - dval t)%R) in *. set (U := (dval p - dval q)%R) in *.
    assert (HDp : (0 < / D)%R) by (apply Rinv_0_lt_compat; lra).
    assert (Bp : (Rabs (dval (p - q)%float * dval di) <= 2 ^ 551)%R).
    { rewrite Rabs_mult. replace (2 ^ 551)%R with (2 ^ 501 * 2 ^ 50)%R by (rewrite pow2_mul; reflexivity).
      apply Rmult_le_compat; auto using Rabs_pos. }
    destruct (mul_exact (p - q) di FU FI) as [FA EA]; [eapply Rle_trans; [exact Bp | apply pow2_le; lia]|].
    set (al := ((p - q) * di)%float) in *.
    assert (BA : (Rabs (dval al) <= 2 ^ 551)%R) by (rewrite EA; apply rnd_abs_le; [lia | exact Bp]).
    assert (WU : within phi (dval (p - q)%float) U) by (rewrite EU'; now apply within_factor).
    assert (WA : within (phi * (phi * phi)) (dval (p - q)%float * dval di) (U * / D)) by (apply within_mul; auto; nra).
    assert (P3 : (1 <= phi * (phi * phi))%R) by nra.
    assert (CA : close (phi ^ 4) underflow (dval al) (U * / D)).
    { rewrite EA. destruct (rnd_error (dval (p - q)%float * dval di)) as (d2 & h2 & Hd2 & Hh2 & E2).
      pose proof (within_nonneg _ _ _ P3 WA) as NA.
      pose proof (close_round (phi * (phi * phi)) 0 _ _ d2 h2 (rnd (dval (p - q)%float * dval di)) P3 (Rle_refl 0)
         (within_close _ _ _ P3 WA) Hd2 Hh2 E2 (rnd_nonneg _ NA)) as CC.
      replace (phi ^ 4)%R with (phi * (phi * phi) * phi)%R by ring. eapply close_weaken; [apply Rle_refl | | exact CC]. lra. }
    destruct Hcase as [HUD|[Z1 Z2]].
    + assert (Al : (U * / D <= 1)%R).
      { apply (Rmult_le_reg_r D); [lra|]. rewrite Rmult_assoc, Rinv_l by lra. lra. }
      destruct (mul_close al lv 551 1 (phi ^ 4) underflow (U * / D) L g c) as (F3 & B3 & C3); auto; try lia; try lra.
      split; [exact F3|]. split; [eapply Rle_trans; [exact B3|]; apply pow2_le; lia|].
      eapply close_weaken; [| |exact C3].
      * replace (phi ^ 5 * g)%R with (phi ^ 4 * g * phi)%R by ring. lra.
      * apply Rplus_le_compat_r, Rmult_le_compat_l; [lra|]. apply Rplus_le_compat_l, Rmult_le_compat_l; [lra|].
        assert (g * L <= g)%R by nra. lra.
    + rewrite Z2, Rmult_0_r. destruct (mul_exact al lv FA Fl) as [F2 E2].
      { rewrite Z1, Rmult_0_r, Rabs_R0. apply pow_le. lra. }
      rewrite Z1, Rmult_0_r, rnd_0 in E2. now apply Zero.
Qed.

(* ---- the objects built by CreateDynamic for doubles ---- *)
Definition dkn (kv : list float) (j : Z) : float := nth (Z.to_nat (Z.min j (zlen kv - 1))) kv 0%float.
Lemma dk_val kv j : dval (dkn kv j) = tk (map dval kv) j.
Proof. unfold dkn, tk. rewrite zlen_map. rewrite <- (proj2 zero_exact). symmetry. apply (map_nth dval). Qed.
Lemma dk_moderate kv j : kv <> [] -> Forall moderate kv -> moderate (dkn kv j).
Proof.
  intros Hne H. rewrite Forall_forall in H. apply H. apply nth_In. unfold zlen. destruct kv; [congruence | cbn [length]; lia].
Qed.
Definition dlast (kv : list float) : float := nth (length kv - 1) kv 0%float.
Lemma dlast_val kv : dval (dlast kv) = final_knot (map dval kv).
Proof. unfold dlast, final_knot. rewrite map_length. rewrite <- (proj2 zero_exact). symmetry. apply (map_nth dval). Qed.
Lemma dlast_moderate kv : kv <> [] -> Forall moderate kv -> moderate (dlast kv).
Proof. intros Hne H. rewrite Forall_forall in H. apply H. apply nth_In. destruct kv; [congruence | cbn [length]; lia]. Qed.

Fixpoint dbf (kv : list float) (i : Z) (p : nat) : bf Fops :=
  let s := dkn kv i in
  let e := dkn kv (i + Z.of_nat p + 1) in
  let l := num_are_equal (F := Fops) kEpsilon e (dlast kv) in
  match p with
  | O => BF0 (F := Fops) s e l
  | S q => BFS (F := Fops) (Z.of_nat p) s e l
               (inverse_or_zero (F := Fops) (dkn kv (i + Z.of_nat p) - s)%float)
               (inverse_or_zero (F := Fops) (e - dkn kv (i + 1))%float)
               (dbf kv i q) (dbf kv (i + 1) q)
  end.

Lemma get_knot_dk (kv : list float) i : 0 <= i < zlen kv -> get_knot (F := Fops) kv i = Ok (dkn kv i).
Proof.
  intros H. etransitivity; [exact (vget_nth (A := float) kv i 0%float H)|]. unfold dkn. do 2 f_equal. lia.
Qed.
Lemma last_knot_dk (kv : list float) : 0 < zlen kv -> last_knot (F := Fops) kv = Ok (dlast kv).
Proof.
  intros H. etransitivity; [exact (vget_nth (A := float) kv (zlen kv - 1) 0%float ltac:(lia))|]. unfold dlast, zlen.
  do 2 f_equal. lia.
Qed.
Lemma dcreate_nat (kv : list float) p i : 0 <= i -> i + Z.of_nat p + 1 < zlen kv ->
  create_nat (F := Fops) kv i p = Ok (dbf kv i p).
Proof.
  revert i; induction p as [|q IH]; intros i H0 H1.
  - cbn [create_nat dbf]. rewrite !get_knot_dk by lia. cbn [bind].
    unfold is_last_knot. rewrite last_knot_dk by lia. reflexivity.
  - cbn [create_nat]. rewrite !get_knot_dk by lia. cbn [bind].
    unfold is_last_knot. rewrite last_knot_dk by lia. cbn [bind].
    rewrite !IH by lia. reflexivity.
Qed.
Lemma dcreate_dynamic (kv : list float) p i : 0 <= p -> 0 <= i -> i + p + 1 < zlen kv ->
  create_dynamic (F := Fops) kv i p = Ok (dbf kv i (Z.to_nat p)).
Proof.
  intros Hp Hi H. unfold create_dynamic. destruct (Z.ltb_spec p 0); [lia|].
  apply dcreate_nat; lia.
Qed.
Definition dbfs (kv : list float) (p : Z) : list (bf Fops) :=
  map (fun i => dbf kv i (Z.to_nat p)) (zseq 0 (Z.to_nat (zlen kv - p - 1))).
Lemma dcreate_all (kv : list float) p : 0 <= p -> p + 1 <= zlen kv -> create_all (F := Fops) kv p = Ok (dbfs kv p).
Proof.
  intros Hp H. unfold create_all. change (num Fops) with float. destruct (Z.ltb_spec (zlen kv - p - 1) 0); [lia|].
  apply mapM_ok. intros i Hi. apply zseq_In in Hi. apply dcreate_dynamic; lia.
Qed.
Lemma dbfs_length kv p : length (dbfs kv p) = Z.to_nat (zlen kv - p - 1).
Proof. unfold dbfs. now rewrite map_length, zseq_length. Qed.
Lemma dbfs_get kv p i : 0 <= i < zlen kv - p - 1 -> vget (dbfs kv p) i = Ok (dbf kv i (Z.to_nat p)).
Proof.
  intros H. rewrite (vget_nth _ i (dbf kv 0 0)).
  - unfold dbfs. rewrite (nth_map_in _ _ _ 0) by (rewrite zseq_length; lia).
    rewrite zseq_nth by lia. do 2 f_equal. lia.
  - unfold zlen at 1. rewrite dbfs_length. lia.
Qed.

(* ---- the support test gives the same answer ---- *)
Lemma support_exact dz kv i j u : Forall moderate kv -> moderate u -> kv <> [] ->
  nondecreasing (map dval kv) -> separated (map dval kv) ->
  in_support (F := Fops) (dkn kv i) (dkn kv j) (num_are_equal (F := Fops) kEpsilon (dkn kv j) (dlast kv)) u =
  in_support (F := Rops dz) (tk (map dval kv) i) (tk (map dval kv) j)
    (num_are_equal (F := Rops dz) kEpsilon (tk (map dval kv) j) (final_knot (map dval kv))) (dval u).
Proof.
  intros Hk Hu Hne Hn Hs. pose proof (dk_moderate kv i Hne Hk) as Mi. pose proof (dk_moderate kv j Hne Hk) as Mj.
  pose proof (dlast_moderate kv Hne Hk) as Ml.
  assert (EL : num_are_equal (F := Fops) kEpsilon (dkn kv j) (dlast kv) =
     num_are_equal (F := Rops dz) kEpsilon (tk (map dval kv) j) (final_knot (map dval kv))).
  { pose proof (is_last_tk dz (map dval kv) j Hs Hn) as I.
    destruct (Req_EM_T (tk (map dval kv) j) (final_knot (map dval kv))) as [E|E].
    - rewrite (proj2 I E). apply near_same; auto. now rewrite dk_val, dlast_val.
    - destruct (num_are_equal (F := Rops dz) kEpsilon _ _); [exfalso; apply E; now apply I|].
      apply near_far; auto. rewrite dk_val, dlast_val. pose proof (tk_le_final (map dval kv) j Hn).
      rewrite <- tk_last in *. pose proof (separated_tk (map dval kv) j (zlen (map dval kv) - 1) Hs Hn ltac:(lra)).
      rewrite Rabs_left; pose proof tolerance_pos; lra. }
  rewrite EL. unfold in_support. cbn [nleb nltb neqb Fops Rops].
  rewrite leb_exact, ltb_exact, eqb_exact by (apply moderate_finite; assumption). now rewrite !dk_val.
Qed.

Lemma dbf_zero kv i p u : in_support (F := Fops) (dkn kv i) (dkn kv (i + Z.of_nat p + 1))
    (num_are_equal (F := Fops) kEpsilon (dkn kv (i + Z.of_nat p + 1)) (dlast kv)) u = false ->
  bf_eval (dbf kv i p) u = 0%float.
Proof. intros H. destruct p; cbn [dbf bf_eval]; rewrite H; reflexivity. Qed.
Lemma mkbf_zero dz kv i p u : in_support (F := Rops dz) (tk kv i) (tk kv (i + Z.of_nat p + 1))
    (num_are_equal (F := Rops dz) kEpsilon (tk kv (i + Z.of_nat p + 1)) (final_knot kv)) u = false ->
  bf_eval (mkbf dz kv i p) u = 0%R.
Proof. intros H. destruct p; cbn [mkbf bf_eval]; rewrite H; reflexivity. Qed.

Lemma six_small p : (p <= 500)%nat -> (INR (6 * p) * roundoff <= / 4)%R.
Proof.
  intros H. pose proof roundoff_small as R1. pose proof roundoff_pos. assert (INR (6 * p) <= INR 3000)%R by (apply le_INR; lia).
  assert (E : INR 3000 = 3000%R) by (rewrite INR_IZR_INZ; reflexivity). rewrite E in *. pose proof (pos_INR (6 * p)).
  apply Rle_trans with (3000 * / 2 ^ 20)%R; [apply Rmult_le_compat; lra|]. lra.
Qed.

Lemma dbf_close dz kv k p i u : Forall moderate kv -> moderate u ->
  nondecreasing (map dval kv) -> separated (map dval kv) -> in_span (map dval kv) k (dval u) ->
  0 <= i -> i + Z.of_nat p + 1 < zlen kv -> (p <= 500)%nat ->
  finite (bf_eval (dbf kv i p) u) /\
  close (phi ^ (6 * p)) (basis_slack p) (dval (bf_eval (dbf kv i p) u)) (bf_eval (mkbf dz (map dval kv) i p) (dval u)).
Proof.
  intros Hk Hu Hn Hs Hsp. assert (Hne : kv <> []).
  { intros ->. destruct Hsp as (? & ? & _). unfold zlen in *; cbn in *; lia. }
  pose proof underflow_pos as Up. pose proof phi_gt as Pg. pose proof phi_small_const as Pc. pose proof tolerance_pos as Tp.
  assert (Triv : forall n, close (phi ^ (6 * n)) (basis_slack n) 0 0).
  { intros n. unfold close. replace (0 - 0)%R with 0%R by ring. rewrite Rabs_R0. pose proof (basis_slack_eta n). lra. }
  revert i; induction p as [|q IH]; intros i H0 H1 Hp.
  - cbn [dbf mkbf bf_eval]. rewrite (support_exact dz kv i (i + Z.of_nat 0 + 1) u Hk Hu Hne Hn Hs).
    destruct (in_support (F := Rops dz) _ _ _ _).
    + split; [exact (proj1 one_exact)|]. change (@n1 Fops) with 1%float. rewrite (proj2 one_exact). cbn [n1 Rops].
      unfold close. replace (1 - 1)%R with 0%R by ring. rewrite Rabs_R0. pose proof (basis_slack_eta 0).
      change (phi ^ (6 * 0))%R with 1%R. change (num (Rops dz)) with R. repeat split; lra.
    + split; [exact (proj1 zero_exact)|]. change (@n0 Fops) with 0%float. rewrite (proj2 zero_exact). apply (Triv 0%nat).
  - destruct (IH i ltac:(lia) ltac:(lia) ltac:(lia)) as [FL CL].
    destruct (IH (i + 1) ltac:(lia) ltac:(lia) ltac:(lia)) as [FR CR].
    pose proof (support_exact dz kv i (i + Z.of_nat (S q) + 1) u Hk Hu Hne Hn Hs) as SE.
    pose proof (in_support_mk dz (map dval kv) i (i + Z.of_nat (S q) + 1) (dval u) Hs Hn) as SP.
    cbn [dbf mkbf bf_eval]. rewrite SE. destruct (in_support (F := Rops dz) _ _ _ _) eqn:IS.
    2:{ split; [exact (proj1 zero_exact)|]. change (@n0 Fops) with 0%float. rewrite (proj2 zero_exact). apply Triv. }
    assert (Sup := proj1 SP eq_refl). clear SP SE IS.
    pose proof (dk_moderate kv) as Mk.
    assert (HsU : (tk (map dval kv) i <= dval u <= tk (map dval kv) (i + Z.of_nat (S q) + 1))%R).
    { pose proof (tk_le_final (map dval kv) i Hn). destruct Sup as [?|[? ?]]; lra. }
    assert (Dsep : forall a b, a <= b -> (dval (dkn kv b) = dval (dkn kv a) \/ tolerance <= dval (dkn kv b) - dval (dkn kv a))%R).
    { intros a b Hab. rewrite !dk_val. pose proof (tk_monotone (map dval kv) Hn a b Hab).
      destruct (Req_EM_T (tk (map dval kv) b) (tk (map dval kv) a)) as [E|E]; [left; exact E | right].
      pose proof (separated_tk (map dval kv) a b Hs Hn ltac:(lra)). lra. }
    pose proof (phi_small (6 * q) (six_small q ltac:(lia))) as [_ Gq]. pose proof (phi_pow_ge (6 * q)) as Gq1.
    pose proof (basis_slack_eta q) as Sq. pose proof (basis_slack_le1 q ltac:(lia)) as Sq1.
    assert (ZL : zlen (map dval kv) = zlen kv) by apply zlen_map.
    destruct (term_close dz u (dkn kv i) (dkn kv (i + Z.of_nat (S q))) (dkn kv i) (bf_eval (dbf kv i q) u)
       (bf_eval (mkbf dz (map dval kv) i q) (dval u)) (phi ^ (6 * q)) (basis_slack q)) as (F1 & B1 & C1); auto.
    { rewrite dk_val. lra. } { apply Dsep. lia. } { lra. }
    { apply (bf_le_1 dz (map dval kv) k q i); auto; lia. }
    { rewrite !dk_val. pose proof (in_support_mk dz (map dval kv) i (i + Z.of_nat q + 1) (dval u) Hs Hn) as SP.
      pose proof (support_exact dz kv i (i + Z.of_nat q + 1) u Hk Hu Hne Hn Hs) as SE.
      destruct (in_support (F := Rops dz) _ _ _ _) eqn:IS.
      - left. replace (i + Z.of_nat (S q)) with (i + Z.of_nat q + 1) by lia. destruct (proj1 SP eq_refl) as [?|[? ?]]; lra.
      - right. rewrite (dbf_zero kv i q u SE). split; [apply zero_exact | now apply mkbf_zero]. }
    destruct (term_close dz (dkn kv (i + Z.of_nat (S q) + 1)) u (dkn kv (i + Z.of_nat (S q) + 1)) (dkn kv (i + 1)) (bf_eval (dbf kv (i + 1) q) u)
       (bf_eval (mkbf dz (map dval kv) (i + 1) q) (dval u)) (phi ^ (6 * q)) (basis_slack q)) as (F2 & B2 & C2); auto.
    { rewrite dk_val. lra. } { apply Dsep. lia. } { lra. }
    { apply (bf_le_1 dz (map dval kv) k q (i + 1)); auto; lia. }
    { rewrite !dk_val. pose proof (in_support_mk dz (map dval kv) (i + 1) (i + 1 + Z.of_nat q + 1) (dval u) Hs Hn) as SP.
      pose proof (support_exact dz kv (i + 1) (i + 1 + Z.of_nat q + 1) u Hk Hu Hne Hn Hs) as SE.
      destruct (in_support (F := Rops dz) _ _ _ _) eqn:IS.
      - left. replace (i + 1 + Z.of_nat q + 1) with (i + Z.of_nat (S q) + 1) in SP by lia.
        pose proof (tk_le_final (map dval kv) (i + 1) Hn). destruct (proj1 SP eq_refl) as [?|[? ?]]; lra.
      - right. rewrite (dbf_zero kv (i + 1) q u SE). split; [apply zero_exact | now apply mkbf_zero]. }
    rewrite !dk_val in C1, C2.
    match type of F1 with finite ?x => set (x1 := x) in * end.
    match type of F2 with finite ?x => set (x2 := x) in * end.
    match type of C1 with close _ _ _ ?X => set (X1 := X) in * end.
    match type of C2 with close _ _ _ ?X => set (X2 := X) in * end.
    change (finite (x1 + x2)%float /\ close (phi ^ (6 * S q)) (basis_slack (S q)) (dval (x1 + x2)%float) (X1 + X2)%R).
    clearbody x1 x2 X1 X2.
    assert (Bs : (Rabs (dval x1 + dval x2) <= 2 ^ 1023)%R).
    { eapply Rle_trans; [apply Rabs_triang|]. apply Rle_trans with (2 ^ 554)%R; [|apply pow2_le; lia].
      replace (2 ^ 554)%R with (2 ^ 553 + 2 ^ 553)%R by (rewrite <- (tech_pow_Rmult 2 553); ring). lra. }
    destruct (add_exact x1 x2 F1 F2 Bs) as [F3 E3]. split; [exact F3|]. rewrite E3.
    destruct (rnd_plus x1 x2) as (d & Hd & E4).
    assert (G1 : (1 <= phi ^ 5 * phi ^ (6 * q))%R) by (rewrite <- pow_add; apply phi_pow_ge).
    pose proof (close_add _ _ _ _ _ _ _ G1 C1 C2) as C3.
    set (T := (phi * (phi ^ 4 * basis_slack q + underflow * (phi ^ (6 * q) + basis_slack q)) + underflow)%R) in *.
    assert (P4 : (phi ^ 4 <= 101 / 100)%R).
    { assert (phi ^ 2 <= 1003 / 1000)%R by nra. assert (1 <= phi ^ 2)%R by apply phi_pow_ge.
      replace (phi ^ 4)%R with (phi ^ 2 * phi ^ 2)%R by ring. nra. }
    assert (TB : (0 <= T /\ 2 * phi * T + underflow <= 4 * basis_slack q)%R).
    { assert (A1 : (phi ^ 4 * basis_slack q <= 101 / 100 * basis_slack q)%R) by nra.
      assert (A2 : (underflow * (phi ^ (6 * q) + basis_slack q) <= 2 * underflow)%R) by nra.
      assert (A3 : (0 <= phi ^ 4 * basis_slack q)%R) by (pose proof (phi_pow_ge 4); nra).
      assert (A4 : (0 <= underflow * (phi ^ (6 * q) + basis_slack q))%R) by nra.
      assert (A5 : (0 <= phi * (phi ^ 4 * basis_slack q + underflow * (phi ^ (6 * q) + basis_slack q)))%R)
        by (apply Rmult_le_pos; lra).
      assert (A6 : (phi * (phi ^ 4 * basis_slack q + underflow * (phi ^ (6 * q) + basis_slack q)) <=
        1001 / 1000 * (101 / 100 * basis_slack q + 2 * underflow))%R) by (apply Rmult_le_compat; lra).
      assert (A7 : (0 <= T <= 1001 / 1000 * (101 / 100 * basis_slack q + 2 * underflow) + underflow)%R) by (unfold T; lra).
      clearbody T. assert (A8 : (phi * T <= 1001 / 1000 * T)%R) by (apply Rmult_le_compat_r; lra). split; lra. }
    assert (NN : (0 <= rnd (dval x1 + dval x2))%R).
    { apply rnd_nonneg. destruct C3 as (_ & ? & _). assumption. }
    assert (E5 : rnd (dval x1 + dval x2) = ((dval x1 + dval x2) * (1 + d) + 0)%R) by lra.
    assert (Z0 : (Rabs 0 <= underflow)%R) by (rewrite Rabs_R0; lra).
    pose proof (close_round _ _ _ _ d 0 _ G1 (Rplus_le_le_0_compat _ _ (proj1 TB) (proj1 TB)) C3 Hd Z0 E5 NN) as C4.
    eapply close_weaken; [| |exact C4].
    + replace (6 * S q)%nat with (5 + 6 * q + 1)%nat by lia. rewrite !pow_add, pow_1. lra.
    + rewrite basis_slack_S. lra.
Qed.
