(* The derivatives of the basis functions evaluated in doubles against their exact values. *)
From Coq Require Import ZArith List Bool Lia Reals Floats Lra Psatz.
From Verif Require Import Base BaseFacts KnotVec KnotVecSpec KnotVecFacts Basis BasisFacts RSum BSplineTheory SpacesSpec
  DoubleSpec DoubleFacts DoubleError DoubleKnots DoubleBasis DoubleDerivSpec.
Import ListNotations.
Open Scope Z_scope.

(* x approximates X, which is at most G, with an error that is small compared to G *)
Definition near (f G x X : R) : Prop := (Rabs X <= G /\ Rabs (x - X) <= (f - 1) * G)%R.

Lemma near_upper f G x X : near f G x X -> (Rabs x <= f * G)%R.
Proof.
  intros [A B]. replace x with ((x - X) + X)%R by ring. eapply Rle_trans; [apply Rabs_triang|]. lra.
Qed.
Lemma near_weaken f g G H x X : (1 <= f <= g)%R -> (0 <= G <= H)%R -> near f G x X -> near g H x X.
Proof. intros Hf HG [A B]. split; [lra|]. eapply Rle_trans; [exact B|]. apply Rmult_le_compat; lra. Qed.
Lemma near_mul f g G H x X y Y : (1 <= f)%R -> (1 <= g)%R -> (0 <= G)%R -> (0 <= H)%R ->
  near f G x X -> near g H y Y -> near (f * g) (G * H) (x * y) (X * Y).
Proof.
  intros Hf Hg HG HH Cx Cy. pose proof (near_upper _ _ _ _ Cx) as Ux. destruct Cx as [A B], Cy as [C D]. split.
  - rewrite Rabs_mult. apply Rmult_le_compat; auto using Rabs_pos.
  - replace (x * y - X * Y)%R with (x * (y - Y) + (x - X) * Y)%R by ring.
    eapply Rle_trans; [apply Rabs_triang|]. rewrite !Rabs_mult.
    assert (Rabs x * Rabs (y - Y) <= (f * G) * ((g - 1) * H))%R by (apply Rmult_le_compat; auto using Rabs_pos).
    assert (Rabs (x - X) * Rabs Y <= ((f - 1) * G) * H)%R by (apply Rmult_le_compat; auto using Rabs_pos).
    lra.
Qed.
Lemma near_sub f G H x X y Y : near f G x X -> near f H y Y -> near f (G + H) (x - y) (X - Y).
Proof.
  intros [A B] [C D]. split.
  - unfold Rminus. eapply Rle_trans; [apply Rabs_triang|]. rewrite Rabs_Ropp. lra.
  - replace (x - y - (X - Y))%R with ((x - X) + - (y - Y))%R by ring. eapply Rle_trans; [apply Rabs_triang|]. rewrite Rabs_Ropp. lra.
Qed.
Lemma near_add f G H x X y Y : near f G x X -> near f H y Y -> near f (G + H) (x + y) (X + Y).
Proof.
  intros [A B] [C D]. split.
  - eapply Rle_trans; [apply Rabs_triang|]. lra.
  - replace (x + y - (X + Y))%R with ((x - X) + (y - Y))%R by ring. eapply Rle_trans; [apply Rabs_triang|]. lra.
Qed.
Lemma underflow_roundoff : (underflow <= roundoff)%R.
Proof. unfold underflow, roundoff. apply Rinv_le_contravar; [apply pow_lt; lra | apply pow2_le; lia]. Qed.
Lemma near_round f G x X : (1 <= f)%R -> (1 <= G)%R -> near f G x X -> near (f * phi ^ 2) G (rnd x) X.
Proof.
  intros Hf HG C. pose proof (near_upper _ _ _ _ C) as U. destruct C as [A B]. split; [exact A|].
  destruct (rnd_error x) as (d & h & Hd & Hh & E). rewrite E.
  replace (x * (1 + d) + h - X)%R with ((x - X) + (x * d + h))%R by ring.
  eapply Rle_trans; [apply Rabs_triang|].
  assert (Rabs (x * d + h) <= 2 * roundoff * f * G)%R.
  { eapply Rle_trans; [apply Rabs_triang|]. rewrite Rabs_mult.
    assert (Rabs x * Rabs d <= (f * G) * roundoff)%R by (apply Rmult_le_compat; auto using Rabs_pos).
    pose proof underflow_roundoff. pose proof roundoff_pos.
    assert (roundoff * 1 <= roundoff * (f * G))%R by (apply Rmult_le_compat_l; [lra | nra]). lra. }
  pose proof phi_ge1 as P. pose proof roundoff_pos as Rp.
  assert (1 + 2 * roundoff <= phi ^ 2)%R by (cbn [pow]; nra).
  assert (f * (1 + 2 * roundoff) * G <= f * phi ^ 2 * G)%R by (apply Rmult_le_compat_r; [lra|]; apply Rmult_le_compat_l; lra).
  lra.
Qed.
Lemma near_exact x G : (Rabs x <= G)%R -> near 1 G x x.
Proof. intros H. split; [exact H|]. replace (x - x)%R with 0%R by ring. rewrite Rabs_R0. lra. Qed.

(* one multiplication, subtraction and addition of doubles *)
Lemma near_fmul f g G H x X y Y : (1 <= f)%R -> (1 <= g)%R -> (0 <= G)%R -> (0 <= H)%R -> (1 <= G * H)%R -> (f * g * (G * H) <= 2 ^ 1023)%R ->
  finite x -> finite y -> near f G (dval x) X -> near g H (dval y) Y ->
  finite (x * y)%float /\ near (f * g * phi ^ 2) (G * H) (dval (x * y)%float) (X * Y).
Proof.
  intros Hf Hg HG HH H1 HB Fx Fy Cx Cy. pose proof (near_mul f g G H _ X _ Y Hf Hg HG HH Cx Cy) as C.
  destruct (mul_exact x y Fx Fy) as [Fz Ez]; [eapply Rle_trans; [exact (near_upper _ _ _ _ C) | exact HB]|].
  split; [exact Fz|]. rewrite Ez. apply near_round; [nra | exact H1 | exact C].
Qed.
Lemma near_fsub f G H x X y Y : (1 <= f)%R -> (1 <= G + H)%R -> (f * (G + H) <= 2 ^ 1023)%R ->
  finite x -> finite y -> near f G (dval x) X -> near f H (dval y) Y ->
  finite (x - y)%float /\ near (f * phi ^ 2) (G + H) (dval (x - y)%float) (X - Y).
Proof.
  intros Hf H1 HB Fx Fy Cx Cy. pose proof (near_sub f G H _ X _ Y Cx Cy) as C.
  destruct (sub_exact x y Fx Fy) as [Fz Ez]; [eapply Rle_trans; [exact (near_upper _ _ _ _ C) | exact HB]|].
  split; [exact Fz|]. rewrite Ez. apply near_round; auto.
Qed.
Lemma near_fadd f G H x X y Y : (1 <= f)%R -> (1 <= G + H)%R -> (f * (G + H) <= 2 ^ 1023)%R ->
  finite x -> finite y -> near f G (dval x) X -> near f H (dval y) Y ->
  finite (x + y)%float /\ near (f * phi ^ 2) (G + H) (dval (x + y)%float) (X + Y).
Proof.
  intros Hf H1 HB Fx Fy Cx Cy. pose proof (near_add f G H _ X _ Y Cx Cy) as C.
  destruct (add_exact x y Fx Fy) as [Fz Ez]; [eapply Rle_trans; [exact (near_upper _ _ _ _ C) | exact HB]|].
  split; [exact Fz|]. rewrite Ez. apply near_round; auto.
Qed.

(* the inverse of a knot difference *)
Lemma inverse_near dz r t h : moderate r -> moderate t -> (0 < h)%R ->
  (dval r = dval t \/ (tolerance <= dval r - dval t /\ h <= dval r - dval t))%R ->
  finite (inverse_or_zero (F := Fops) (r - t)%float) /\
  near (phi ^ 2) (/ h) (dval (inverse_or_zero (F := Fops) (r - t)%float)) (inverse_or_zero (F := Rops dz) (dval r - dval t)%R).
Proof.
  intros Mr Mt Hh H. pose proof tolerance_pos as Tp. pose proof phi_gt as Pg. rewrite inverse_or_zero_R.
  assert (I0 : (0 < / h)%R) by (now apply Rinv_0_lt_compat).
  destruct H as [H|[H1 H2]].
  - rewrite (inverse_same r t Mr Mt H). split; [apply zero_exact|]. rewrite (proj2 zero_exact).
    replace (dval r - dval t)%R with 0%R by lra. rewrite Rabs_R0. destruct (Rlt_dec 0 tolerance) as [_|C]; [|lra].
    split; [rewrite Rabs_R0; lra|]. replace (0 - 0)%R with 0%R by ring. rewrite Rabs_R0. apply Rmult_le_pos; [nra | lra].
  - destruct (inverse_close r t Mr Mt H1) as (FI & _ & WI). split; [exact FI|].
    rewrite (Rabs_right (dval r - dval t)) by lra. destruct (Rlt_dec _ _) as [C|_]; [lra|].
    set (D := (dval r - dval t)%R) in *. assert (ID : (0 < / D)%R) by (apply Rinv_0_lt_compat; lra).
    assert (IH : (/ D <= / h)%R) by (apply Rinv_le_contravar; lra).
    split; [rewrite Rabs_right; lra|]. assert (PP : (1 <= phi * phi)%R) by nra.
    destruct (within_close _ _ _ PP WI) as (_ & _ & C).
    eapply Rle_trans; [exact C|]. replace (phi ^ 2)%R with (phi * phi)%R by ring. rewrite Rplus_0_r.
    apply Rmult_le_compat_l; [nra | lra].
Qed.

(* one step of the recursion *)
Lemma deriv_step dz (p : nat) r t r' t' l L x X h G f : (1 <= p <= 500)%nat ->
  moderate r -> moderate t -> moderate r' -> moderate t' -> (0 < h <= 1)%R -> (1 <= G)%R ->
  (dval r = dval t \/ (tolerance <= dval r - dval t /\ h <= dval r - dval t))%R ->
  (dval r' = dval t' \/ (tolerance <= dval r' - dval t' /\ h <= dval r' - dval t'))%R ->
  finite l -> near f G (dval l) L -> finite x -> near f G (dval x) X -> (1 <= f)%R ->
  (f * phi ^ 8 <= 4 / 3)%R -> (2 * INR p / h * G <= 2 ^ 900)%R ->
  let v := (float_of_Z (Z.of_nat p) * (inverse_or_zero (F := Fops) (r - t)%float * l - inverse_or_zero (F := Fops) (r' - t')%float * x))%float in
  finite v /\ near (f * phi ^ 8) (2 * INR p / h * G) (dval v)
    (INR p * (inverse_or_zero (F := Rops dz) (dval r - dval t)%R * L - inverse_or_zero (F := Rops dz) (dval r' - dval t')%R * X)).
Proof.
  intros Hp Mr Mt Mr' Mt' Hh HG D D' Fl Cl Fx Cx Hf Hf4 HB v.
  destruct (inverse_near dz r t h Mr Mt (proj1 Hh) D) as [Fi Ci].
  destruct (inverse_near dz r' t' h Mr' Mt' (proj1 Hh) D') as [Fi' Ci'].
  unfold v. set (i := inverse_or_zero (F := Fops) (r - t)%float) in *. set (i' := inverse_or_zero (F := Fops) (r' - t')%float) in *.
  set (I := inverse_or_zero (F := Rops dz) (dval r - dval t)%R) in *. set (I' := inverse_or_zero (F := Rops dz) (dval r' - dval t')%R) in *.
  clearbody i i' I I'. change float in (type of i). change float in (type of i'). change R in (type of I). change R in (type of I').
  assert (H1 : (1 <= / h)%R) by (rewrite <- Rinv_1; apply Rinv_le_contravar; lra).
  assert (P1 : (1 <= INR p)%R) by (replace 1%R with (INR 1) by reflexivity; apply le_INR; lia).
  pose proof phi_gt as Pg. assert (Pk : forall k, (1 <= phi ^ k)%R) by (intros; apply phi_pow_ge).
  assert (HG2 : (1 <= / h * G)%R) by nra.
  assert (E2 : (2 * INR p / h * G = INR p * (/ h * G + / h * G))%R) by (unfold Rdiv; ring).
  rewrite E2 in *.
  assert (B1 : (/ h * G + / h * G <= INR p * (/ h * G + / h * G))%R).
  { rewrite <- (Rmult_1_l (/ h * G + / h * G)) at 1. apply Rmult_le_compat_r; lra. }
  assert (Big : (4 / 3 * 2 ^ 900 <= 2 ^ 1023)%R).
  { replace 1023%nat with (1 + 1022)%nat by lia. rewrite pow_add, pow_1. pose proof (pow2_le 900 1022 ltac:(lia)). pose proof (pow2_ge1 900).
    revert H H0. generalize (2 ^ 900)%R (2 ^ 1022)%R. intros. lra. }
  assert (Cap : forall g K, (1 <= g)%R -> (g <= f * phi ^ 8)%R -> (0 <= K <= INR p * (/ h * G + / h * G))%R -> (g * K <= 2 ^ 1023)%R).
  { intros g K Hg Hg8 HK. eapply Rle_trans; [|exact Big]. apply Rmult_le_compat; lra. }
  assert (Mono : forall k, (k <= 8)%nat -> (f * phi ^ k <= f * phi ^ 8)%R).
  { intros k Hk. apply Rmult_le_compat_l; [lra|]. apply Rle_pow; [lra | lia]. }
  assert (M1 : forall k, (1 <= f * phi ^ k)%R) by (intros k; pose proof (Pk k); nra).
  destruct (near_fmul (phi ^ 2) f (/ h) G i I l L) as [F1 C1]; auto; try lra.
  { apply Cap; [pose proof (Pk 2%nat); nra | rewrite Rmult_comm; apply Mono; lia | split; [lra|]]. lra. }
  destruct (near_fmul (phi ^ 2) f (/ h) G i' I' x X) as [F2 C2]; auto; try lra.
  { apply Cap; [pose proof (Pk 2%nat); nra | rewrite Rmult_comm; apply Mono; lia | split; [lra|]]. lra. }
  replace (phi ^ 2 * f * phi ^ 2)%R with (f * phi ^ 4)%R in C1, C2 by ring.
  destruct (near_fsub (f * phi ^ 4) (/ h * G) (/ h * G) (i * l)%float (I * L) (i' * x)%float (I' * X)) as [F3 C3]; auto; try lra.
  { apply Cap; [apply M1 | apply Mono; lia | lra]. }
  replace (f * phi ^ 4 * phi ^ 2)%R with (f * phi ^ 6)%R in C3 by ring.
  destruct (of_Z_exact (Z.of_nat p)) as [Fp Ep]; [lia|].
  assert (Cp : near 1 (INR p) (dval (float_of_Z (Z.of_nat p))) (INR p)).
  { rewrite Ep, <- INR_IZR_INZ. apply near_exact. rewrite Rabs_right; lra. }
  destruct (near_fmul 1 (f * phi ^ 6) (INR p) (/ h * G + / h * G) (float_of_Z (Z.of_nat p)) (INR p) (i * l - i' * x)%float (I * L - I' * X)) as [F4 C4];
    auto; try lra.
  { rewrite Rmult_1_l. apply Cap; [apply M1 | apply Mono; lia | lra]. }
  split; [exact F4|]. replace (f * phi ^ 8)%R with (1 * (f * phi ^ 6) * phi ^ 2)%R by ring. exact C4.
Qed.

Lemma slack_roundoff p : (p <= 500)%nat -> (basis_slack p <= roundoff)%R.
Proof.
  intros H. unfold basis_slack, underflow, roundoff. replace 4%R with (2 ^ 2)%R by ring. rewrite <- pow_mult.
  apply (Rmult_le_reg_r (2 ^ 1075)); [apply pow_lt; lra|]. rewrite Rmult_assoc, Rinv_l, Rmult_1_r by (apply pow_nonzero; lra).
  replace 1075%nat with (53 + 1022)%nat by lia. rewrite (pow_add 2 53 1022), <- Rmult_assoc, Rinv_l, Rmult_1_l by (apply pow_nonzero; lra).
  apply pow2_le. lia.
Qed.

Lemma spaced_tk h kv i j : spaced h kv -> kv <> [] -> (tk kv i < tk kv j)%R -> (h <= tk kv j - tk kv i)%R.
Proof.
  intros H Hne Hlt. assert (N : (0 < length kv)%nat) by (destruct kv; [congruence | cbn; lia]).
  apply H; auto; unfold tk; apply nth_In; unfold zlen; lia.
Qed.

(* the derivative of the basis function objects *)
Lemma dbf_near dz kv k u h P : Forall moderate kv -> moderate u ->
  nondecreasing (map dval kv) -> separated (map dval kv) -> in_span (map dval kv) k (dval u) -> spaced h (map dval kv) -> (0 < h <= 1)%R ->
  (1 <= P <= 500)%nat -> forall m p i, 0 <= i -> i + Z.of_nat p + 1 < zlen kv -> (p <= P)%nat ->
  (phi ^ (6 * p + 2 * m + 1) <= 4 / 3)%R -> ((2 * INR P / h) ^ m <= 2 ^ 900)%R ->
  finite (bf_deriv (dbf kv i p) u (Z.of_nat m)) /\
  near (phi ^ (6 * p + 2 * m + 1)) ((2 * INR P / h) ^ m) (dval (bf_deriv (dbf kv i p) u (Z.of_nat m)))
    (bf_deriv (mkbf dz (map dval kv) i p) (dval u) (Z.of_nat m)).
Proof.
  intros Hk Hu Hn Hs Hsp Hh Hh1 HP. assert (Hne : kv <> []).
  { intros ->. destruct Hsp as (? & ? & _). unfold zlen in *; cbn in *; lia. }
  assert (P1 : (1 <= INR P)%R) by (replace 1%R with (INR 1) by reflexivity; apply le_INR; lia).
  assert (K2 : (2 <= 2 * INR P / h)%R).
  { unfold Rdiv. assert (1 <= / h)%R by (rewrite <- Rinv_1; apply Rinv_le_contravar; lra). nra. }
  pose proof phi_gt as Pg.
  assert (Zero : forall w n m, finite w -> dval w = 0%R -> finite w /\ near (phi ^ n) ((2 * INR P / h) ^ m) (dval w) 0).
  { intros w n m Fw Ew. split; [exact Fw|]. rewrite Ew. assert (0 <= (2 * INR P / h) ^ m)%R by (apply pow_le; lra).
    split; [rewrite Rabs_R0; lra|]. replace (0 - 0)%R with 0%R by ring. rewrite Rabs_R0. apply Rmult_le_pos; [pose proof (phi_pow_ge n); lra | lra]. }
  induction m as [|m IH]; intros p i H0 H1 Hp Hf HB.
  - change (Z.of_nat 0) with 0.
    assert (E0 : forall (b : bf Fops) x, bf_deriv b x 0 = bf_eval b x) by (intros []; reflexivity).
    rewrite E0, bf_deriv_0.
    destruct (dbf_close dz kv k p i u Hk Hu Hn Hs Hsp H0 H1 ltac:(lia)) as [Fb (A & _ & C)]. split; [exact Fb|].
    pose proof (bf_le_1 dz _ k p i (dval u) Hn Hs Hsp H0 ltac:(rewrite zlen_map; exact H1)) as L1.
    set (X := bf_eval (mkbf dz (map dval kv) i p) (dval u)) in *. change (num (Rops dz)) with R in (type of X).
    cbn [pow]. split; [rewrite Rabs_right; lra|]. eapply Rle_trans; [exact C|].
    pose proof (slack_roundoff p ltac:(lia)) as S. pose proof (phi_pow_ge (6 * p)) as Pp. pose proof phi_ge1 as Q.
    replace (6 * p + 2 * 0 + 1)%nat with (6 * p + 1)%nat by lia. rewrite pow_add, pow_1.
    assert (phi ^ (6 * p) * (1 + roundoff) <= phi ^ (6 * p) * phi)%R by (apply Rmult_le_compat_l; lra).
    pose proof roundoff_pos as Rp. assert (roundoff <= phi ^ (6 * p) * roundoff)%R by nra.
    assert ((phi ^ (6 * p) - 1) * X <= (phi ^ (6 * p) - 1) * 1)%R by (apply Rmult_le_compat_l; lra). lra.
  - assert (E1 : forall (b : bf Fops) x, bf_deriv b x (Z.of_nat (S m)) = match b with
       | BF0 _ _ _ => 0%float
       | BFS degree s e l ldi rdi lo_left lo_right =>
           if in_support s e l x
           then (float_of_Z degree * (ldi * bf_deriv lo_left x (Z.of_nat m) - rdi * bf_deriv lo_right x (Z.of_nat m)))%float
           else 0%float end).
    { intros b x. replace (Z.of_nat m) with (Z.of_nat (S m) - 1) by lia. destruct b; cbn [bf_deriv]; destruct (Z.eqb_spec (Z.of_nat (S m)) 0); try lia; reflexivity. }
    rewrite E1, bf_deriv_S by lia. replace (Z.of_nat (S m) - 1) with (Z.of_nat m) by lia.
    destruct p as [|q]; [apply Zero; apply zero_exact|]. cbn [dbf mkbf].
    rewrite (support_exact dz kv i (i + Z.of_nat (S q) + 1) u Hk Hu Hne Hn Hs).
    destruct (in_support (F := Rops dz) _ _ _ _); [|apply Zero; apply zero_exact].
    assert (Bm : ((2 * INR P / h) ^ m <= 2 ^ 900)%R) by (eapply Rle_trans; [apply Rle_pow with (n := S m); [lra | lia] | exact HB]).
    assert (Fq : (phi ^ (6 * q + 2 * m + 1) <= 4 / 3)%R) by (eapply Rle_trans; [apply Rle_pow with (n := (6 * S q + 2 * S m + 1)%nat); [lra | lia] | exact Hf]).
    destruct (IH q i ltac:(lia) ltac:(lia) ltac:(lia) Fq Bm) as [FL CL].
    destruct (IH q (i + 1) ltac:(lia) ltac:(lia) ltac:(lia) Fq Bm) as [FR CR].
    assert (Dsep : forall a b, a <= b -> (dval (dkn kv b) = dval (dkn kv a) \/ (tolerance <= dval (dkn kv b) - dval (dkn kv a) /\ h <= dval (dkn kv b) - dval (dkn kv a)))%R).
    { intros a b Hab. rewrite !dk_val. pose proof (tk_monotone (map dval kv) Hn a b Hab).
      destruct (Req_EM_T (tk (map dval kv) b) (tk (map dval kv) a)) as [E|E]; [left; exact E | right].
      pose proof (separated_tk (map dval kv) a b Hs Hn ltac:(lra)).
      pose proof (spaced_tk h (map dval kv) a b Hh ltac:(intros C; apply map_eq_nil in C; auto) ltac:(lra)). split; lra. }
    pose proof (dk_moderate kv) as Mk.
    assert (SqP : (INR (S q) <= INR P)%R) by (apply le_INR; lia).
    assert (Sq0 : (0 < INR (S q))%R) by (apply lt_0_INR; lia).
    assert (Gm : (1 <= (2 * INR P / h) ^ m)%R) by (apply pow_R1_Rle; lra).
    assert (Kle : (2 * INR (S q) / h * (2 * INR P / h) ^ m <= (2 * INR P / h) ^ S m)%R).
    { rewrite <- tech_pow_Rmult. apply Rmult_le_compat_r; [lra|]. unfold Rdiv. apply Rmult_le_compat_r; [|lra].
      left; apply Rinv_0_lt_compat; lra. }
    assert (Ef : (phi ^ (6 * q + 2 * m + 1) * phi ^ 8 = phi ^ (6 * S q + 2 * S m + 1))%R) by (rewrite <- pow_add; f_equal; lia).
    destruct (deriv_step dz (S q) (dkn kv (i + Z.of_nat (S q))) (dkn kv i) (dkn kv (i + Z.of_nat (S q) + 1)) (dkn kv (i + 1))
        (bf_deriv (dbf kv i q) u (Z.of_nat m)) (bf_deriv (mkbf dz (map dval kv) i q) (dval u) (Z.of_nat m))
        (bf_deriv (dbf kv (i + 1) q) u (Z.of_nat m)) (bf_deriv (mkbf dz (map dval kv) (i + 1) q) (dval u) (Z.of_nat m))
        h ((2 * INR P / h) ^ m) (phi ^ (6 * q + 2 * m + 1))) as [FV CV]; auto; try lia; try lra.
    + apply Dsep; lia.
    + apply Dsep; lia.
    + apply phi_pow_ge.
    + split; [exact FV|]. rewrite Ef in CV. rewrite !dk_val in CV. rewrite <- INR_IZR_INZ.
      eapply near_weaken; [split; [apply phi_pow_ge | apply Rle_refl] | split; [|exact Kle] | exact CV].
      apply Rmult_le_pos; [|lra]. unfold Rdiv. apply Rmult_le_pos; [lra|]. left; apply Rinv_0_lt_compat; lra.
Qed.
