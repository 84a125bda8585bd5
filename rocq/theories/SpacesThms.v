(* Lemmas closing the theorems of P_ParamSpace.v. *)
From Coq Require Import ZArith List Bool Lia Reals Lra Permutation Floats.
From Verif Require Import Base BaseFacts KnotVec KnotVecSpec KnotVecFacts KnotVecThms Basis BasisSpec
  RSum BSplineTheory BasisFacts BasisThms Spaces SpacesSpec SpacesFacts.
Import ListNotations.
Open Scope Z_scope.

Lemma check_clamped_neg dz kv p : p < 0 -> check_clamped (F := Rops dz) kv p = Ok tt.
Proof.
  intros Hp. unfold check_clamped. rnorm. destruct (Z.ltb_spec (zlen kv) (2 * p + 2)) as [H|H].
  - pose proof (zlen_nonneg kv). lia.
  - replace (Z.to_nat p) with 0%nat by lia. reflexivity.
Qed.

Lemma create_all_neg dz kv p : p < 0 -> kv <> [] -> create_all (F := Rops dz) kv p = Throw RuntimeError.
Proof.
  intros Hp Hk. unfold create_all. rnorm. pose proof (zlen_nonneg kv).
  destruct (Z.ltb_spec (zlen kv - p - 1) 0); [lia|].
  destruct (Z.to_nat (zlen kv - p - 1)) eqn:E.
  - destruct kv; [contradiction|]. unfold zlen in *; cbn [length] in *. lia.
  - cbn [zseq mapM]. unfold create_dynamic at 1. destruct (Z.ltb_spec p 0); [reflexivity | lia].
Qed.

Lemma ps_new_inv dz knots degs p : length knots = length degs -> Forall (fun kv => kv <> []) knots ->
  ps_new (F := Rops dz) knots degs = Ok p ->
  p = mkps dz knots degs /\ Forall2 (fun kv q => 0 <= q /\ clamped kv q) knots degs.
Proof.
  intros Hl Hne H.
  assert (Hpos : Forall (fun q => 0 <= q) degs).
  { unfold ps_new in H. apply bind_Ok in H as (x & E1 & H). apply bind_Ok in H as (b & E2 & H). clear - Hl Hne E2.
    unfold create_bases in E2. revert degs b Hl E2. induction knots as [|kv knots IH]; intros [|q degs] b Hl E2; cbn in Hl; try lia; constructor.
    - cbn [combine mapM fst snd] in E2. apply bind_Ok in E2 as (c & Ec & _). inversion Hne; subst.
      destruct (Z_lt_dec q 0); [|lia]. rewrite create_all_neg in Ec by auto. discriminate.
    - cbn [combine mapM fst snd] in E2. apply bind_Ok in E2 as (c & Ec & E2). apply bind_Ok in E2 as (c2 & Ec2 & E2).
      inversion Hne; subst. eapply IH; eauto. }
  assert (Hdec : {Forall2 (fun kv q => 0 <= q /\ clamped kv q) knots degs} + {~ Forall2 (fun kv q => 0 <= q /\ clamped kv q) knots degs}).
  { clear - dz Hl. revert degs Hl. induction knots as [|kv knots IH]; intros [|q degs] Hl; cbn in Hl; try lia.
    - left; constructor.
    - assert (Hl' : length knots = length degs) by (now inversion Hl).
      destruct (IH degs Hl') as [H|H]; [|right; intros C; inversion C; contradiction].
      destruct (Z_le_dec 0 q); [|right; intros C; inversion C; subst; tauto].
      destruct (clamped_dec dz kv q); [left; constructor; auto | right; intros C; inversion C; subst; tauto]. }
  destruct Hdec as [Hc|Hc].
  - split; auto. rewrite ps_new_ok in H by auto. congruence.
  - rewrite ps_new_throw in H by auto. discriminate.
Qed.

Lemma check_total dz kv q :
  check_clamped (F := Rops dz) kv q = Ok tt \/ check_clamped (F := Rops dz) kv q = Throw RuntimeError.
Proof.
  destruct (Z_lt_dec q 0); [left; now apply check_clamped_neg|].
  destruct (check_clamped_spec dz kv q ltac:(lia)) as [H1 H2].
  destruct (clamped_dec dz kv q); auto.
Qed.

Lemma check_all_total dz (l : list (list R * Z)) :
  foldM (fun (_ : unit) kp => check_clamped (F := Rops dz) (fst kp) (snd kp)) l tt = Throw RuntimeError \/
  (foldM (fun (_ : unit) kp => check_clamped (F := Rops dz) (fst kp) (snd kp)) l tt = Ok tt /\
   Forall (fun kp => check_clamped (F := Rops dz) (fst kp) (snd kp) = Ok tt) l).
Proof.
  induction l as [|[kv q] l IH]; cbn [foldM fst snd]; [right; auto|].
  destruct (check_total dz kv q) as [E|E]; rewrite E; cbn [bind]; auto.
  destruct IH as [IH|[IH1 IH2]]; auto.
Qed.

Lemma create_bases_total dz knots degs : length knots = length degs -> Forall (fun kv => kv <> []) knots ->
  Forall (fun kp => check_clamped (F := Rops dz) (fst kp) (snd kp) = Ok tt) (combine knots degs) ->
  ~ Forall (fun q => 0 <= q) degs ->
  create_bases (F := Rops dz) knots degs = Throw RuntimeError.
Proof.
  unfold create_bases. revert degs. induction knots as [|kv knots IH]; intros [|q degs] Hl Hne Hc Hd; try discriminate.
  - exfalso; apply Hd; constructor.
  - inversion Hne; subst. cbn [combine] in *. inversion Hc; subst. cbn [mapM fst snd] in *.
    destruct (Z_lt_dec q 0) as [Hq|Hq].
    + rewrite create_all_neg by auto. reflexivity.
    + assert (Hcl : clamped kv q).
      { destruct (clamped_dec dz kv q) as [C|C]; auto.
        rewrite (proj2 (check_clamped_spec dz kv q ltac:(lia)) C) in H3. discriminate. }
      rewrite create_all_ok; [|lia | destruct Hcl as [Hc1 _]; rnorm; unfold zlen; lia]. cbn [bind]. rnorm. rewrite IH; auto.
      intros X. apply Hd. constructor; auto. lia.
Qed.

Lemma constructor_iff : forall dz knots degs,
  length knots = length degs -> Forall (fun kv => kv <> []) knots ->
  (Forall2 (fun kv p => 0 <= p /\ clamped kv p) knots degs ->
     exists ps, ps_new (F := Rops dz) knots degs = Ok ps /\ ps_knots ps = knots /\ ps_degs ps = degs /\
       Forall2 (fun fs kp => zlen fs = zlen (fst kp) - snd kp - 1 /\
                  forall i, 0 <= i < zlen fs ->
                    vget fs i = create_dynamic (F := Rops dz) (fst kp) i (snd kp)) (ps_bfs ps) (combine knots degs)) /\
  (~ Forall2 (fun kv p => 0 <= p /\ clamped kv p) knots degs ->
     ps_new (F := Rops dz) knots degs = Throw RuntimeError).
Proof.
  intros dz knots degs Hl Hne. split.
  - intros H. exists (mkps dz knots degs). split; [now apply ps_new_ok|].
    split; [reflexivity|]. split; [reflexivity|]. cbn [ps_bfs mkps].
    clear Hl Hne. induction H as [|kv p knots degs [H1 [H2 H3]] H IH]; cbn [map2 combine]; constructor; auto.
    cbn [fst snd]. assert (E : zlen (mkbfs dz kv p) = zlen kv - p - 1).
    { unfold zlen at 1. rewrite mkbfs_length. zl. }
    split; [exact E|]. intros i Hi.
    rewrite mkbfs_get by zl. symmetry. apply create_dynamic_ok; zl.
  - intros H.
    destruct (Forall_dec (fun q => 0 <= q) (fun q => Z_le_dec 0 q) degs) as [Hd|Hd]; [now apply ps_new_throw|].
    unfold ps_new. rnorm. destruct (check_all_total dz (combine knots degs)) as [E|[E1 E2]].
    + rnorm; rewrite E. reflexivity.
    + rnorm; rewrite E1. cbn [bind]. rewrite create_bases_total; auto.
Qed.

Lemma partition_unity_thm : forall dz knots degs ps d u kv p,
  length knots = length degs -> Forall (fun kv => kv <> []) knots ->
  ps_new (F := Rops dz) knots degs = Ok ps ->
  nth_error knots d = Some kv -> nth_error degs d = Some p ->
  nondecreasing kv -> separated kv -> (first_knot kv < final_knot kv)%R ->
  (first_knot kv <= u <= final_knot kv)%R ->
  exists vs, eval_all_nonzero ps d u = Ok vs /\ zlen vs = p + 1 /\ fold_right Rplus 0%R vs = 1%R.
Proof.
  intros dz knots degs ps d u kv p Hl Hne Hps Hk Hd Hn Hs Hr Hu.
  apply ps_new_inv in Hps as [-> Hc]; auto.
  assert (Hg : good_direction kv p).
  { assert (X : 0 <= p /\ clamped kv p).
    { clear - Hc Hk Hd. revert d Hk Hd. induction Hc as [|a b l1 l2 Hab _ IH]; intros [|d] Hk Hd; cbn in *; try discriminate; eauto.
      inversion Hk; inversion Hd; now subst. }
    destruct X. repeat split; auto; apply H0; auto. }
  destruct (partition_unity dz knots degs d u kv p Hk Hd Hg Hu) as (vs & E1 & E2 & E3).
  exists vs. split; auto. split; auto. rewrite <- E3. clear. induction vs as [|v vs IH]; cbn; auto. now rewrite IH.
Qed.

Lemma increment_all_thm : forall dz knots degs ps d kv,
  length knots = length degs -> Forall (fun kv => kv <> []) knots ->
  ps_new (F := Rops dz) knots degs = Ok ps -> nth_error knots d = Some kv -> nondecreasing kv ->
  exists ps' kv', ps_increment_all ps d = Ok ps' /\
    ps_knots ps' = upd knots d kv' /\ ps_degs ps' = degs /\
    create_bases (ps_knots ps') degs = Ok (ps_bfs ps') /\ nondecreasing kv' /\
    forall x, occurrences kv' x = (occurrences kv x + if in_dec Req_EM_T x kv then 1 else 0)%nat.
Proof.
  intros dz knots degs ps d kv Hl Hne Hps Hk Hn.
  apply ps_new_inv in Hps as [-> Hc]; auto.
  assert (Hlens : lens_ok knots degs).
  { unfold lens_ok. clear - Hc. induction Hc as [|a b l1 l2 [H1 [H2 _]] _ IH]; constructor; auto. zl. }
  destruct (nth_error degs d) as [p|] eqn:Hd.
  2:{ apply nth_error_None in Hd. assert (d < length knots)%nat by (apply nth_error_Some; congruence). lia. }
  destruct (increment_all dz knots degs d kv p Hk Hd Hlens Hn) as (kv' & E & Hn' & Hocc).
  exists (mkps dz (upd knots d kv') degs), kv'. repeat split; auto. apply create_bases_ok.
  eapply lens_ok_upd; eauto.
  destruct (lens_ok_nth _ _ _ _ _ Hlens Hk Hd) as [Hp Hlen].
  assert (Hlen' : (length kv <= length kv')%nat).
  { clear - Hocc. revert kv' Hocc. 
    intros kv' Hocc.
    assert (X : forall l l' : list R, (forall x, occurrences l x <= occurrences l' x)%nat -> (length l <= length l')%nat).
    { clear. induction l as [|a l IH]; intros l' H; cbn [length]; [lia|].
      assert (Ha : In a l').
      { apply (count_occ_In Req_EM_T). specialize (H a). unfold occurrences in H. cbn [count_occ] in H.
        destruct (Req_EM_T a a); [lia | congruence]. }
      apply in_split in Ha as (l1 & l2 & ->). rewrite app_length. cbn [length].
      specialize (IH (l1 ++ l2)). rewrite app_length in IH. assert (length l <= length l1 + length l2)%nat; [|lia].
      apply IH. intros x. specialize (H x). unfold occurrences in *. rewrite count_occ_app in *. cbn [count_occ] in H.
      destruct (Req_EM_T a x); lia. }
    apply X. intros x. rewrite Hocc. lia. }
  zl.
Qed.

Lemma decrement_all_thm : forall dz knots degs ps d kv p,
  length knots = length degs -> Forall (fun kv => kv <> []) knots ->
  ps_new (F := Rops dz) knots degs = Ok ps -> nth_error knots d = Some kv -> nth_error degs d = Some p ->
  nondecreasing kv -> separated kv -> p + 1 + Z.of_nat (distinct_values kv) <= Z.of_nat (length kv) ->
  exists ps' kv', ps_decrement_all ps d = Ok ps' /\
    ps_knots ps' = upd knots d kv' /\ ps_degs ps' = degs /\ nondecreasing kv' /\
    forall x, occurrences kv x = (occurrences kv' x + if in_dec Req_EM_T x kv then 1 else 0)%nat.
Proof.
  intros dz knots degs ps d kv p Hl Hne Hps Hk Hd Hn Hs Hcnt.
  apply ps_new_inv in Hps as [-> Hc]; auto.
  assert (Hlens : lens_ok knots degs).
  { unfold lens_ok. clear - Hc. induction Hc as [|a b l1 l2 [H1 [H2 _]] _ IH]; constructor; auto. zl. }
  destruct (decrement_all dz knots degs d kv p Hk Hd Hlens Hn Hs Hcnt) as (kv' & E & Hn' & Hocc).
  exists (mkps dz (upd knots d kv') degs), kv'. repeat split; auto.
Qed.

(* ---- knots closer than the tolerance ---- *)
Definition close_kv : list float := [0; 0; 0x1p-52; 1; 1]%float.

Lemma close_knots_run :
  match ps_new (F := Fops) [close_kv] [1] with
  | Ok ps => match throw_if_outside ps [0x1p-53%float] with
             | Ok _ => match eval_all_nonzero ps 0 (0x1p-53%float : Fops) with
                       | Ok vs => PrimFloat.eqb (fold_right PrimFloat.add 0%float vs) 0
                       | _ => false end
             | _ => false end
  | _ => false end = true.
Proof. vm_compute. reflexivity. Qed.

Lemma close_knots : exists (kv : list float) (u : float) ps vs,
  (forall i a b, nth_error kv i = Some a -> nth_error kv (S i) = Some b -> PrimFloat.leb a b = true) /\
  (PrimFloat.leb 0 u = true /\ PrimFloat.leb u 1 = true) /\
  kv = [0; 0; 0x1p-52; 1; 1]%float /\
  ps_new (F := Fops) [kv] [1] = Ok ps /\
  throw_if_outside ps [u] = Ok tt /\
  eval_all_nonzero ps 0 u = Ok vs /\ PrimFloat.eqb (fold_right PrimFloat.add 0%float vs) 0 = true.
Proof.
  pose proof close_knots_run as H.
  destruct (ps_new (F := Fops) [close_kv] [1]) as [ps| |] eqn:E1; try discriminate H.
  destruct (throw_if_outside ps [0x1p-53%float]) as [[]| |] eqn:E2; try discriminate H.
  destruct (eval_all_nonzero ps 0 (0x1p-53%float : Fops)) as [vs| |] eqn:E3; try discriminate H.
  exists close_kv, 0x1p-53%float, ps, vs.
  split; [|split; [split; vm_compute; reflexivity|]].
  - intros [|[|[|[|[|i]]]]] a b Ha Hb; cbn in *; inversion Ha; inversion Hb; subst; try reflexivity.
  - split; [reflexivity|]. auto.
Qed.

(* ---- concrete cases ---- *)
Definition ex_knots : list (list R) := [[0; 0; 0; 1; 2; 2; 2]; [0; 0; 1; 1]]%R.
Definition ex_degs : list Z := [2; 1].

Lemma ex_ctor : length ex_knots = length ex_degs /\ Forall (fun kv => kv <> []) ex_knots /\
  Forall2 (fun kv p => 0 <= p /\ clamped kv p) ex_knots ex_degs.
Proof.
  split; [reflexivity|]. split; [repeat constructor; discriminate|].
  constructor; [|constructor; [|constructor]].
  - split; [lia|]. split; [cbn; lia|]. intros [|[|[|j]]] Hj; try lia; cbn; auto.
  - split; [lia|]. split; [cbn; lia|]. intros [|[|j]] Hj; try lia; cbn; auto.
Qed.

Lemma ex_ctor_bad : length [[0; 0; 1; 2]%R] = length [1] /\
  ~ Forall2 (fun kv p => 0 <= p /\ clamped kv p) [[0; 0; 1; 2]%R] [1].
Proof.
  split; [reflexivity|]. intros H. inversion H as [|? ? ? ? [_ [_ H1]] _]; subst.
  destruct (H1 1%nat ltac:(lia)) as [_ C]. cbn in C. lra.
Qed.

Lemma ex_pou : exists ps, ps_new (F := Rops (fun x => x)) ex_knots ex_degs = Ok ps /\
  nth_error ex_knots 0 = Some [0; 0; 0; 1; 2; 2; 2]%R /\ nth_error ex_degs 0 = Some 2 /\
  nondecreasing [0; 0; 0; 1; 2; 2; 2]%R /\ separated [0; 0; 0; 1; 2; 2; 2]%R /\
  (first_knot [0; 0; 0; 1; 2; 2; 2] < final_knot [0; 0; 0; 1; 2; 2; 2])%R /\
  (first_knot [0; 0; 0; 1; 2; 2; 2] <= 1.5 <= final_knot [0; 0; 0; 1; 2; 2; 2])%R /\
  2 + 1 + Z.of_nat (distinct_values [0; 0; 0; 1; 2; 2; 2]%R) <= 7.
Proof.
  destruct ex_ctor as (H1 & H2 & H3).
  destruct (proj1 (constructor_iff (fun x => x) _ _ H1 H2) H3) as (ps & E & _).
  exists ps. split; [exact E|]. split; [reflexivity|]. split; [reflexivity|].
  split; [nondec|]. split; [sepsolve|]. split; [cbn; lra|]. split; [cbn; lra|].
  unfold distinct_values. cbn [nodup].
  repeat match goal with |- context [in_dec Req_EM_T ?a ?l] =>
      let H := fresh in
      destruct (in_dec Req_EM_T a l) as [H|H];
      [try (exfalso; repeat (destruct H as [H|H]; [lra|]); exact H); clear H
      |try (exfalso; apply H; cbn; tauto); clear H] end; cbn [length]; lia.
Qed.
