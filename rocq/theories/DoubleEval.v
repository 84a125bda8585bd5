(* Construction and evaluation of B-splines in doubles. *)
From Coq Require Import ZArith List Bool Lia Reals Floats Lra Psatz.
From Verif Require Import Base BaseFacts RSum MultiIndex MultiIndexSpec MultiIndexFacts TensorSum
  KnotVec KnotVecSpec KnotVecFacts Basis BasisSpec BSplineTheory BasisFacts
  Spaces SpacesSpec SpacesFacts SplineEval SplineSpec EvalFacts RationalDeriv EvalDeriv EvalThms SplineNew
  DoubleSpec DoubleFacts DoubleError DoubleKnots DoubleBasis DoubleSum.
Import ListNotations.
Open Scope Z_scope.

(* ---- construction ---- *)
Lemma check_clamped_exact dz (kv : list float) p : Forall finite kv -> 0 <= p -> kv <> [] ->
  check_clamped (F := Fops) kv p = check_clamped (F := Rops dz) (map dval kv) p.
Proof.
  intros Hf Hp Hne. unfold check_clamped. change (num Fops) with float. change (num (Rops dz)) with R. rewrite (zlen_map dval kv).
  destruct (Z.ltb_spec (zlen kv) (2 * p + 2)) as [C|C]; [reflexivity|].
  assert (G : forall i, get_knot (F := Rops dz) (map dval kv) i =
     match get_knot (F := Fops) kv i with Ok a => Ok (dval a) | Throw e => Throw e | UB => UB end) by (intros; apply vget_map).
  assert (FG : forall i a, get_knot (F := Fops) kv i = Ok a -> finite a) by (intros i a; apply vget_Forall; exact Hf).
  assert (GL : last_knot (F := Rops dz) (map dval kv) =
     match last_knot (F := Fops) kv with Ok a => Ok (dval a) | Throw e => Throw e | UB => UB end).
  { unfold last_knot. change (num (Rops dz)) with R. change (num Fops) with float. rewrite zlen_map. apply vget_map. }
  assert (E : forall m m' : Res float, (forall a, m = Ok a -> finite a) -> (forall a, m' = Ok a -> finite a) ->
     (a <- m ;; b <- m' ;; if (a =? b)%float then Ok tt else Throw RuntimeError) =
     (a <- match m with Ok a => Ok (dval a) | Throw e => Throw e | UB => UB end ;;
      b <- match m' with Ok a => Ok (dval a) | Throw e => Throw e | UB => UB end ;;
      if Reqb a b then Ok tt else Throw RuntimeError)).
  { intros [a| |] m' H H'; cbn [bind]; auto. destruct m' as [b| |]; cbn [bind]; auto. rewrite (eqb_exact a b) by auto. reflexivity. }
  assert (X : forall (f g : unit -> Z -> Res unit) l s, (forall s j, f s j = g s j) -> foldM f l s = foldM g l s).
  { intros f g l s Hfg. revert s. induction l as [|j l IH]; intros s; cbn [foldM]; auto. rewrite Hfg. destruct (g s j); cbn [bind]; auto. }
  f_equal.
  - apply X. intros _ j. rewrite !G. apply E; apply FG.
  - apply FunctionalExtensionality.functional_extensionality. intros _. apply X. intros _ j. rewrite G, GL. apply E; [|apply FG].
    intros a Ha. exact (vget_Forall finite kv _ a Hf Ha).
Qed.

Definition fmkps (knots : list (list float)) (degs : list Z) : pspace Fops :=
  mkPS (F := Fops) knots degs (map2 dbfs knots degs).

Lemma double_finite kv p : double_direction kv p -> Forall finite kv /\ kv <> [] /\ 0 <= p /\ 2 * p + 2 <= zlen kv.
Proof.
  intros [H (Hp & (Hc & _) & _)]. rewrite map_length in Hc. split; [|split].
  - eapply Forall_impl; [|exact H]. apply moderate_finite.
  - intros ->. cbn [length] in Hc. lia.
  - unfold zlen. lia.
Qed.

Lemma fps_new_ok knots degs : Forall2 double_direction knots degs -> ps_new (F := Fops) knots degs = Ok (fmkps knots degs).
Proof.
  intros H. unfold ps_new.
  assert (E : foldM (fun (_ : unit) (kp : list Fops * Z) => check_clamped (fst kp) (snd kp)) (combine knots degs) tt = Ok tt).
  { induction H as [|kv p knots degs Hd _ IH]; cbn [combine foldM fst snd]; auto.
    destruct (double_finite kv p Hd) as (A & B & C & D).
    rewrite (check_clamped_exact (fun _ => 0%R) kv p A C B). destruct Hd as [_ (Hp & Hc & _)].
    rewrite (proj1 (check_clamped_spec _ _ p Hp) Hc). cbn [bind]. exact IH. }
  change (num Fops) with float in *. rewrite E. cbn [bind].
  assert (E2 : create_bases (F := Fops) knots degs = Ok (map2 dbfs knots degs)).
  { clear E. unfold create_bases. induction H as [|kv p knots degs Hd _ IH]; cbn [combine mapM map2]; auto.
    destruct (double_finite kv p Hd) as (A & B & C & D). cbn [fst snd]. rewrite dcreate_all by lia. cbn [bind].
    change (num Fops) with float in *. rewrite IH. reflexivity. }
  change (num Fops) with float in *. rewrite E2. reflexivity.
Qed.

Lemma fphys_new_ok (cps : list (list float)) npts dim : Forall (fun cp => zlen cp = dim) cps -> cps <> [] ->
  zlen cps = total npts -> total npts < 2 ^ 64 ->
  phys_new (F := Fops) cps npts = Ok (mkPhys (F := Fops) dim npts (concat cps) None).
Proof.
  intros Hd Hne Hn Hb. unfold phys_new. destruct cps as [|cp cps]; [congruence|].
  assert (E0 : vget (cp :: cps) 0 = Ok cp) by reflexivity. change (num Fops) with float in *. rewrite E0. cbn [bind].
  assert (Ec : zlen cp = dim) by (now inversion Hd). rewrite Ec.
  unfold u64. rewrite Z.mod_small by (split; [unfold zlen in Hn; lia | auto]).
  replace (total npts =? zlen (cp :: cps)) with true by (symmetry; apply Z.eqb_eq; auto). cbn [negb].
  assert (G : forall l acc, Forall (fun cp : list float => zlen cp = dim) l ->
    foldM (fun acc cp => if zlen cp =? dim then Ok (acc ++ cp) else Throw RuntimeError) l acc = Ok (acc ++ concat l)).
  { intros l acc H. revert acc; induction H as [|c l Hc H IH]; intros acc; cbn [foldM concat]; [now rewrite app_nil_r|].
    rewrite Hc, Z.eqb_refl. cbn [bind]. rewrite IH, app_assoc. reflexivity. }
  rewrite (G (cp :: cps) []) by auto. reflexivity.
Qed.

Lemma fspline_new_ok (knots : list (list float)) degs (cps : list (list float)) dim :
  Forall2 double_direction knots degs -> Forall (fun cp => zlen cp = dim) cps ->
  zlen cps = total (point_counts knots degs) -> zlen cps < 2 ^ 64 ->
  spline_new (F := Fops) knots degs cps None =
    Ok (mkSpline (F := Fops) (fmkps knots degs) (mkPhys (F := Fops) dim (point_counts knots degs) (concat cps) None)).
Proof.
  intros Hd Hc Hn Hb. unfold spline_new. rewrite fps_new_ok by auto. cbn [bind].
  rewrite (map_combine (fun (kv : list float) p => zlen kv - p - 1)). fold (point_counts knots degs).
  rewrite (fphys_new_ok cps _ dim); auto.
  - intros ->. change (zlen (@nil (list float))) with 0 in Hn.
    assert (1 <= total (point_counts knots degs)); [|lia]. apply total_pos. unfold pos_lens, point_counts.
    clear - Hd. induction Hd as [|kv p knots degs H _ IH]; cbn [map2]; constructor; auto.
    destruct (double_finite kv p H) as (_ & _ & ? & ?). lia.
  - lia.
Qed.

(* ---- directions ---- *)
Lemma inside_moderate kv p u : double_direction kv p -> double_parameter kv u -> moderate u.
Proof.
  intros Hd [Fu [R1 R2]]. destruct (double_finite kv p Hd) as (_ & Hne & _). destruct Hd as [Mk _]. split; [exact Fu|].
  rewrite <- dlast_val in R2. pose proof (dlast_moderate kv Hne Mk) as [_ B2].
  assert (E : first_knot (map dval kv) = dval (nth 0 kv 0%float)).
  { unfold first_knot. rewrite <- (proj2 zero_exact). apply (map_nth dval). }
  rewrite E in R1. assert (I : In (nth 0 kv 0%float) kv) by (apply nth_In; destruct kv; [congruence | cbn [length]; lia]).
  rewrite Forall_forall in Mk. destruct (Mk _ I) as [_ B1]. unfold Rabs in *.
  destruct (Rcase_abs (dval u)), (Rcase_abs (dval (dlast kv))), (Rcase_abs (dval (nth 0 kv 0%float))); lra.
Qed.

Record fdir := mkFdir { fk : list float; fp : Z; fu : float; fsp : Z }.
Definition ex (d : fdir) : dir := mkDir (map dval (fk d)) (fp d) (dval (fu d)) (fsp d) 0.

Section Eval.
Context (dz : R -> R).

Definition good_fdir (d : fdir) : Prop :=
  Forall moderate (fk d) /\ moderate (fu d) /\ good_dir dz (ex d).

Lemma fdirections knots degs us : Forall2 double_direction knots degs -> Forall2 double_parameter knots us ->
  exists L, Forall good_fdir L /\ knots = map fk L /\ degs = map fp L /\ us = map fu L.
Proof.
  intros H. revert us. induction H as [|kv p knots degs Hd H IH]; intros us Hu.
  - inversion Hu; subst. exists []. repeat split; constructor.
  - inversion Hu as [|? u ? us' Pu H4]; subst. pose proof (inside_moderate kv p u Hd Pu) as Mu. destruct Pu as [_ Ru]. destruct (IH us' H4) as (L & HL & E1 & E2 & E3).
    destruct Hd as [Mk Hg]. destruct (eval_direction dz (map dval kv) p (dval u) Hg Ru) as (k & Ek & Hsp & Hk1 & Hk2).
    exists (mkFdir kv p u k :: L). cbn [map fk fp fu]. rewrite <- E1, <- E2, <- E3. split; [|auto].
    constructor; auto. split; [exact Mk|]. split; [exact Mu|]. split; [exact Hg|].
    exact (conj Hsp (conj (conj Hk1 Hk2) (conj Ek (Z.le_refl 0)))).
Qed.

Definition psF (L : list fdir) : pspace Fops := fmkps (map fk L) (map fp L).

Lemma good_fdir_facts d : good_fdir d -> Forall finite (fk d) /\ finite (fu d) /\ fk d <> [] /\ 0 <= fp d /\
  fp d <= fsp d < zlen (fk d) - fp d - 1 /\
  (first_knot (map dval (fk d)) <= dval (fu d) <= final_knot (map dval (fk d)))%R.
Proof.
  intros (Mk & Mu & Hg & Hsp & Hk & _). cbn [ex EvalFacts.dk dp du dsp] in *. rewrite zlen_map in Hk.
  destruct (double_finite (fk d) (fp d) (conj Mk Hg)) as (A & B & C & D).
  destruct Hg as (_ & _ & Hn & _). destruct Hsp as (A1 & A2 & A3 & A4 & A5).
  pose proof (tk_ge_first (map dval (fk d)) (fsp d) Hn). pose proof (tk_le_final (map dval (fk d)) (fsp d + 1) Hn).
  repeat split; auto; try lia; try lra. apply Mu.
Qed.

Lemma fin_range (kv : list float) u : Forall finite kv -> finite u -> kv <> [] ->
  in_range (F := Fops) kv u = Ok (Rleb (first_knot (map dval kv)) (dval u) && Rleb (dval u) (final_knot (map dval kv)))%bool.
Proof.
  intros Hf Hu Hne. unfold in_range.
  assert (Z0 : 0 < zlen kv) by (destruct kv; [congruence | unfold zlen; cbn [length]; lia]).
  assert (E : vget (A := Fops) kv 0 = Ok (dkn kv 0)) by (apply (get_knot_dk kv 0); lia).
  rewrite E. cbn [bind]. rewrite (last_knot_dk kv Z0). cbn [bind nleb Fops].
  assert (F0 : finite (dkn kv 0)).
  { rewrite Forall_forall in Hf. apply Hf. unfold dkn. apply nth_In. unfold zlen in *. lia. }
  assert (Fl : finite (dlast kv)).
  { rewrite Forall_forall in Hf. apply Hf. unfold dlast. apply nth_In. unfold zlen in *. lia. }
  rewrite !leb_exact by auto. rewrite dlast_val, dk_val.
  assert (E2 : tk (map dval kv) 0 = first_knot (map dval kv)).
  { unfold tk, first_knot. rewrite zlen_map. rewrite Z.min_l by lia. reflexivity. }
  rewrite E2. destruct (Rleb _ _); reflexivity.
Qed.

Lemma fthrow_ok L : Forall good_fdir L -> throw_if_outside (psF L) (map fu L) = Ok tt.
Proof.
  unfold throw_if_outside, psF, fmkps. cbn [ps_knots]. rewrite combine_map.
  induction 1 as [|d L Hd H IH]; cbn [map foldM]; auto. cbn [fst snd].
  destruct (good_fdir_facts d Hd) as (A & B & C & _ & _ & [D1 D2]). rewrite fin_range by auto. cbn [bind].
  rewrite (proj2 (Rleb_true _ _) D1), (proj2 (Rleb_true _ _) D2). cbn [andb bind]. exact IH.
Qed.

Lemma ffirst_ok L : Forall good_fdir L -> first_non_zero (psF L) (map fu L) = Ok (map (fun d => fsp d - fp d) L).
Proof.
  intros H. unfold first_non_zero, psF, fmkps. cbn [ps_knots ps_degs]. rewrite !combine_map, mapM_map.
  apply mapM_ok. intros d Hd. rewrite Forall_forall in H. pose proof (H d Hd) as G.
  destruct (good_fdir_facts d G) as (_ & _ & _ & _ & _ & D). destruct G as (Mk & Mu & (_ & _ & Hn & Hs & Hne) & _ & _ & E & _).
  cbn [ex EvalFacts.dk dp du dsp fst snd] in *. rewrite (span_exact dz) by auto. change (num (Rops dz)) with R in *. rewrite E. reflexivity.
Qed.

(* ---- the product of the basis functions ---- *)
Fixpoint fprod (v : float) (L : list fdir) (idx : list Z) : float :=
  match L, idx with
  | d :: L', i :: idx' => fprod (v * bf_eval (dbf (fk d) i (Z.to_nat (fp d))) (fu d))%float L' idx'
  | _, _ => v
  end.

Definition factive (L : list fdir) (idx : list Z) : Prop := Forall2 (fun d i => fsp d - fp d <= i <= fsp d) L idx.

Lemma fbasis_ok L idx : Forall good_fdir L -> factive L idx ->
  get_basis_functions (psF L) idx (map fu L) = Ok (fprod 1%float L idx).
Proof.
  intros H Ha. unfold get_basis_functions, psF, fmkps. cbn [ps_bfs]. rewrite map2_map. change (@n1 Fops) with 1%float.
  generalize 1%float. induction Ha as [|d i L idx Hi Ha IH]; intros v; cbn [map combine foldM fprod]; auto.
  inversion H as [|? ? Hd HL]; subst. cbn [fst snd].
  destruct (good_fdir_facts d Hd) as (_ & _ & _ & A & B & _).
  rewrite dbfs_get by lia. cbn [bind]. apply IH. exact HL.
Qed.

Definition dcost (L : list fdir) : nat := fold_right (fun d a => 6 * Z.to_nat (fp d) + 1 + a)%nat 0%nat L.
Definition ddepth (L : list fdir) : nat := fold_right (fun d a => Z.to_nat (fp d) + 2 + a)%nat 0%nat L.
Definition slack4 (n : nat) : R := (4 ^ n * underflow)%R.

Lemma slack4_half n : (n <= 500)%nat -> (0 < slack4 n <= / 2)%R.
Proof.
  intros H. unfold slack4. pose proof underflow_pos. split; [apply Rmult_lt_0_compat; [apply pow_lt; lra | lra]|].
  eapply Rle_trans; [|apply (basis_slack_le1 n H)]. unfold basis_slack. apply Rmult_le_compat_r; [lra|].
  apply Rle_pow; [lra | lia].
Qed.

Lemma ex_factor d i : good_fdir d -> fsp d - fp d <= i <= fsp d ->
  bf_eval (mkbf dz (map dval (fk d)) i (Z.to_nat (fp d))) (dval (fu d)) = dfactor (ex d) i /\
  (0 <= dfactor (ex d) i <= 1)%R.
Proof.
  intros Hd Hi. destruct (good_fdir_facts d Hd) as (_ & _ & _ & A & B & _). destruct Hd as (Mk & Mu & Hg & Hsp & _).
  cbn [ex EvalFacts.dk dp du dsp] in *. pose proof Hg as (Hp & Hc & Hn & Hs & Hlt).
  assert (ZL : zlen (map dval (fk d)) = zlen (fk d)) by apply zlen_map.
  assert (E : bf_eval (mkbf dz (map dval (fk d)) i (Z.to_nat (fp d))) (dval (fu d)) = dfactor (ex d) i).
  { unfold dfactor. cbn [ex EvalFacts.dk dp du dsp dm]. change (Z.to_nat 0) with 0%nat. cbn [DB].
    apply (bf_eval_piece dz); auto; try lia. apply (tk_nondeg _ _ i (fsp d) (dval (fu d)) Hg Hsp). lia. }
  split; [exact E|]. rewrite <- E. split; [now apply bf_nonneg|]. apply (bf_le_1 dz _ (fsp d)); auto; lia.
Qed.

Lemma prodf_unit L idx : Forall good_fdir L -> factive L idx -> (0 <= prodf (map dfactor (map ex L)) idx <= 1)%R.
Proof.
  intros H Ha. induction Ha as [|d i L idx Hi Ha IH]; cbn [map prodf]; [lra|].
  inversion H as [|? ? Hd HL]; subst. destruct (ex_factor d i Hd Hi) as [_ B]. pose proof (IH HL). nra.
Qed.

Lemma fprod_close L idx : Forall good_fdir L -> factive L idx ->
  forall v X m a, finite v -> (X <= 1)%R -> close (phi ^ m) (slack4 a) (dval v) X -> (1 <= a)%nat ->
  (INR (m + dcost L) * roundoff <= / 4)%R -> (a + ddepth L <= 500)%nat ->
  finite (fprod v L idx) /\
  close (phi ^ (m + dcost L)) (slack4 (a + ddepth L)) (dval (fprod v L idx)) (X * prodf (map dfactor (map ex L)) idx).
Proof.
  intros H Ha. induction Ha as [|d i L idx Hi Ha IH]; intros v X m a Fv HX Cv H1 Hm Hd.
  - cbn [fprod map prodf dcost ddepth fold_right] in *. rewrite !Nat.add_0_r, Rmult_1_r in *. auto.
  - inversion H as [|? ? Gd HL]; subst. cbn [fprod map prodf dcost ddepth fold_right] in *. fold (dcost L) (ddepth L) in *.
    destruct (ex_factor d i Gd Hi) as [Ef [F0 F1]]. destruct (good_fdir_facts d Gd) as (_ & _ & _ & A & B & _).
    pose proof Gd as (Mk & Mu & (Hp & Hc & Hn & Hs & Hlt) & Hsp & _). cbn [ex EvalFacts.dk dp du dsp] in *.
    set (p := Z.to_nat (fp d)) in *.
    destruct (dbf_close dz (fk d) (fsp d) p i (fu d) Mk Mu Hn Hs Hsp ltac:(lia) ltac:(unfold p; lia) ltac:(lia)) as [Fb Cb].
    rewrite Ef in Cb. set (b := bf_eval (dbf (fk d) i p) (fu d)) in *. set (Y := dfactor (ex d) i) in *.
    change (num Fops) with float in (type of b).
    assert (Pm : (phi ^ m <= 4 / 3)%R).
    { apply phi_small. eapply Rle_trans; [|exact Hm]. apply Rmult_le_compat_r; [pose proof roundoff_pos; lra|]. apply le_INR. lia. }
    assert (Pp : (phi ^ (6 * p) <= 4 / 3)%R).
    { apply phi_small. eapply Rle_trans; [|exact Hm]. apply Rmult_le_compat_r; [pose proof roundoff_pos; lra|]. apply le_INR. lia. }
    pose proof (phi_pow_ge m) as Pm1. pose proof (phi_pow_ge (6 * p)) as Pp1.
    destruct (slack4_half a ltac:(lia)) as [S0 S1]. pose proof (basis_slack_le1 p ltac:(lia)) as C1. pose proof (basis_slack_eta p) as C0.
    pose proof underflow_pos as Up. pose proof phi_gt as Pg. pose proof phi_small_const as Pc.
    pose proof (close_upper _ _ _ _ Cv) as Uv. pose proof (close_upper _ _ _ _ Cb) as Ub.
    assert (X0 : (0 <= X)%R) by apply Cv.
    assert (Bv : (Rabs (dval v) <= 2 ^ 1)%R).
    { destruct Cv as (_ & V0 & _). rewrite Rabs_right by lra. cbn [pow]. nra. }
    assert (Bb : (Rabs (dval b) <= 2 ^ 1)%R).
    { destruct Cb as (_ & V0 & _). rewrite Rabs_right by lra. cbn [pow]. nra. }
    destruct (mul_close v b 1 1 (phi ^ m) (slack4 a) X Y (phi ^ (6 * p)) (basis_slack p)) as (Fz & _ & Cz);
      auto; try lia; try lra.
    assert (Slk : (phi * (phi ^ m * basis_slack p + slack4 a * (phi ^ (6 * p) * Y + basis_slack p)) + underflow <=
                   slack4 (a + (p + 2)))%R).
    { assert (K1 : slack4 (a + (p + 2)) = (4 ^ a * basis_slack p)%R) by (unfold slack4, basis_slack; rewrite pow_add; ring).
      assert (K2 : slack4 (a + (p + 2)) = (4 ^ (p + 2) * slack4 a)%R) by (unfold slack4; rewrite pow_add; ring).
      assert (K3 : (4 <= 4 ^ a)%R) by (replace 4%R with (4 ^ 1)%R at 1 by ring; apply Rle_pow; [lra | lia]).
      assert (K4 : (16 <= 4 ^ (p + 2))%R) by (replace 16%R with (4 ^ 2)%R by ring; apply Rle_pow; [lra | lia]).
      assert (K5 : (4 * basis_slack p <= slack4 (a + (p + 2)))%R) by (rewrite K1; apply Rmult_le_compat_r; lra).
      assert (K6 : (16 * slack4 a <= slack4 (a + (p + 2)))%R) by (rewrite K2; apply Rmult_le_compat_r; lra).
      assert (K7 : (phi ^ m * basis_slack p <= 4 / 3 * basis_slack p)%R) by (apply Rmult_le_compat_r; lra).
      assert (K8 : (phi ^ (6 * p) * Y <= 4 / 3 * 1)%R) by (apply Rmult_le_compat; lra).
      assert (K9 : (slack4 a * (phi ^ (6 * p) * Y + basis_slack p) <= slack4 a * 2)%R) by (apply Rmult_le_compat_l; lra).
      assert (K10 : (phi * (phi ^ m * basis_slack p + slack4 a * (phi ^ (6 * p) * Y + basis_slack p)) <=
                     1001 / 1000 * (4 / 3 * basis_slack p + slack4 a * 2))%R).
      { apply Rmult_le_compat; try lra. assert (0 <= phi ^ m * basis_slack p)%R by (apply Rmult_le_pos; lra).
        assert (0 <= phi ^ (6 * p) * Y)%R by (apply Rmult_le_pos; lra).
        assert (0 <= slack4 a * (phi ^ (6 * p) * Y + basis_slack p))%R by (apply Rmult_le_pos; lra). lra. }
      lra. }
    destruct (IH HL (v * b)%float (X * Y)%R (m + (6 * p + 1))%nat (a + (p + 2))%nat) as [Fr Cr]; auto; try lia.
    + nra.
    + eapply close_weaken; [|exact Slk|exact Cz]. rewrite !pow_add, pow_1. lra.
    + eapply Rle_trans; [|exact Hm]. apply Req_le. do 2 f_equal. lia.
    + split; [exact Fr|]. replace (m + (6 * p + 1 + dcost L))%nat with (m + (6 * p + 1) + dcost L)%nat by lia.
      replace (a + (p + 2 + ddepth L))%nat with (a + (p + 2) + ddepth L)%nat by lia.
      rewrite <- Rmult_assoc. exact Cr.
Qed.

(* ---- control points ---- *)
Definition fcoord (npts : list Z) (cps : list (list float)) (idx : list Z) (c : Z) : float :=
  nth (Z.to_nat c) (nth (Z.to_nat (position npts idx)) cps []) 0%float.

Lemma fconcat_nth (cps : list (list float)) dim k c : Forall (fun cp => zlen cp = dim) cps ->
  0 <= k < zlen cps -> 0 <= c < dim ->
  nth (Z.to_nat (dim * k + c)) (concat cps) 0%float = nth (Z.to_nat c) (nth (Z.to_nat k) cps []) 0%float.
Proof.
  intros H Hk Hc. revert k Hk; induction H as [|cp cps Hcp H IH]; intros k Hk; [unfold zlen in Hk; cbn in Hk; lia|].
  cbn [concat]. destruct (Z.eq_dec k 0) as [->|Hk0].
  - cbn [Z.to_nat nth]. rewrite app_nth1 by zl. f_equal. lia.
  - rewrite app_nth2 by (unfold zlen in *; nia).
    replace (Z.to_nat (dim * k + c) - length cp)%nat with (Z.to_nat (dim * (k - 1) + c)) by (unfold zlen in *; nia).
    rewrite IH by (unfold zlen in *; cbn [length] in *; lia).
    replace (Z.to_nat k) with (S (Z.to_nat (k - 1))) by lia. reflexivity.
Qed.
Lemma fconcat_zlen (cps : list (list float)) dim : Forall (fun cp => zlen cp = dim) cps -> zlen (concat cps) = dim * zlen cps.
Proof.
  induction 1 as [|cp cps Hc H IH]; [cbn; lia|]. cbn [concat]. unfold zlen in *. rewrite app_length. cbn [length]. lia.
Qed.

Lemma fcp_value_ok ps npts (cps : list (list float)) dim idx c w : Forall (fun cp => zlen cp = dim) cps ->
  zlen cps = total npts -> in_box npts idx -> 0 <= c < dim ->
  cp_value (mkSpline (F := Fops) ps (mkPhys (F := Fops) dim npts (concat cps) w)) idx c = Ok (fcoord npts cps idx c).
Proof.
  intros Hd Hn Hb Hc. pose proof (position_range _ _ Hb) as Hr. unfold cp_value, get_control_point. cbn [sp_ph ph_dim ph_npts ph_cps].
  rewrite (mapM_ok _ (fun c => nth (Z.to_nat (dim * get1d npts idx + c)) (concat cps) 0%float)).
  - cbn [bind]. etransitivity; [refine (vget_nth (A := float) _ c 0%float _); unfold zlen; rewrite map_length, zseq_length; lia|].
    rewrite (nth_map_in _ _ _ 0) by (rewrite zseq_length; lia). rewrite zseq_nth by lia. rewrite Z2Nat.id, Z.add_0_l by lia.
    unfold fcoord. rewrite <- position_get1d. f_equal. apply (fconcat_nth cps dim); auto. lia.
  - intros c' Hc'. apply zseq_In in Hc'. pose proof (get1d_range _ _ Hb). apply (vget_nth (A := float)).
    change (num Fops) with float. rewrite (fconcat_zlen cps dim Hd), Hn. nia.
Qed.

Lemma fpoint_fold {I} (f : I -> Z -> Res float) (g : I -> Z -> float) (l : list I) (dims : list Z) (pt : list float) :
  length pt = length dims -> (forall idx c, In idx l -> In c dims -> f idx c = Ok (g idx c)) ->
  foldM (fun pt idx => mapM (fun x : float * Z => e <- f idx (snd x) ;; Ok (fst x + e)%float) (combine pt dims)) l pt =
  Ok (map2 (fun a c => fold_left (fun v idx => (v + g idx c)%float) l a) pt dims).
Proof.
  revert pt; induction l as [|idx l IH]; intros pt Hl H; cbn [foldM fold_left].
  - f_equal. clear H. revert dims Hl; induction pt as [|a pt IH]; intros [|c dims] Hl; cbn in *; try discriminate; auto.
    rewrite <- IH by lia. reflexivity.
  - rewrite (mapM_ok _ (fun x => (fst x + g idx (snd x))%float)).
    2:{ intros [a c] Hx. cbn [fst snd]. rewrite H; [reflexivity | now left | now apply in_combine_r in Hx]. }
    cbn [bind]. rewrite IH.
    + f_equal. clear - Hl. revert dims Hl; induction pt as [|a pt IH]; intros [|c dims] Hl; cbn in *; try discriminate; auto.
      rewrite <- IH by lia. reflexivity.
    + rewrite map_length, combine_length. lia.
    + intros; apply H; auto; now right.
Qed.
Lemma map2_repeat {A B C} (f : A -> B -> C) a (l : list B) : map2 f (repeat a (length l)) l = map (f a) l.
Proof. induction l as [|c l IH]; cbn; auto. now rewrite IH. Qed.

Lemma ex_good L : Forall good_fdir L -> Forall (good_dir dz) (map ex L).
Proof. intros H. rewrite Forall_map. eapply Forall_impl; [|exact H]. intros d (_ & _ & ?). assumption. Qed.
Lemma ex_order0 L : order0 (map ex L).
Proof. unfold order0. rewrite Forall_map. apply Forall_forall. reflexivity. Qed.
Lemma ex_dp L : map dp (map ex L) = map fp L.
Proof. rewrite map_map. reflexivity. Qed.
Lemma ex_lens L : lensL (map ex L) = point_counts (map fk L) (map fp L).
Proof. unfold lensL, point_counts. rewrite map_map, map2_map. apply map_ext. intros d. unfold dlen. cbn. now rewrite zlen_map. Qed.
Lemma ex_shift L : map (fun d => dsp d - dp d) (map ex L) = map (fun d => fsp d - fp d) L.
Proof. rewrite map_map. reflexivity. Qed.

Lemma fvisited L cur : Forall good_fdir L -> In cur (visited (map (fun q => q + 1) (map fp L))) ->
  factive L (map2 Z.add cur (map (fun d => fsp d - fp d) L)) /\
  in_box (point_counts (map fk L) (map fp L)) (map2 Z.add cur (map (fun d => fsp d - fp d) L)).
Proof.
  intros H Hin. rewrite <- ex_dp in Hin. pose proof (visited_active dz (map ex L) cur (ex_good L H) Hin) as A.
  rewrite ex_shift in A. split.
  - unfold active in A. unfold factive. revert A. generalize (map2 Z.add cur (map (fun d => fsp d - fp d) L)). clear.
    induction L as [|d L IH]; intros l A; inversion A; subst; constructor; auto.
  - rewrite <- ex_lens. apply (active_box dz); auto using ex_good.
Qed.

Lemma feval_ok L cps dim dims : Forall good_fdir L -> Forall (fun cp => zlen cp = dim) cps ->
  let npts := point_counts (map fk L) (map fp L) in
  zlen cps = total npts -> Forall (fun c => 0 <= c < dim) dims ->
  evaluate (mkSpline (F := Fops) (psF L) (mkPhys (F := Fops) dim npts (concat cps) None)) (map fu L) dims =
  Ok (map (fun c => fold_left (fun v cur => (v + fprod 1 L (map2 Z.add cur (map (fun d => fsp d - fp d)%Z L)) *
              fcoord npts cps (map2 Z.add cur (map (fun d => fsp d - fp d)%Z L)) c)%float)
            (visited (map (fun q => q + 1) (map fp L))) 0%float) dims).
Proof.
  intros HL Hd npts Hn Hv. unfold evaluate. cbn [sp_ps]. rewrite fthrow_ok by auto. cbn [bind].
  rewrite ffirst_ok by auto. cbn [bind]. rewrite mih_loop_visited. cbn [mcur]. unfold num_to_evaluate. cbn [sp_ps].
  change (ps_degs (psF L)) with (map fp L).
  etransitivity; [apply (fpoint_fold
    (fun idx c => evaluated_control_point (mkSpline (F := Fops) (psF L) (mkPhys (F := Fops) dim npts (concat cps) None)) (map fu L)
          (map2 Z.add idx (map (fun d => fsp d - fp d)%Z L)) c)
    (fun cur c => (fprod 1 L (map2 Z.add cur (map (fun d => fsp d - fp d)%Z L)) *
              fcoord npts cps (map2 Z.add cur (map (fun d => fsp d - fp d)%Z L)) c)%float)
    (visited (map (fun q => q + 1) (map fp L))) dims (repeat 0%float (length dims)))|].
  - now rewrite repeat_length.
  - intros cur c Hc Hin. destruct (fvisited L cur HL Hc) as [Ha Hb]. unfold evaluated_control_point. cbn [sp_ps sp_ph ph_wts].
    rewrite fbasis_ok by auto. cbn [bind]. rewrite fcp_value_ok; auto. rewrite Forall_forall in Hv. auto.
  - now rewrite map2_repeat.
Qed.
End Eval.
