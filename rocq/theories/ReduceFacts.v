(* ReduceDegreeForDimension of a spline in Bezier form (C83). *)
From Coq Require Import ZArith List Bool Lia Reals Lra.
From Verif Require Import Base BaseFacts RSum MultiIndex MultiIndexSpec MultiIndexFacts TensorSum
  KnotVec KnotVecSpec KnotVecFacts Basis BasisSpec BSplineTheory BasisFacts
  Spaces SpacesSpec SpacesFacts SplineEval SplineEdit SplineSpec EditSpec RemoveSpec EvalFacts EvalThms PhysFacts InsertFacts RemoveFacts UniqueSpec UniqueFacts
  SplineDegree DegreeSpec DegreeFacts DegreeReduce DegreeThms KnotRuns ReduceKnots ReduceSegments ReduceSpan ReduceSums.
Import ListNotations.
Open Scope Z_scope.

(* ---- knots ---- *)
Lemma sorted_occ_eq (l1 l2 : list R) : nondecreasing l1 -> nondecreasing l2 -> (forall x, occurrences l1 x = occurrences l2 x) -> l1 = l2.
Proof.
  revert l2. induction l1 as [|x l1 IH]; intros [|y l2] N1 N2 Ho; auto.
  - specialize (Ho y). unfold occurrences in Ho. cbn in Ho. destruct (Req_EM_T y y); congruence.
  - specialize (Ho x). unfold occurrences in Ho. cbn in Ho. destruct (Req_EM_T x x); congruence.
  - assert (In x (y :: l2)) by (apply (count_occ_In Req_EM_T); fold (occurrences (y :: l2) x); rewrite <- Ho; unfold occurrences; cbn; destruct (Req_EM_T x x); [lia | congruence]).
    assert (In y (x :: l1)) by (apply (count_occ_In Req_EM_T); fold (occurrences (x :: l1) y); rewrite Ho; unfold occurrences; cbn; destruct (Req_EM_T y y); [lia | congruence]).
    assert (L : forall (z w : R) l, nondecreasing (z :: l) -> In w (z :: l) -> (z <= w)%R).
    { intros z w l Hn Hw. apply (In_nth _ _ 0%R) in Hw as (k & Hk & <-). apply (Hn 0%nat k); lia. }
    assert (x = y) by (apply Rle_antisym; [eapply L; [exact N1 | auto] | eapply L; [exact N2 | auto]]). subst y. f_equal.
    assert (T : forall (z : R) l, nondecreasing (z :: l) -> nondecreasing l).
    { intros z l Hn i j Hij Hj. apply (Hn (S i) (S j)); cbn [length]; lia. }
    apply IH; [eapply T; eauto | eapply T; eauto |]. intros z. specialize (Ho z). unfold occurrences in *. cbn in Ho. destruct (Req_EM_T x z); lia.
Qed.

Lemma fill_knot p a rs b (i : nat) : 1 <= p -> (i < length (of_runs p a (fill p rs) b))%nat ->
  exists k, 0 <= k <= Z.of_nat (length rs) + 1 /\ (k = 0 \/ Z.of_nat i = p * k + 1 + (Z.of_nat i - 1) mod p \/ (k = Z.of_nat (length rs) + 1 /\ p * k + 1 <= Z.of_nat i)) /\ (k = 0 -> Z.of_nat i <= p) /\
    knot (of_runs p a (fill p rs) b) i = brk a rs b k.
Proof.
  intros Hp Hi. pose proof (fill_length p a rs b Hp) as Hl. unfold zlen in Hl. set (n := Z.of_nat (length rs)) in *.
  destruct i as [|i].
  { exists 0. split; [lia|]. split; [auto|]. split; [lia|]. unfold of_runs, knot, brk, breaks. replace (Z.to_nat p + 1)%nat with (S (Z.to_nat p)) by lia. reflexivity. }
  rewrite <- tk_knot by auto. destruct (Z.le_gt_cases (Z.of_nat (S i)) ((n + 2) * p)) as [C|C].
  - exists ((Z.of_nat (S i) - 1) / p). pose proof (Z.div_mod (Z.of_nat (S i) - 1) p ltac:(lia)) as D. pose proof (Z.mod_pos_bound (Z.of_nat (S i) - 1) p ltac:(lia)) as M.
    split; [split; [apply Z.div_pos; lia|]; assert ((Z.of_nat (S i) - 1) / p < n + 2) by (apply Z.div_lt_upper_bound; nia); lia|].
    split; [right; left; lia|]. split; [nia|]. apply fill_tk; auto. lia.
  - exists (n + 1). split; [lia|]. split; [right; right; nia|]. split; [lia|].
    rewrite tk_knot by auto. assert (E : S i = (length (of_runs p a (fill p rs) b) - 1)%nat) by nia. rewrite E.
    change (knot (of_runs p a (fill p rs) b) (length (of_runs p a (fill p rs) b) - 1)) with (final_knot (of_runs p a (fill p rs) b)).
    rewrite runs_final. unfold n. now rewrite brk_last.
Qed.

Lemma brk_mono a rs b : chain a rs b -> forall i j, 0 <= i -> i <= j -> j <= Z.of_nat (length rs) + 1 -> (brk a rs b i <= brk a rs b j)%R.
Proof. intros H i j H1 H2 H3. destruct (Z.eq_dec i j) as [->|N]; [lra|]. apply Rlt_le, breaks_increasing; auto. lia. Qed.

Lemma fill_good p p' a rs b : 1 <= p -> 1 <= p' -> chain a rs b -> good_direction (of_runs p a (fill p rs) b) p -> good_direction (of_runs p' a (fill p' rs) b) p'.
Proof.
  intros Hp Hp' Hc (_ & _ & _ & Hs & Hlt). split; [lia|]. split; [|split; [|split]].
  - pose proof (fill_length p' a rs b Hp') as Hl. split; [unfold zlen in Hl; lia|].
    intros i Hi. split; unfold knot.
    + rewrite runs_first. unfold of_runs. rewrite app_nth1 by (rewrite repeat_length; lia). apply nth_in_repeat. lia.
    + rewrite runs_final, runs_length. unfold of_runs. rewrite app_assoc, app_nth2; rewrite app_length, repeat_length; [|lia]. apply nth_in_repeat. lia.
  - intros i j Hij Hj. destruct (fill_knot p' a rs b i Hp' ltac:(lia)) as (k1 & K1 & A1 & B1 & ->).
    destruct (fill_knot p' a rs b j Hp' ltac:(lia)) as (k2 & K2 & A2 & B2 & ->). apply brk_mono; auto; try lia.
    pose proof (Z.mod_pos_bound (Z.of_nat i - 1) p' ltac:(lia)). pose proof (Z.mod_pos_bound (Z.of_nat j - 1) p' ltac:(lia)).
    destruct (Z.le_gt_cases k1 k2) as [|C]; [lia|]. exfalso. 
    destruct A1 as [->|[A1|[A1 A1']]]; [lia| |];
    (destruct A2 as [->|[A2|[-> A2]]]; [specialize (B2 eq_refl); nia | nia | nia]).
  - intros i j Hi Hj Hlt'. destruct (fill_knot p' a rs b i Hp' Hi) as (k1 & K1 & _ & _ & E1). destruct (fill_knot p' a rs b j Hp' Hj) as (k2 & K2 & _ & _ & E2).
    assert (G : forall k, 0 <= k <= Z.of_nat (length rs) + 1 -> exists i, (i < length (of_runs p a (fill p rs) b))%nat /\ knot (of_runs p a (fill p rs) b) i = brk a rs b k).
    { intros k Hk. pose proof (fill_length p a rs b Hp) as Hl. unfold zlen in Hl. exists (Z.to_nat (k * p + 1)). split; [nia|].
      rewrite <- tk_knot by nia. rewrite Z2Nat.id by nia. rewrite fill_tk by nia. replace (k * p + 1 - 1) with (k * p) by lia. now rewrite Z.div_mul by lia. }
    destruct (G k1 K1) as (i' & I1 & I2). destruct (G k2 K2) as (j' & J1 & J2). rewrite E1, E2 in *. rewrite <- I2, <- J2 in *. now apply Hs.
  - rewrite runs_first, runs_final in *. exact Hlt.
Qed.

Lemma fill_occ p a rs b x : 2 <= p -> chain a rs b ->
  occurrences (of_runs p a (fill p rs) b) x =
  (occurrences (of_runs (p - 1) a (fill (p - 1) rs) b) x + if in_dec Req_EM_T x (of_runs p a (fill p rs) b) then 1 else 0)%nat.
Proof.
  intros Hp Hc.
  assert (G : forall a, chain a rs b -> occurrences (expand (fill p rs)) x = (occurrences (expand (fill (p - 1) rs)) x + if in_dec Req_EM_T x (expand (fill p rs)) then 1 else 0)%nat).
  { clear a Hc. induction rs as [|[y m] rs IH]; intros a Hc; [reflexivity|]. destruct Hc as (C1 & C2 & C3). cbn [fst snd] in *.
    unfold fill in *. cbn [map fst]. rewrite !expand_cons, !occ_app, !occ_repeat. specialize (IH y C3).
    assert (C4 : chain y (fill p rs) b) by (apply (chain_fill (fun x => x) p y [] rs b ltac:(lia)); exact C3).
    destruct (Req_EM_T y x) as [->|N].
    - rewrite IH. destruct (in_dec Req_EM_T x (expand (map _ rs))) as [I|I].
      { exfalso. pose proof (chain_between _ _ _ C4) as F. rewrite Forall_forall in F. specialize (F x I). lra. }
      destruct (in_dec _ x (repeat x (Z.to_nat p) ++ _)) as [J|J]; [lia|]. exfalso. apply J. apply in_or_app. left.
      replace (Z.to_nat p) with (S (Z.to_nat (p - 1))) by lia. now left.
    - rewrite IH. destruct (in_dec Req_EM_T x (expand (map _ rs))) as [I|I]; destruct (in_dec _ x (repeat y (Z.to_nat p) ++ _)) as [J|J]; try lia.
      + exfalso. apply J. apply in_or_app. now right.
      + exfalso. apply in_app_or in J as [J|J]; [apply repeat_spec in J; congruence | contradiction]. }
  specialize (G a Hc). unfold of_runs. rewrite !occ_app, !occ_repeat, G. pose proof (chain_lt _ _ _ Hc) as Hab.
  assert (C4 : chain a (fill p rs) b) by (apply (chain_fill (fun x => x) p a [] rs b ltac:(lia)); exact Hc).
  pose proof (chain_between _ _ _ C4) as F. rewrite Forall_forall in F.
  set (A := repeat a (Z.to_nat p + 1)). set (E := expand (fill p rs)) in *. set (Bn := repeat b (Z.to_nat p + 1)).
  assert (HA : In x A <-> a = x) by (unfold A; split; [intros H; apply repeat_spec in H; auto | intros ->; rewrite Nat.add_comm; now left]).
  assert (HB : In x Bn <-> b = x) by (unfold Bn; split; [intros H; apply repeat_spec in H; auto | intros ->; rewrite Nat.add_comm; now left]).
  destruct (in_dec Req_EM_T x E) as [I|I].
  - specialize (F x I). destruct (Req_EM_T a x); [lra|]. destruct (Req_EM_T b x); [lra|].
    destruct (in_dec _ x (A ++ E ++ Bn)) as [J|J]; [lia|]. exfalso. apply J. apply in_or_app. right. apply in_or_app. now left.
  - destruct (in_dec _ x (A ++ E ++ Bn)) as [J|J].
    + apply in_app_or in J as [J|J]; [|apply in_app_or in J as [J|J]; [contradiction|]].
      * apply HA in J. subst x. destruct (Req_EM_T a a); [|congruence]. destruct (Req_EM_T b a); [lra|]. lia.
      * apply HB in J. subst x. destruct (Req_EM_T b b); [|congruence]. destruct (Req_EM_T a b); [lra|]. lia.
    + destruct (Req_EM_T a x); [exfalso; apply J; apply in_or_app; left; now apply HA|].
      destruct (Req_EM_T b x); [exfalso; apply J; apply in_or_app; right; apply in_or_app; right; now apply HB|]. lia.
Qed.

Lemma fill_distinct p a rs b : 1 <= p -> chain a rs b -> good_direction (of_runs p a (fill p rs) b) p ->
  Z.of_nat (distinct_values (of_runs p a (fill p rs) b)) = 2 + Z.of_nat (length rs).
Proof.
  intros Hp Hc (_ & (Hl & _) & Hn & _). rewrite <- (num_different_distinct (fun x => x)); auto.
  - rewrite runs_different; [unfold fill; now rewrite map_length|]. apply (chain_fill (fun x => x) p a [] rs b Hp). exact Hc.
  - intros E. apply (f_equal (@length R)) in E. cbn [length] in E. lia.
Qed.

(* ---- one segment ---- *)
Lemma reduce_seg_facts dz p pdim lines cps : 2 <= p -> 0 <= pdim -> 0 <= lines -> segment_shape p lines (pdim + 1) cps ->
  exists new err,
    (forall tol, reduce_segment (F := Rops dz) p pdim lines cps tol = Ok (new, if Rlt_dec err tol then true else false)) /\
    segment_shape (p - 1) lines (pdim + 1) new /\ (0 <= err)%R /\
    (forall i j c, 0 <= i < lines -> 0 <= j <= p -> 0 <= c <= pdim ->
       (Rabs (value cps p i j c - elevated p (fun j => value new (p - 1) i j c) j) <= err)%R) /\
    (forall i c, 0 <= i < lines -> 0 <= c <= pdim -> value new (p - 1) i 0 c = value cps p i 0 c /\ value new (p - 1) i (p - 1) c = value cps p i p c) /\
    (forall i c f, 0 <= i < lines -> 0 <= c <= pdim -> (forall j, 0 <= j <= p -> value cps p i j c = elevated p f j) ->
       forall j, 0 <= j <= p - 1 -> value new (p - 1) i j c = f j) /\
    ((forall i c, 0 <= i < lines -> 0 <= c <= pdim -> exists f, forall j, 0 <= j <= p -> value cps p i j c = elevated p f j) -> err = 0%R).
Proof.
  intros Hp Hd Hl Hs. apply shape_seg in Hs.
  destruct (reduce_segment_ok dz p pdim lines cps Hp Hd Hl Hs) as (new & err & ef & E & S & Herr & Hef & Hmax).
  assert (EV : forall i j c, value new (p - 1) i j c = co new (i * p + j) c).
  { intros. unfold value, co, pt. replace (p - 1 + 1) with p by lia. reflexivity. }
  assert (EE : forall i j c, elevated p (fun j => value new (p - 1) i j c) j = elevated p (fun j => co new (i * p + j) c) j).
  { intros. unfold elevated. now rewrite !EV. }
  exists new, err. split; [exact E|].
  split; [apply shape_seg; replace (p - 1 + 1) with p by lia; exact S|]. split; [exact Herr|].
  assert (P0 : IZR p <> 0%R) by (apply not_0_IZR; lia).
  split; [|split; [|split]].
  - intros i j c Hi Hj Hc. destruct (Hef i Hi) as (Le & Hres & Hn). rewrite EE, <- co_value. rewrite Hres by lia.
    pose proof (c_bounds p Hp) as [C1 C2]. pose proof (norm_coord (ef i) (Z.to_nat c)) as Ne. rewrite Rabs_mult.
    apply Rle_trans with (1 * Rabs (nth (Z.to_nat c) (ef i) 0))%R; [|lra]. apply Rmult_le_compat_r; [apply Rabs_pos|].
    destruct (j =? Z.quot (p - 1) 2); [auto|]. destruct (j =? Z.quot (p - 1) 2 + 1); [auto|]. rewrite Rabs_R0. lra.
  - intros i c Hi Hc. destruct (Hef i Hi) as (Le & Hres & Hn). pose proof (Hres 0 c ltac:(lia) ltac:(lia)) as R0. pose proof (Hres p c ltac:(lia) ltac:(lia)) as R1.
    pose proof (parity p Hp) as Hpar. cbv zeta in Hpar. unfold c_low, c_high in R0, R1. set (r := Z.quot (p - 1) 2) in *. rewrite <- EE, co_value in R0, R1.
    assert (A : (if 0 =? r then (if Z.rem p 2 =? 0 then 0 else (1 - IZR r / IZR p) / 2) else if 0 =? r + 1 then if Z.rem p 2 =? 0 then 1 else - (IZR (r + 1) / IZR p) / 2 else 0)%R = 0%R).
    { destruct (Z.eqb_spec 0 r); [|destruct (Z.eqb_spec 0 (r + 1)); [|reflexivity]].
      - destruct Hpar as [(O & ? & ?)|(O & ? & ?)]; [lia|]. destruct (Z.rem p 2 =? 0); [reflexivity | discriminate].
      - destruct Hpar as [(O & ? & ?)|(O & ? & ?)]; lia. }
    rewrite A in R0.
    assert (A2 : (p =? r) = false /\ (p =? r + 1) = false) by (destruct Hpar as [(O & ? & ?)|(O & ? & ?)]; split; apply Z.eqb_neq; lia).
    destruct A2 as [A2 A3]. rewrite A2, A3 in R1. unfold elevated in R0, R1.
    split.
    + unfold Rdiv in R0. rewrite Rmult_0_l in R0. lra.
    + unfold Rdiv in R1. rewrite Rinv_r in R1 by auto. lra.
  - intros i c f Hi Hc Hf j Hj. destruct (Hef i Hi) as (Le & Hres & Hn). rewrite EV.
    apply (residual_exact p cps new (ef i) f i c Hp ltac:(lia) Hres); auto.
  - intros Hall. destruct Hmax as [H|(i & Hi & H)]; auto. rewrite H. apply norm_of_zero. intros c. destruct (Hef i Hi) as (Le & Hres & _).
    destruct (Z.lt_ge_cases (Z.of_nat c) (pdim + 1)) as [Hc|Hc].
    + destruct (Hall i (Z.of_nat c) Hi ltac:(lia)) as (f & Hf).
      destruct (residual_exact p cps new (ef i) f i (Z.of_nat c) Hp ltac:(lia) Hres) as [G _]; [auto|]. now rewrite Nat2Z.id in G.
    + apply nth_overflow. unfold zlen in Le. lia.
Qed.

Section Stage.
Variable dz : R -> R.
Local Notation F := (Rops dz).
Implicit Types s : spline F.

Lemma good_upd2 knots degs d kv p : Forall2 good_direction knots degs -> good_direction kv p -> Forall2 good_direction (upd knots d kv) (upd degs d p).
Proof. intros H Hg. revert d. induction H; intros [|d]; cbn [upd]; constructor; auto. Qed.

Lemma reduce_space s d p a rs b : well_formed s -> direction s d (of_runs p a (fill p rs) b) p -> 2 <= p -> chain a rs b ->
  Forall2 good_direction (upd (knots_of s) d (of_runs (p - 1) a (fill (p - 1) rs) b)) (upd (degs_of s) d (p - 1)) /\
  exists ps2, ps_change_degree (sp_ps s) d (-1) = Ok ps2 /\
    ps_decrement_all ps2 d = Ok (mkps dz (upd (knots_of s) d (of_runs (p - 1) a (fill (p - 1) rs) b)) (upd (degs_of s) d (p - 1))).
Proof.
  intros Hwf [Ek Ed] Hp Hc. destruct (wf_direction dz s d _ p Hwf Ek Ed) as (Hg & _). pose proof Hwf as [Hd _ _ _ _ _].
  set (kv := of_runs p a (fill p rs) b) in *. set (kv1 := of_runs (p - 1) a (fill (p - 1) rs) b).
  assert (Hg1 : good_direction kv1 (p - 1)) by (apply (fill_good p); auto; lia).
  split; [now apply good_upd2|].
  assert (HL : lens_ok (knots_of s) (upd (degs_of s) d (p - 1))).
  { unfold lens_ok. clear - Hd Ed Hp. revert d Ed. induction Hd as [|k q ks qs (A & (B & _) & _) H IH]; intros [|d] Ed; cbn [nth_error upd] in *; try discriminate; constructor; auto.
    - injection Ed as ->. unfold zlen. split; lia.
    - clear - H. induction H as [|k q ks qs (A & (B & _) & _) H IH]; constructor; auto. unfold zlen. split; lia.
    - unfold zlen. split; lia. }
  exists (mkps dz (knots_of s) (upd (degs_of s) d (p - 1))). split.
  - unfold ps_change_degree, dget. fold (degs_of s). rewrite Ed. cbn [bind]. replace (p + -1) with (p - 1) by lia.
    change (ps_knots (sp_ps s)) with (knots_of s). change (ps_degs (sp_ps s)) with (degs_of s).
    pose proof (create_bases_ok dz _ _ HL) as E. rnorm. rewrite E. reflexivity.
  - pose proof Hg as (_ & _ & Hn & Hs & _). pose proof (fill_distinct p a rs b ltac:(lia) Hc Hg) as Hdv. fold kv in Hdv.
    pose proof (fill_length p a rs b ltac:(lia)) as Hl. fold kv in Hl.
    destruct (decrement_all dz (knots_of s) (upd (degs_of s) d (p - 1)) d kv (p - 1) Ek) as (kv' & E & Hn' & Ho); auto.
    + now apply (nth_error_upd_same _ _ _ p).
    + rewrite Hdv, Hl. nia.
    + rewrite E. assert (kv' = kv1) as ->; [|reflexivity]. apply sorted_occ_eq; auto; [apply Hg1|].
      intros x. specialize (Ho x). pose proof (fill_occ p a rs b x Hp Hc) as G. fold kv kv1 in G. lia.
Qed.

Lemma reduce_phys s d p a rs b : well_formed s -> direction s d (of_runs p a (fill p rs) b) p -> 2 <= p ->
  let lens := upd (npts_of s) d ((Z.of_nat (length rs) + 1) * (p - 1) + 1) in
  nth d (npts_of s) 0 = (Z.of_nat (length rs) + 1) * p + 1 /\
  npts_at (sp_ph s) d (fun n => n - (Z.of_nat (length rs) + 1)) = Ok lens /\
  exists n ph3, num_control_points (set_npts (sp_ph s) lens) = Ok n /\
    remove_control_points (set_npts (sp_ph s) lens) (n - total lens) = Ok ph3 /\ phys_ok dz ph3 /\
    ph_dim ph3 = ph_dim (sp_ph s) /\ ph_npts ph3 = lens /\ is_weighted dz ph3 = is_weighted dz (sp_ph s).
Proof.
  intros Hwf [Ek Ed] Hp lens. destruct (wf_direction dz s d _ p Hwf Ek Ed) as (Hg & Hd & Hn).
  pose proof (fill_length p a rs b ltac:(lia)) as Hl. rewrite Hl in Hn. set (m := Z.of_nat (length rs)) in *.
  assert (Hm : 0 <= m) by (unfold m; lia).
  split; [lia|]. split.
  { unfold npts_at. fold (npts_of s). rewrite (dget_nth _ d 0) by auto. cbn [bind]. unfold lens. do 2 f_equal. lia. }
  pose proof (wf_phys dz s Hwf) as (Hpl & H1 & H2 & H3). fold (npts_of s) in *.
  assert (Ht : total lens = (m * (p - 1) + (p - 1) + 1) * total (remove_at d (npts_of s))) by (unfold lens; rewrite total_upd by auto; f_equal; lia).
  assert (Ht0 : total (npts_of s) = ((m + 1) * p + 1) * total (remove_at d (npts_of s))) by (rewrite <- (total_remove_at (npts_of s) d Hd); f_equal; lia).
  destruct (lines_ok dz s d Hwf Hd) as [_ Hlines]. unfold lines_in in Hlines. set (T := total (remove_at d (npts_of s))) in *.
  exists (total (npts_of s)). unfold num_control_points, set_npts. cbn [ph_cps ph_dim ph_npts ph_wts]. rnorm. rewrite H2.
  unfold idiv. destruct (Z.eqb_spec (ph_dim (sp_ph s)) 0); [lia|]. rewrite Z.mul_comm, Z.quot_mul by lia.
  unfold remove_control_points. cbn [ph_cps ph_dim ph_npts ph_wts]. set (D := ph_dim (sp_ph s)) in *.
  assert (HT : 0 <= total lens <= total (npts_of s)) by nia.
  assert (HL : pos_lens lens).
  { unfold lens, pos_lens in *. clear - Hpl Hp Hm. assert (1 <= (m + 1) * (p - 1) + 1) by nia. revert d. induction Hpl; intros [|d]; cbn [upd]; constructor; auto. }
  rewrite erase_tail_ok by (rnorm; rewrite H2; nia). cbn [bind]. rnorm. rewrite H2.
  assert (Lc : zlen (firstn (Z.to_nat (D * total (npts_of s) - (total (npts_of s) - total lens) * D)) (ph_cps (sp_ph s))) = D * total lens).
  { unfold zlen in *. rewrite firstn_length. rnorm. nia. }
  destruct (ph_wts (sp_ph s)) as [w|] eqn:Ew.
  - specialize (H3 w eq_refl). rewrite erase_tail_ok by (rnorm; rewrite H3; nia). cbn [bind]. rnorm. rewrite H3.
    eexists. split; [reflexivity|]. split; [reflexivity|]. split; [|split; [reflexivity|split; [reflexivity|unfold is_weighted; now rewrite Ew]]].
    split; [exact HL|]. split; [auto|]. split; [exact Lc|]. cbn [ph_wts ph_npts]. intros w' E. injection E as <-.
    unfold zlen in *. rewrite firstn_length. rnorm. nia.
  - eexists. split; [reflexivity|]. split; [reflexivity|]. split; [|split; [reflexivity|split; [reflexivity|unfold is_weighted; now rewrite Ew]]].
    split; [exact HL|]. split; [auto|]. split; [exact Lc|]. cbn [ph_wts]. discriminate.
Qed.

(* ---- all segments ---- *)
Definition seg_red s d p tol (k : Z) (new : list (list R)) (ok : bool) : Prop :=
  exists cps, bezier_segment s d k = Ok cps /\ reduce_segment (F := F) p (ph_dim (sp_ph s)) (lines_in dz s d) cps tol = Ok (new, ok).

Lemma reduce_segments_ok s d p tol ids : (forall k, In k ids -> exists new ok, seg_red s d p tol k new ok) ->
  exists r, reduce_segments s d p (lines_in dz s d) tol ids = Ok r /\
    match r with
    | None => exists k new, In k ids /\ seg_red s d p tol k new false
    | Some segs => Forall2 (fun k new => seg_red s d p tol k new true) ids segs
    end.
Proof.
  induction ids as [|k ids IH]; intros H; cbn [reduce_segments].
  - exists (Some []). split; [reflexivity | constructor].
  - destruct (H k (or_introl eq_refl)) as (new & ok & cps & E1 & E2). rewrite E1. cbn [bind]. unfold sp_pdim. rnorm. rewrite E2. cbn [bind fst snd].
    destruct ok.
    + destruct IH as (r & Er & Hr); [intros; apply H; now right|]. rnorm. rewrite Er. cbn [bind]. destruct r as [segs|]; cbn [option_map].
      * eexists. split; [reflexivity|]. constructor; auto. exists cps. auto.
      * eexists. split; [reflexivity|]. destruct Hr as (k' & new' & Hi & Hr). exists k', new'. split; [now right | auto].
    + exists None. split; [reflexivity|]. exists k, new. split; [now left|]. exists cps. auto.
Qed.
End Stage.
