(* Affine changes of the parameters. *)
From Coq Require Import ZArith List Bool Lia Reals Lra.
From Verif Require Import Base BaseFacts RSum MultiIndex MultiIndexSpec MultiIndexFacts TensorSum
  KnotVec KnotVecSpec KnotVecFacts Basis BasisSpec BSplineTheory BasisFacts BasisThms
  Spaces SpacesSpec SpacesFacts SplineEval SplineSpec EvalFacts RationalDeriv EvalDeriv EvalThms RescaleSpec.
Import ListNotations.
Open Scope Z_scope.

Lemma quot0_scale a x y : (a <> 0)%R -> quot0 (a * x) (a * y) = quot0 x y.
Proof.
  intros Ha. unfold quot0. destruct (Req_EM_T y 0) as [E|E], (Req_EM_T (a * y) 0) as [E'|E']; auto.
  - exfalso. apply E'. rewrite E. ring.
  - exfalso. apply Rmult_integral in E'. tauto.
  - field. auto.
Qed.
Lemma quot0_scale_r a x y : (a <> 0)%R -> quot0 x (a * y) = (/ a * quot0 x y)%R.
Proof.
  intros Ha. unfold quot0. destruct (Req_EM_T y 0) as [E|E], (Req_EM_T (a * y) 0) as [E'|E'].
  - ring.
  - exfalso. apply E'. rewrite E. ring.
  - exfalso. apply Rmult_integral in E'. tauto.
  - field. auto.
Qed.
Lemma quot0_scal_l c x y : quot0 (c * x) y = (c * quot0 x y)%R.
Proof. unfold quot0. destruct (Req_EM_T y 0); [ring | unfold Rdiv; ring]. Qed.

Lemma B_affine ab t t' k : (fst ab <> 0)%R -> (forall j, t' j = affine ab (t j)) -> forall p i u, B t' k p i (affine ab u) = B t k p i u.
Proof.
  intros Ha Ht. induction p as [|q IH]; intros i u; [reflexivity|]. cbn [B]. rewrite !IH, !Ht. unfold affine.
  replace (fst ab * u + snd ab - (fst ab * t i + snd ab))%R with (fst ab * (u - t i))%R by ring.
  replace (fst ab * t (i + Z.of_nat (S q))%Z + snd ab - (fst ab * t i + snd ab))%R with (fst ab * (t (i + Z.of_nat (S q))%Z - t i))%R by ring.
  replace (fst ab * t (i + Z.of_nat (S q) + 1)%Z + snd ab - (fst ab * u + snd ab))%R with (fst ab * (t (i + Z.of_nat (S q) + 1)%Z - u))%R by ring.
  replace (fst ab * t (i + Z.of_nat (S q) + 1)%Z + snd ab - (fst ab * t (i + 1)%Z + snd ab))%R with (fst ab * (t (i + Z.of_nat (S q) + 1)%Z - t (i + 1)%Z))%R by ring.
  rewrite !quot0_scale by auto. reflexivity.
Qed.

Lemma DB_affine ab t t' k : (fst ab <> 0)%R -> (forall j, t' j = affine ab (t j)) -> forall m p i u,
  DB t' k m p i (affine ab u) = (/ fst ab ^ m * DB t k m p i u)%R.
Proof.
  intros Ha Ht. induction m as [|m IH]; intros p i u.
  - cbn [DB pow]. rewrite (B_affine ab t t') by auto. field.
  - cbn [DB]. destruct p as [|q]; [ring|]. rewrite !IH, !Ht. unfold affine.
    replace (fst ab * t (i + Z.of_nat (S q))%Z + snd ab - (fst ab * t i + snd ab))%R with (fst ab * (t (i + Z.of_nat (S q))%Z - t i))%R by ring.
    replace (fst ab * t (i + Z.of_nat (S q) + 1)%Z + snd ab - (fst ab * t (i + 1)%Z + snd ab))%R with (fst ab * (t (i + Z.of_nat (S q) + 1)%Z - t (i + 1)%Z))%R by ring.
    rewrite !quot0_scale_r, !quot0_scal_l by auto. cbn [pow]. rewrite Rinv_mult. ring.
Qed.

Lemma tk_affine ab kv j : kv <> [] -> tk (map (affine ab) kv) j = affine ab (tk kv j).
Proof.
  intros H. unfold tk, zlen. rewrite map_length. destruct kv as [|x kv]; [contradiction|].
  rewrite nth_indep with (d' := affine ab 0%R) by (rewrite map_length; cbn [length]; lia). apply map_nth.
Qed.

Section Dz.
Variable dz : R -> R.
Local Notation F := (Rops dz).
Implicit Types s : spline F.

Definition scaled (x : dir) (ab : R * R) : dir := mkDir (map (affine ab) (dk x)) (dp x) (affine ab (du x)) (dsp x) (dm x).

Lemma affine_lt ab x y : (0 < fst ab)%R -> (x < y)%R -> (affine ab x < affine ab y)%R.
Proof. intros Ha H. unfold affine. apply (Rmult_lt_compat_l (fst ab)) in H; lra. Qed.
Lemma affine_le ab x y : (0 < fst ab)%R -> (x <= y)%R -> (affine ab x <= affine ab y)%R.
Proof. intros Ha H. unfold affine. apply (Rmult_le_compat_l (fst ab)) in H; lra. Qed.

Lemma span_scaled ab kv k u : (0 < fst ab)%R -> kv <> [] -> in_span kv k u -> in_span (map (affine ab) kv) k (affine ab u).
Proof.
  intros Ha Hne (A1 & A2 & A3 & A4 & A5). unfold in_span. rewrite <- tk_last, !tk_affine by auto.
  unfold zlen in *. rewrite map_length. fold (zlen kv). rewrite <- tk_last in A5. split; [lia|]. split; [unfold zlen; lia|]. split; [now apply affine_lt|]. split; [now apply affine_le|].
  destruct A5 as [A5|[A5 A6]]; [left; now apply affine_lt | right; split; now f_equal].
Qed.

Lemma span_bounds kv k u : nondecreasing kv -> in_span kv k u -> (first_knot kv <= u <= final_knot kv)%R.
Proof.
  intros Hn (A1 & A2 & A3 & A4 & A5). pose proof (tk_ge_first kv k Hn). pose proof (tk_le_final kv (k + 1) Hn). destruct A5 as [A5|[A5 A6]]; lra.
Qed.

Lemma good_scaled x ab : good_dir dz x -> (0 < fst ab)%R -> good_direction (map (affine ab) (dk x)) (dp x) -> good_dir dz (scaled x ab).
Proof.
  intros (G & Hs & Hr & Hk & Hm) Ha G'. unfold good_dir, scaled. cbn [dk dp du dsp dm].
  assert (Hne : dk x <> []) by (intros E; destruct Hs as (S1 & S2 & _); rewrite E in S2; unfold zlen in S2; cbn in S2; lia).
  assert (Hs' := span_scaled ab _ _ _ Ha Hne Hs).
  split; [exact G'|]. split; [exact Hs'|]. split; [unfold zlen in *; rewrite map_length; exact Hr|]. split; [|exact Hm].
  pose proof G' as (_ & _ & Hn & _). destruct (eval_direction dz _ _ _ G' (span_bounds _ _ _ Hn Hs')) as (k & E & Hsk & _).
  rewrite E. f_equal. symmetry. eapply in_span_unique; eauto.
Qed.

Definition scaledL (L : list dir) (abs : list (R * R)) : list dir := map2 scaled L abs.

Lemma dfactor_scaled x ab k i : good_dir dz x -> (0 < fst ab)%R -> dfactor (setm (scaled x ab) k) i = (/ fst ab ^ Z.to_nat k * dfactor (setm x k) i)%R.
Proof.
  intros (G & Hs & _) Ha. unfold dfactor, setm, scaled. cbn [dk dp du dsp dm].
  assert (Hne : dk x <> []) by (intros E; destruct Hs as (S1 & S2 & _); rewrite E in S2; unfold zlen in S2; cbn in S2; lia).
  apply DB_affine; [lra|]. intros j. now apply tk_affine.
Qed.

Lemma prodf_scaled L abs m idx : Forall (good_dir dz) L -> Forall (fun ab => 0 < fst ab)%R abs -> length abs = length L -> length m = length L -> length idx = length L ->
  prodf (facs (scaledL L abs) m) idx = (chain_factor abs m * prodf (facs L m) idx)%R.
Proof.
  intros HL. revert abs m idx. induction HL as [|x L Hx HL IH]; intros [|ab abs] [|k m] [|i idx] Ha H1 H2 H3; cbn [length] in *; try lia.
  - cbn. ring.
  - change (facs (scaledL (x :: L) (ab :: abs)) (k :: m)) with (dfactor (setm (scaled x ab) k) :: facs (scaledL L abs) m).
    change (facs (x :: L) (k :: m)) with (dfactor (setm x k) :: facs L m).
    change (chain_factor (ab :: abs) (k :: m)) with (/ fst ab ^ Z.to_nat k * chain_factor abs m)%R. cbn [prodf].
    rewrite IH by (auto; try lia; exact (Forall_inv_tail Ha)). rewrite dfactor_scaled by (auto; exact (Forall_inv Ha)). ring.
Qed.

Lemma drange_scaled L abs : length abs = length L -> map drange (scaledL L abs) = map drange L.
Proof.
  revert abs; induction L as [|x L IH]; intros [|ab abs] H; cbn [scaledL map2 map length] in *; try lia; auto. f_equal; [|apply IH; lia].
  unfold drange, dlen, zlen. cbn [scaled dk dp]. now rewrite map_length.
Qed.

Lemma tsum_scaled L abs m c : Forall (good_dir dz) L -> Forall (fun ab => 0 < fst ab)%R abs -> length abs = length L -> length m = length L ->
  tsum (facs (scaledL L abs) m) (map drange (scaledL L abs)) c = (chain_factor abs m * tsum (facs L m) (map drange L) c)%R.
Proof.
  intros HL Ha H1 H2. rewrite drange_scaled by auto. revert abs m c Ha H1 H2.
  induction HL as [|x L Hx HL IH]; intros [|ab abs] [|k m] c Ha H1 H2; cbn [length] in *; try lia.
  - cbn. ring.
  - change (facs (scaledL (x :: L) (ab :: abs)) (k :: m)) with (dfactor (setm (scaled x ab) k) :: facs (scaledL L abs) m).
    change (facs (x :: L) (k :: m)) with (dfactor (setm x k) :: facs L m).
    change (chain_factor (ab :: abs) (k :: m)) with (/ fst ab ^ Z.to_nat k * chain_factor abs m)%R. cbn [map tsum].
    rewrite <- lsum_scal. apply lsum_ext. intros i _.
    rewrite IH by (auto; try lia; exact (Forall_inv_tail Ha)). rewrite dfactor_scaled by (auto; exact (Forall_inv Ha)). ring.
Qed.

Lemma chain_zeros abs n : chain_factor abs (zeros n) = 1%R.
Proof.
  unfold chain_factor, zeros. revert n; induction abs as [|ab abs IH]; intros [|n]; cbn [repeat map2 fold_right]; auto.
  rewrite IH. change (Z.to_nat 0) with O. cbn [pow]. field.
Qed.
Lemma chain_add abs m j : Forall (fun ab => 0 < fst ab)%R abs -> Forall2 (fun k i => 0 <= i <= k) m j ->
  chain_factor abs m = (chain_factor abs (map2 Z.sub m j) * chain_factor abs j)%R.
Proof.
  intros Ha H. revert abs Ha. unfold chain_factor. induction H as [|k i m j Hi H IH]; intros [|ab abs] Ha; cbn [map2 fold_right]; try ring.
  rewrite (IH abs) by exact (Forall_inv_tail Ha). pose proof (Forall_inv Ha) as A.
  replace (Z.to_nat k) with (Z.to_nat (k - i) + Z.to_nat i)%nat by lia. rewrite pow_add, Rinv_mult. ring.
Qed.

Lemma rr_scaled n abs a W a' W' : Forall (fun ab => 0 < fst ab)%R abs -> (W (zeros n) <> 0)%R ->
  (forall m, nonneg_orders m -> length m = n -> a' m = (chain_factor abs m * a m)%R /\ W' m = (chain_factor abs m * W m)%R) ->
  forall f m, nonneg_orders m -> length m = n -> rr dz f n a' W' m = (chain_factor abs m * rr dz f n a W m)%R.
Proof.
  intros Ha HW H. assert (E0 : W' (zeros n) = W (zeros n)).
  { destruct (H (zeros n) (zeros_nonneg n) (zeros_length n)) as [_ E]. rewrite E, chain_zeros. ring. }
  induction f as [|f IH]; intros m Hm Hl; cbn [rr]; [ring|].
  rewrite E0, !ndiv_R by auto. destruct (H m Hm Hl) as [-> _]. destruct (orders_tail m Hm) as (t & _ & Et & Ht). rewrite Et.
  rewrite (lsum_ext (fun j => (IZR (binoms m j) * rr dz f n a' W' (map2 Z.sub m j) * W' j)%R)
                    (fun j => chain_factor abs m * (IZR (binoms m j) * rr dz f n a W (map2 Z.sub m j) * W j))%R).
  - rewrite lsum_scal. field. auto.
  - intros j Hj. destruct (Ht j Hj) as [Hb _]. destruct (osum_sub m j Hb) as (_ & N & E2).
    assert (Nj : nonneg_orders j) by (clear - Hb; unfold nonneg_orders; induction Hb; constructor; auto; lia).
    assert (Lj : length j = n) by (rewrite <- Hl; symmetry; eapply Forall2_len; eauto).
    rewrite IH by (auto; lia). destruct (H j Nj Lj) as [_ ->]. rewrite (chain_add abs m j) by auto. ring.
Qed.

Lemma scaled_map {A} (f : dir -> A) L abs : length abs = length L -> (forall x ab, f (scaled x ab) = f x) -> map f (scaledL L abs) = map f L.
Proof.
  intros H Hf. revert abs H; induction L as [|x L IH]; intros [|ab abs] H; cbn [scaledL map2 map length] in *; try lia; auto.
  f_equal; [apply Hf | apply IH; lia].
Qed.

Lemma scaledL_length L abs : length abs = length L -> length (scaledL L abs) = length L.
Proof. revert abs; induction L as [|x L IH]; intros [|ab abs] H; cbn [scaledL map2 length] in *; try lia. f_equal. apply IH. lia. Qed.

Lemma rescaled_derivative : forall s s' abs us dims ders, well_formed s -> well_formed s' ->
  Forall (fun ab => 0 < fst ab)%R abs -> length abs = length (knots_of s) ->
  knots_of s' = map2 (fun kv ab => map (affine ab) kv) (knots_of s) abs -> degs_of s' = degs_of s -> sp_ph s' = sp_ph s ->
  in_domain s us -> valid_dims s dims -> length ders = length (degs_of s) -> Forall (fun m => 0 <= m) ders ->
  is_bspline s \/ weight_function s us <> 0%R ->
  exists vs, evaluate_derivative s us dims ders = Ok vs /\
    evaluate_derivative s' (map2 (fun u ab => affine ab u) us abs) dims ders = Ok (map (fun v => chain_factor abs ders * v)%R vs).
Proof.
  intros s s' abs us dims ders Hwf Hwf' Ha Hla Ek Ed Eph Hu Hv Hl Hm Hw.
  destruct (wf_dirs dz s us Hwf Hu) as (L & HwfL & Eu & H0). destruct (wfL_of dz s L HwfL) as (E1 & E2 & E3).
  assert (HlL : length abs = length L) by (rewrite Hla, E1, map_length; reflexivity).
  assert (Hlm : length ders = length L) by (rewrite Hl, E2, map_length; reflexivity).
  assert (HL : Forall (good_dir dz) L) by (destruct HwfL as (HL & _); exact HL).
  assert (HL' : Forall (good_dir dz) (scaledL L abs)).
  { pose proof (wf_directions s' Hwf') as Hd. rewrite Ek, Ed, E1, E2 in Hd. clear - Hd HL HlL Ha. revert abs Hd HlL Ha.
    induction HL as [|x L Hx HL IH]; intros [|ab abs] Hd Hla Ha; cbn [scaledL map2 map length] in *; try lia; constructor.
    - inversion Hd; subst. apply good_scaled; auto. exact (Forall_inv Ha).
    - inversion Hd; subst. apply IH; auto. exact (Forall_inv_tail Ha). }
  assert (Ek' : knots_of s' = map dk (scaledL L abs)).
  { rewrite Ek, E1. clear. revert abs. induction L as [|x L IH]; intros [|ab abs]; cbn [scaledL map2 map]; auto. f_equal. apply IH. }
  assert (Ed' : degs_of s' = map dp (scaledL L abs)) by (rewrite Ed, E2; symmetry; apply scaled_map; auto).
  assert (En : npts_of s' = npts_of s) by (unfold npts_of; now rewrite Eph).
  assert (HwfL' : wfL dz s' (scaledL L abs)).
  { split; [exact HL'|]. split; [rewrite (wf_mkps dz s' Hwf'); unfold psL; now rewrite Ek', Ed'|].
    destruct HwfL as (_ & _ & Enp & Hd & Hc & Hwt).
    split; [rewrite En, Enp; unfold lensL; symmetry; apply scaled_map; auto; intros x ab; unfold dlen, zlen; cbn [scaled dk dp]; now rewrite map_length|].
    rewrite En, Eph. auto. }
  assert (Eu' : map2 (fun u ab => affine ab u) us abs = map du (scaledL L abs)).
  { rewrite Eu. clear. revert abs. induction L as [|x L IH]; intros [|ab abs]; cbn [scaledL map2 map]; auto. f_equal. apply IH. }
  assert (Hv' : valid_dims s' dims) by (unfold valid_dims; rewrite Eph; exact Hv).
  assert (Hwt : forall idx, weight s' idx = weight s idx) by (intros idx; unfold weight, npts_of; now rewrite Eph).
  assert (Hco : forall idx c, coordinate s' idx c = coordinate s idx c) by (intros idx c; unfold coordinate, npts_of; now rewrite Eph).
  rewrite Eu'. rewrite (evaluate_derivative_ok dz s' _ dims ders HwfL') by (auto; rewrite scaledL_length; auto).
  rewrite Eu. rewrite (evaluate_derivative_ok dz s L dims ders HwfL) by auto.
  eexists. split; [reflexivity|]. f_equal. rewrite map_map. apply map_ext. intros c. unfold dvalue. rewrite Eph.
  destruct (ph_wts (sp_ph s)) as [w|] eqn:Ewt.
  2:{ rewrite tsum_scaled by auto. apply (f_equal (Rmult (chain_factor abs ders))). apply tsum_ext_c; [rewrite facs_length, map_length by auto; reflexivity|]. intros idx _. apply Hco. }
  assert (HW : Wval dz s L (zeros (length L)) <> 0%R).
  { destruct Hw as [Hw|Hw]; [unfold is_bspline in Hw; congruence|]. rewrite Eu, (weight_function_dirs dz s L HwfL H0) in Hw.
    unfold Wval. rewrite order0_facs by auto. exact Hw. }
  assert (Ev : Evis (scaledL L abs) = Evis L) by (unfold Evis; rewrite (scaled_map dp); auto).
  rewrite Ev, <- lsum_scal. apply lsum_ext. intros cur Hcur.
  assert (Ei : Eidx (scaledL L abs) cur = Eidx L cur) by (unfold Eidx; rewrite (scaled_map (fun d => dsp d - dp d)); auto).
  rewrite Ei, Hco. unfold rval.
  assert (Hlc : length (Eidx L cur) = length L).
  { pose proof (visited_active dz L cur HL Hcur) as Hact. symmetry. exact (Forall2_len _ _ _ Hact). }
  rewrite scaledL_length by auto.
  rewrite (rr_scaled (length L) abs (Aval dz s L (Eidx L cur)) (Wval dz s L) (Aval dz s' (scaledL L abs) (Eidx L cur)) (Wval dz s' (scaledL L abs)) Ha HW); auto.
  - ring.
  - intros m Hm' Hlm'. split.
    + unfold Aval. rewrite prodf_scaled by auto. rewrite Hwt. ring.
    + unfold Wval. rewrite <- tsum_scaled by auto. apply tsum_ext_c; [rewrite facs_length, map_length; rewrite ?scaledL_length; auto|]. intros idx _. apply Hwt.
Qed.

Lemma affine_le_iff ab x y : (0 < fst ab)%R -> (affine ab x <= affine ab y)%R <-> (x <= y)%R.
Proof.
  intros Ha. split; [|now apply affine_le]. intros H. destruct (Rle_lt_dec x y) as [E|E]; auto.
  apply (affine_lt ab) in E; auto. lra.
Qed.

Lemma domain_scaled s s' abs us : well_formed s -> Forall (fun ab => 0 < fst ab)%R abs -> length abs = length (knots_of s) ->
  knots_of s' = map2 (fun kv ab => map (affine ab) kv) (knots_of s) abs -> length us = length (knots_of s) ->
  in_domain s' (map2 (fun u ab => affine ab u) us abs) <-> in_domain s us.
Proof.
  intros Hwf Ha Hla Ek Hl. unfold in_domain. rewrite Ek. pose proof (wf_directions s Hwf) as Hd. clear - Hd Ha Hla Hl. revert abs us Ha Hla Hl.
  induction Hd as [|kv p knots degs (Hp & (Hc & _) & _) Hd IH]; intros [|ab abs] [|u us] Ha Hla Hl; cbn [length map2] in *; try lia; [tauto|].
  assert (Hne : kv <> []) by (intros E; rewrite E in Hc; change (length (@nil R)) with 0%nat in Hc; lia).
  assert (E1 : first_knot (map (affine ab) kv) = affine ab (first_knot kv)) by (destruct kv; [contradiction | reflexivity]).
  assert (E2 : final_knot (map (affine ab) kv) = affine ab (final_knot kv)).
  { rewrite <- !tk_last. unfold zlen. rewrite map_length. now apply tk_affine. }
  pose proof (Forall_inv Ha) as A. pose proof (IH abs us (Forall_inv_tail Ha) ltac:(lia) ltac:(lia)) as I.
  split; intros H; inversion H as [|? ? ? ? B1 B2]; subst; constructor.
  - rewrite E1, E2, !affine_le_iff in B1 by auto. exact B1.
  - now apply I.
  - rewrite E1, E2, !affine_le_iff by auto. exact B1.
  - now apply I.
Qed.

Lemma rescaled_value : forall s s' abs us dims, well_formed s -> well_formed s' ->
  Forall (fun ab => 0 < fst ab)%R abs -> length abs = length (knots_of s) ->
  knots_of s' = map2 (fun kv ab => map (affine ab) kv) (knots_of s) abs -> degs_of s' = degs_of s -> sp_ph s' = sp_ph s ->
  length us = length (knots_of s) -> valid_dims s dims -> is_bspline s \/ positive_weights s ->
  evaluate s' (map2 (fun u ab => affine ab u) us abs) dims = evaluate s us dims.
Proof.
  intros s s' abs us dims Hwf Hwf' Ha Hla Ek Ed Eph Hl Hv Hw.
  assert (Hll : length (degs_of s) = length (knots_of s)) by (symmetry; eapply Forall2_len; apply (wf_directions s Hwf)).
  assert (Hv' : valid_dims s' dims) by (unfold valid_dims; rewrite Eph; exact Hv).
  pose proof (domain_scaled s s' abs us Hwf Ha Hla Ek Hl) as Hiff.
  assert (Hl' : length (map2 (fun u ab => affine ab u) us abs) = length (knots_of s')).
  { rewrite Ek. clear - Hla Hl. revert abs us Hla Hl. induction (knots_of s) as [|kv l IH]; intros [|ab abs] [|u us] H1 H2; cbn [length map2] in *; try lia. rewrite IH; lia. }
  assert (Dec : in_domain s us \/ ~ in_domain s us).
  { unfold in_domain. clear - Hl. revert us Hl. induction (knots_of s) as [|kv l IH]; intros [|u us] H; cbn [length] in *; try lia; [left; constructor|].
    destruct (IH us ltac:(lia)) as [D|D]; [|right; intros C; inversion C; tauto].
    destruct (Rle_dec (first_knot kv) u) as [D1|D1]; [|right; intros C; inversion C; tauto].
    destruct (Rle_dec u (final_knot kv)) as [D2|D2]; [|right; intros C; inversion C; tauto]. left. constructor; auto. }
  destruct Dec as [Hu|Hu].
  - assert (Hu' := proj2 Hiff Hu).
    assert (HW : is_bspline s \/ weight_function s us <> 0%R).
    { destruct Hw as [Hw|Hw]; [now left | right]. pose proof (weight_function_positive dz s us Hwf Hw Hu). lra. }
    assert (HW' : is_bspline s' \/ weight_function s' (map2 (fun u ab => affine ab u) us abs) <> 0%R).
    { destruct Hw as [Hw|Hw]; [left; unfold is_bspline; rewrite Eph; exact Hw | right].
      assert (P : positive_weights s') by (unfold positive_weights; rewrite Eph; exact Hw).
      pose proof (weight_function_positive dz s' _ Hwf' P Hu'). lra. }
    rewrite <- (derivative_order_zero dz s' _ dims Hwf' Hu' Hv' HW'), <- (derivative_order_zero dz s us dims Hwf Hu Hv HW), Ed.
    destruct (rescaled_derivative s s' abs us dims (map (fun _ => 0) (degs_of s)) Hwf Hwf' Ha Hla Ek Ed Eph Hu Hv) as (vs & E1 & E2); auto.
    + now rewrite map_length.
    + apply Forall_forall. intros x Hx. apply in_map_iff in Hx as (y & <- & _). lia.
    + rewrite E1, E2.
      assert (Ez : chain_factor abs (map (fun _ => 0) (degs_of s)) = 1%R).
      { rewrite <- (chain_zeros abs (length (degs_of s))). f_equal. clear. unfold zeros. induction (degs_of s); cbn; auto. now f_equal. }
      rewrite Ez. assert (Em : forall l : list R, map (fun v => 1 * v)%R l = l).
      { induction l as [|v l IHl]; cbn [map]; auto. rewrite IHl. f_equal. apply Rmult_1_l. }
      rewrite (Em vs). reflexivity.
  - assert (Hu' : ~ in_domain s' (map2 (fun u ab => affine ab u) us abs)) by tauto.
    destruct (eval_safe dz s us dims (zeros (length (degs_of s))) Hwf Hl Hv (zeros_length _) (zeros_nonneg _)) as (_ & H2).
    destruct (eval_safe dz s' _ dims (zeros (length (degs_of s'))) Hwf' Hl' Hv' (zeros_length _) (zeros_nonneg _)) as (_ & H2').
    rewrite (proj1 (H2 Hu)), (proj1 (H2' Hu')). reflexivity.
Qed.
End Dz.
