(* Smoothness at interior knots: proofs for P_OneSided.v. *)
From Coq Require Import ZArith List Bool Lia Reals Lra.
From Verif Require Import Base BaseFacts RSum MultiIndex MultiIndexSpec MultiIndexFacts TensorSum
  KnotVec KnotVecSpec KnotVecFacts KnotVecThms Basis BasisSpec BSplineTheory BasisFacts BasisThms
  Spaces SpacesSpec SpacesFacts SplineEval SplineSpec EvalFacts RationalDeriv EvalDeriv SpacesThms EvalThms OneSidedSpec OneSidedThms.
Import ListNotations.
Open Scope Z_scope.

(* ---- the polynomials of the two spans beside a knot ---- *)
Lemma B_cross_base t k q x : monotone t -> (t k < t (k + 1)%Z)%R ->
  let k' := k + Z.of_nat q in (t k' < t (k' + 1)%Z)%R -> (1 <= q)%nat ->
  (forall j, k < j <= k' -> t j = x) -> forall i, B t k q i x = B t k' q i x.
Proof.
  intros Hm Hk k' Hk' Hq Hx.
  assert (Z1 : forall i, i <> k -> B t k q i x = 0%R).
  { intros i Hi. destruct (Z.lt_ge_cases i k); [|apply B_outside; lia].
    apply (B_at_right t k q x); auto. }
  assert (Z2 : forall i, i <> k -> B t k' q i x = 0%R).
  { intros i Hi. destruct (Z.lt_ge_cases i k); [apply B_outside; lia|].
    apply (B_at_left t k' q x); auto; [symmetry; apply Hx; lia | intros; apply Hx; lia | lia]. }
  intros i. destruct (Z.eq_dec i k) as [->|Hi]; [|now rewrite Z1, Z2].
  pose proof (B_sum t Hm k Hk q x (k - Z.of_nat q) (S q) ltac:(lia) ltac:(lia)) as S1.
  pose proof (B_sum t Hm k' Hk' q x k (S q) ltac:(lia) ltac:(lia)) as S2.
  rewrite (lsum_single _ _ k) in S1; [| apply zseq_NoDup | apply zseq_In; lia | intros; now apply Z1].
  rewrite (lsum_single _ _ k) in S2; [| apply zseq_NoDup | apply zseq_In; lia | intros; now apply Z2].
  congruence.
Qed.

Lemma B_cross t k q x : monotone t -> (t k < t (k + 1)%Z)%R ->
  let k' := k + Z.of_nat q in (t k' < t (k' + 1)%Z)%R ->
  (forall j, k < j <= k' -> t j = x) -> forall p i, (q <= p)%nat -> B t k p i x = B t k' p i x.
Proof.
  intros Hm Hk k' Hk' Hx. destruct (Nat.eq_dec q 0) as [->|Hq].
  { intros. unfold k'. now rewrite Z.add_0_r. }
  induction p as [|p IH]; intros i Hp; [lia|]. destruct (Nat.eq_dec q (S p)) as [<-|Hne].
  - apply B_cross_base; auto. lia.
  - rewrite !B_S by auto. rewrite !IH by lia. reflexivity.
Qed.

Lemma DB_cross t k q x : monotone t -> (t k < t (k + 1)%Z)%R ->
  let k' := k + Z.of_nat q in (t k' < t (k' + 1)%Z)%R ->
  (forall j, k < j <= k' -> t j = x) -> forall m p i, (m + q <= p)%nat -> DB t k m p i x = DB t k' m p i x.
Proof.
  intros Hm Hk k' Hk' Hx. induction m as [|m IH]; intros p i Hp.
  - now apply B_cross.
  - destruct p as [|p]; [lia|]. cbn [DB]. rewrite !IH by lia. reflexivity.
Qed.

(* ---- the span on the left of a parameter ---- *)
Lemma occ_ge (kv : list R) u a b : (b <= length kv)%nat -> (forall j, (a <= j < b)%nat -> nth j kv 0%R = u) ->
  (b - a <= occurrences kv u)%nat.
Proof.
  unfold occurrences. revert a b; induction kv as [|y kv IH]; intros a b Hb Hu; [cbn in *; lia|].
  cbn [count_occ]. destruct b as [|b]; [lia|]. cbn [length] in Hb. destruct a as [|a].
  - specialize (IH 0%nat b ltac:(lia) (fun j Hj => Hu (S j) ltac:(lia))). pose proof (Hu 0%nat ltac:(lia)) as E. cbn in E.
    destruct (Req_EM_T y u); [lia|contradiction].
  - specialize (IH a b ltac:(lia) (fun j Hj => Hu (S j) ltac:(lia))). destruct (Req_EM_T y u); lia.
Qed.

Lemma left_span kv k' u : nondecreasing kv -> in_span kv k' u -> (first_knot kv < u)%R ->
  exists k, 0 <= k <= k' /\ (tk kv k < tk kv (k + 1))%R /\ (tk kv k < u <= tk kv (k + 1))%R /\
    (k' - k <= Z.of_nat (occurrences kv u)) /\ (forall j, k < j <= k' -> tk kv j = u).
Proof.
  intros Hn (A1 & A2 & A3 & A4 & A5) Hu.
  assert (G : exists k, 0 <= k <= k' /\ (tk kv k < u)%R /\ forall j, k < j <= k' -> tk kv j = u).
  { clear A3 A5. revert A2 A4. pattern k'. apply natlike_ind; auto.
    - intros H0 _. exists 0. split; [lia|]. split; [|intros; lia].
      rewrite tk_knot' by lia. exact Hu.
    - intros z Hz IH A2 A4. destruct (Rlt_dec (tk kv (Z.succ z)) u) as [H|H].
      + exists (Z.succ z). split; [lia|]. split; auto. intros; lia.
      + assert (E : tk kv (Z.succ z) = u) by lra.
        destruct IH as (k & K1 & K2 & K3); [lia | pose proof (tk_monotone kv Hn z (Z.succ z) ltac:(lia)); lra |].
        exists k. split; [lia|]. split; auto. intros j Hj. destruct (Z.eq_dec j (Z.succ z)); [congruence|]. apply K3. lia. }
  destruct G as (k & K1 & K2 & K3). exists k. split; auto.
  assert (E : (u <= tk kv (k + 1))%R).
  { destruct (Z.eq_dec k k') as [->|Hne]; [destruct A5 as [?|[? _]]; lra | rewrite K3 by lia; lra]. }
  repeat split; auto; try lra.
  pose proof (occ_ge kv u (Z.to_nat (k + 1)) (Z.to_nat (k' + 1))) as O. unfold zlen in A2.
  enough (Z.to_nat (k' + 1) - Z.to_nat (k + 1) <= occurrences kv u)%nat by lia. apply O; [lia|].
  intros j Hj. pose proof (K3 (Z.of_nat j) ltac:(lia)) as E'. rewrite tk_knot in E' by lia. exact E'.
Qed.

Lemma span_pieces kv k' u : nondecreasing kv -> in_span kv k' u -> (first_knot kv < u < final_knot kv)%R ->
  exists k, 0 <= k <= k' /\ (tk kv k < tk kv (k + 1))%R /\ (tk kv k < u)%R /\ (u < tk kv (k' + 1))%R /\
    (forall v, (tk kv k <= v < u)%R -> in_span kv k v) /\ (forall v, (u <= v < tk kv (k' + 1))%R -> in_span kv k' v) /\
    (forall m p i, (m + occurrences kv u <= p)%nat -> DB (tk kv) k m p i u = DB (tk kv) k' m p i u).
Proof.
  intros Hn Hsp Hu. destruct (left_span kv k' u Hn Hsp ltac:(lra)) as (k & K1 & K2 & K3 & K4 & K5).
  pose proof Hsp as (A1 & A2 & A3 & A4 & A5).
  exists k. repeat split; auto; try lia; try lra.
  intros m p i Hp. pose proof (DB_cross (tk kv) k (Z.to_nat (k' - k)) u (tk_monotone kv Hn) K2) as D. cbv zeta in D.
  replace (k + Z.of_nat (Z.to_nat (k' - k))) with k' in D by lia. apply D; auto. lia.
Qed.

(* ---- gluing ---- *)
Lemma derivable_glue (f g h : R -> R) u l d : (0 < d)%R -> f u = g u ->
  (forall v, (u - d < v < u)%R -> h v = f v) -> (forall v, (u <= v < u + d)%R -> h v = g v) ->
  derivable_pt_lim f u l -> derivable_pt_lim g u l -> derivable_pt_lim h u l.
Proof.
  intros Hd E Hf Hg Df Dg eps Heps. destruct (Df eps Heps) as [d1 H1]. destruct (Dg eps Heps) as [d2 H2].
  pose proof (cond_pos d1). pose proof (cond_pos d2).
  assert (Hp : (0 < Rmin d (Rmin d1 d2))%R) by (repeat apply Rmin_pos; auto).
  exists (mkposreal _ Hp). cbn. intros e He Hlt.
  pose proof (Rmin_l d (Rmin d1 d2)). pose proof (Rmin_r d (Rmin d1 d2)). pose proof (Rmin_l d1 d2). pose proof (Rmin_r d1 d2).
  apply Rabs_def2 in Hlt as Hlt'. rewrite (Hg u) by lra. destruct (Rlt_dec e 0).
  - rewrite Hf by lra. rewrite <- E. apply H1; auto. lra.
  - rewrite Hg by lra. apply H2; auto. lra.
Qed.

Lemma continuous_glue (f g h : R -> R) u lf lg d : (0 < d)%R -> f u = g u ->
  (forall v, (u - d < v < u)%R -> h v = f v) -> (forall v, (u <= v < u + d)%R -> h v = g v) ->
  derivable_pt_lim f u lf -> derivable_pt_lim g u lg -> continuity_pt h u.
Proof.
  intros Hd E Hf Hg Df Dg.
  assert (Cf : continuity_pt f u) by (apply derivable_continuous_pt; exists lf; exact Df).
  assert (Cg : continuity_pt g u) by (apply derivable_continuous_pt; exists lg; exact Dg).
  intros eps Heps. destruct (Cf eps Heps) as (d1 & P1 & H1). destruct (Cg eps Heps) as (d2 & P2 & H2).
  exists (Rmin d (Rmin d1 d2)). split; [repeat apply Rmin_pos; auto|].
  intros v (Hv1 & Hv2). unfold D_x, no_cond in Hv1. cbn in *. unfold R_dist in *.
  pose proof (Rmin_l d (Rmin d1 d2)). pose proof (Rmin_r d (Rmin d1 d2)). pose proof (Rmin_l d1 d2). pose proof (Rmin_r d1 d2).
  apply Rabs_def2 in Hv2 as Hv2'. rewrite (Hg u) by lra. destruct (Rlt_dec v u).
  - rewrite Hf by lra. rewrite <- E. apply H1. split; auto. lra.
  - rewrite Hg by lra. apply H2. split; auto. lra.
Qed.

(* ---- basis functions ---- *)
Lemma basis_smooth : forall dz kv p i, nondecreasing kv -> separated kv -> (i + p + 1 < length kv)%nat ->
  exists b, create_dynamic (F := Rops dz) kv (Z.of_nat i) (Z.of_nat p) = Ok b /\
    forall u m, (first_knot kv < u < final_knot kv)%R ->
      ((m + occurrences kv u <= p)%nat -> continuity_pt (fun v => bf_deriv b v (Z.of_nat m)) u) /\
      ((S m + occurrences kv u <= p)%nat ->
         derivable_pt_lim (fun v => bf_deriv b v (Z.of_nat m)) u (bf_deriv b u (Z.of_nat (S m)))).
Proof.
  intros dz kv p i Hn Hs Hl. eexists; split; [now apply create_ok|]. intros u m Hu.
  destruct (knot_span_in_span dz kv u Hn Hs ltac:(lra) ltac:(lra)) as (k' & _ & Hk).
  destruct (span_pieces kv k' u Hn Hk Hu) as (k & K0 & K1 & K2 & K3 & Kl & Kr & KD).
  pose proof Hk as (A1 & A2 & A3 & _).
  assert (Hlz : Z.of_nat i + Z.of_nat p + 1 < zlen kv) by (unfold zlen; lia).
  set (d := Rmin (u - tk kv k) (tk kv (k' + 1) - u)).
  assert (Hd : (0 < d)%R) by (apply Rmin_pos; lra).
  assert (Hd1 : (d <= u - tk kv k)%R) by apply Rmin_l. assert (Hd2 : (d <= tk kv (k' + 1) - u)%R) by apply Rmin_r.
  assert (P1 : (1 <= p)%nat -> forall v, (u - d < v < u)%R -> bf_deriv (mkbf dz kv (Z.of_nat i) p) v (Z.of_nat m) = DB (tk kv) k m p (Z.of_nat i) v).
  { intros Hp v Hv. apply bf_deriv_piece; auto; try lia. apply Kl. lra. }
  assert (P2 : (1 <= p)%nat -> forall v, (u <= v < u + d)%R -> bf_deriv (mkbf dz kv (Z.of_nat i) p) v (Z.of_nat m) = DB (tk kv) k' m p (Z.of_nat i) v).
  { intros Hp v Hv. apply bf_deriv_piece; auto; try lia. apply Kr. lra. }
  split.
  - intros Hm. destruct (Nat.eq_dec p 0) as [->|Hp0].
    { destruct (basis_derivative dz kv 0 i Hn Hs Hl) as (b & Eb & _ & Hb & _).
      assert (Hni : ~ In u kv) by (apply (count_occ_not_In Req_EM_T); unfold occurrences in Hm; lia).
      pose proof (create_ok dz kv 0 i Hl) as Eb'. rewrite Eb' in Eb. inversion Eb; subst b.
      apply derivable_continuous_pt. eexists. exact (Hb u m Hni). }
    assert (Hp : (1 <= p)%nat) by lia.
    eapply (continuous_glue _ _ _ u _ _ d Hd); [|exact (P1 Hp)|exact (P2 Hp)| |].
    + apply KD. lia.
    + apply DB_derivable; auto. now apply tk_monotone.
    + apply DB_derivable; auto. now apply tk_monotone.
  - intros Hm. assert (Hp : (1 <= p)%nat) by lia.
    eapply (derivable_glue _ _ _ u _ d Hd); [|exact (P1 Hp)|exact (P2 Hp)| |].
    + apply KD. lia.
    + rewrite (bf_deriv_piece dz kv k') by (auto; lia). rewrite <- KD by lia. apply DB_derivable; auto. now apply tk_monotone.
    + rewrite (bf_deriv_piece dz kv k') by (auto; lia). apply DB_derivable; auto. now apply tk_monotone.
Qed.

(* ---- splines ---- *)
Lemma tsum_upd_ext fs ls c d (f g : Z -> R) : (d < length fs)%nat -> length fs = length ls -> (forall i, f i = g i) ->
  tsum (upd fs d f) ls c = tsum (upd fs d g) ls c.
Proof.
  intros Hd Hl E. rewrite !(tsum_isolate (upd fs d _) ls c d) by (rewrite ?upd_length; auto).
  apply lsum_ext. intros i _. rewrite !nth_upd_same by auto. rewrite !remove_at_upd. now rewrite E.
Qed.
Lemma upd_upd {A} (l : list A) d a b : upd (upd l d a) d b = upd l d b.
Proof. revert d; induction l as [|x l IH]; intros [|d]; cbn; auto. now rewrite IH. Qed.
Lemma nth_upd_eq {A} (l : list A) d a : (d < length l)%nat -> nth_error (upd l d a) d = Some a.
Proof. revert d; induction l as [|x l IH]; intros [|d] H; cbn in *; try lia; auto. apply IH. lia. Qed.

Section Thms.
Variable dz : R -> R.
Local Notation F := (Rops dz).
Implicit Types s : spline F.

(* numerator of the rational value *)
Definition Nval s (L : list dir) (m : list Z) (c : Z) : R :=
  tsum (facs L m) (map drange L) (fun idx => weight s idx * coordinate s idx c)%R.

Lemma withm_fits L m : Forall fits L -> length m = length L -> Forall fits (withm L m).
Proof.
  unfold withm. intros H. revert m; induction H as [|d L Hd H IH]; intros [|k m] Hl; try discriminate; cbn [map2]; constructor; auto.
Qed.

Lemma dvalue_identity s L m c w : ph_wts (sp_ph s) = Some w -> Forall fits L -> Wval dz s L (zeros (length L)) <> 0%R ->
  nonneg_orders m -> length m = length L ->
  Nval s L m c = lsum (fun j => IZR (binoms m j) * (dvalue dz s L (map2 Z.sub m j) c * Wval dz s L j))%R (orders m).
Proof.
  intros Hw HL HW Hm Hl. unfold Nval.
  pose proof (visited_sum_fits (withm L m) (fun idx => weight s idx * coordinate s idx c)%R (withm_fits L m HL Hl)) as E.
  rewrite (withm_map drange), (withm_map dp), (withm_map (fun d => dsp d - dp d)) in E by auto.
  unfold facs. rewrite <- E. clear E. cbv zeta.
  transitivity (lsum (fun cur => lsum (fun j => IZR (binoms m j) * (rval dz s L (Eidx L cur) (map2 Z.sub m j) * Wval dz s L j) * coordinate s (Eidx L cur) c)%R (orders m)) (Evis L)).
  - apply lsum_ext. intros cur _. fold (Eidx L cur). rewrite lsum_scal_r.
    rewrite <- rval_identity by auto. unfold Aval, facs. ring.
  - rewrite lsum_swap. apply lsum_ext. intros j _. unfold dvalue. rewrite Hw.
    rewrite (Rmult_comm (lsum _ _) (Wval dz s L j)). rewrite <- lsum_scal. rewrite <- lsum_scal. apply lsum_ext. intros; ring.
Qed.

(* two lists of directions that differ in the span and the parameter of one of them *)
Lemma dvalue_unique s L L' c (P : list Z -> Prop) :
  length L = length L' -> Forall fits L -> Forall fits L' -> map drange L = map drange L' ->
  (forall m j, P m -> Forall2 (fun k i => 0 <= i <= k) m j -> P (map2 Z.sub m j) /\ P j) ->
  (ph_wts (sp_ph s) <> None -> P (zeros (length L)) /\ Wval dz s L (zeros (length L)) <> 0%R) ->
  (forall m f, nonneg_orders m -> length m = length L -> P m -> tsum (facs L m) (map drange L) f = tsum (facs L' m) (map drange L) f) ->
  forall m, nonneg_orders m -> length m = length L -> P m -> dvalue dz s L m c = dvalue dz s L' m c.
Proof.
  intros Hll HL HL' Hdr HPs HPw HP m Hm Hl HPm. destruct (ph_wts (sp_ph s)) as [w|] eqn:Ew.
  2:{ unfold dvalue. rewrite Ew. rewrite <- Hdr. now apply HP. }
  specialize (HPw ltac:(discriminate)) as [HP0 HW0].
  assert (HW : forall j, nonneg_orders j -> length j = length L -> P j -> Wval dz s L j = Wval dz s L' j).
  { intros j J1 J2 J3. unfold Wval. rewrite <- Hdr. now apply HP. }
  assert (HW0' : Wval dz s L' (zeros (length L')) <> 0%R).
  { rewrite <- Hll. rewrite <- HW; auto; [apply zeros_nonneg | apply zeros_length]. }
  remember (Z.to_nat (osum m)) as n eqn:En. assert (Hn : (Z.to_nat (osum m) <= n)%nat) by lia. clear En.
  revert m Hm Hl HPm Hn. induction n as [n IH] using lt_wf_ind. intros m Hm Hl HPm Hn.
  assert (EN : Nval s L m c = Nval s L' m c) by (unfold Nval; rewrite <- Hdr; now apply HP).
  rewrite (dvalue_identity s L m c w), (dvalue_identity s L' m c w) in EN by (auto; congruence).
  destruct (orders_tail m Hm) as (t & Et & _ & Ht).
  rewrite Et in EN. cbn [lsum] in EN.
  rewrite binoms_origin, sub_origin, (origin_zeros (length L) m Hl) in EN.
  rewrite (lsum_ext (fun j => (IZR (binoms m j) * (dvalue dz s L (map2 Z.sub m j) c * Wval dz s L j))%R)
                    (fun j => (IZR (binoms m j) * (dvalue dz s L' (map2 Z.sub m j) c * Wval dz s L' j))%R) t) in EN.
  - rewrite <- (HW (zeros (length L))) in EN by (auto using zeros_nonneg, zeros_length).
    apply Rplus_eq_reg_r in EN. rewrite !Rmult_1_l in EN. eapply Rmult_eq_reg_r; eauto.
  - intros j Hj. destruct (Ht j Hj) as [Hb Hp]. destruct (osum_sub m j Hb) as (E1 & E2 & E3).
    destruct (HPs m j HPm Hb) as [Q1 Q2].
    assert (J1 : nonneg_orders j) by (clear - Hb; unfold nonneg_orders; induction Hb; constructor; auto; lia).
    assert (J2 : length j = length L) by (rewrite <- Hl; symmetry; eapply Forall2_len; eauto).
    rewrite HW by auto. f_equal. f_equal.
    pose proof (osum_nonneg _ E2). pose proof (osum_nonneg m Hm).
    apply (IH (Z.to_nat (osum (map2 Z.sub m j)))); auto; try lia.
Qed.

Lemma nth_bounded m j d : Forall2 (fun k i => 0 <= i <= k) m j ->
  nth d (map2 Z.sub m j) 0 <= nth d m 0 /\ nth d j 0 <= nth d m 0.
Proof. intros H. revert d; induction H; intros [|d]; cbn; try lia. apply IHForall2. Qed.

Lemma nth_zeros d n : nth d (zeros n) 0 = 0.
Proof. unfold zeros. revert d; induction n; intros [|d]; cbn; auto. Qed.

Lemma nth_addone d m : (d < length m)%nat -> nth d (addone d m) 0 = nth d m 0 + 1.
Proof. intros H. unfold addone. now rewrite nth_upd_same. Qed.

(* the values on both sides of an inner parameter *)
Lemma spline_pieces : forall s L d x m c, wfL dz s L -> nth_error L d = Some x -> nonneg_orders m -> length m = length L ->
  (first_knot (dk x) < du x < final_knot (dk x))%R -> 0 <= c < ph_dim (sp_ph s) ->
  (ph_wts (sp_ph s) <> None -> Wval dz s L (zeros (length L)) <> 0%R) ->
  nth d m 0 + Z.of_nat (occurrences (dk x) (du x)) <= dp x ->
  let h := fun v => only_value (evaluate_derivative s (upd (map du L) d v) [c] m) in
  exists (f g : R -> R) e lf lg, (0 < e)%R /\ f (du x) = g (du x) /\
    (forall v, (du x - e < v < du x)%R -> h v = f v) /\ (forall v, (du x <= v < du x + e)%R -> h v = g v) /\
    derivable_pt_lim f (du x) lf /\ derivable_pt_lim g (du x) lg /\
    lg = dvalue dz s L (addone d m) c /\ (nth d m 0 + 1 + Z.of_nat (occurrences (dk x) (du x)) <= dp x -> lf = lg).
Proof.
  intros s L d x m c HwfL Hx Hm Hl Hu Hc HW Hocc h.
  assert (Hd : (d < length L)%nat) by (apply nth_error_Some; congruence).
  pose proof (proj1 HwfL) as HL.
  assert (Hgx : good_dir dz x) by (rewrite Forall_forall in HL; apply HL; eapply nth_error_In; eauto).
  pose proof Hgx as (Hg & Hsp & Hk & Ek & Hm0). pose proof Hg as (Hp & Hcl & Hn & Hs & Hlt).
  destruct (span_pieces (dk x) (dsp x) (du x) Hn Hsp Hu) as (k & K0 & K1 & K2 & K3 & Kl & Kr & KD).
  set (xl := mkDir (dk x) (dp x) (tk (dk x) k) k (dm x)).
  assert (Hxl : good_dir dz xl).
  { pose proof (Kl (tk (dk x) k) ltac:(lra)) as Hspl.
    destruct (eval_direction dz (dk x) (dp x) (tk (dk x) k) Hg) as (k2 & E2 & Hsp2 & R1 & R2).
    { pose proof (tk_ge_first (dk x) k Hn). pose proof (tk_le_final (dk x) k Hn). lra. }
    pose proof (in_span_unique _ _ _ _ Hn Hspl Hsp2). subst k2.
    exact (conj Hg (conj Hspl (conj (conj R1 R2) (conj E2 Hm0)))). }
  set (Ll := upd L d xl).
  assert (HLlx : nth_error Ll d = Some xl) by (now apply nth_upd_eq).
  assert (Emap : forall A (f : dir -> A), f xl = f x -> map f Ll = map f L).
  { intros A f E. unfold Ll. rewrite map_upd, E. apply upd_self. now rewrite nth_error_map, Hx. }
  assert (HwfLl : wfL dz s Ll).
  { destruct HwfL as (H1 & H2 & H3 & H4). split.
    - unfold Ll. clear - H1 Hxl. revert d; induction H1 as [|a l Ha H IH]; intros [|d]; cbn; constructor; auto.
    - unfold psL, lensL in *. rewrite !Emap by reflexivity. auto. }
  assert (Hll : length Ll = length L) by apply upd_length.
  assert (Hvd : valid_dims s [c]) by (now constructor).
  assert (Hvl : forall v, (tk (dk x) k <= v < du x)%R -> h v = dvalue dz s (setv Ll d v) m c).
  { intros v Hv. unfold h. replace (upd (map du L) d v) with (map du (setv Ll d v)).
    - rewrite (evaluate_derivative_ok dz s (setv Ll d v) [c] m); auto.
      + eapply setv_wfL; eauto. apply span_good; auto.
      + rewrite setv_length. congruence.
    - rewrite setv_du. unfold Ll. rewrite map_upd. now rewrite upd_upd. }
  assert (Hvr : forall v, (du x <= v < tk (dk x) (dsp x + 1))%R -> h v = dvalue dz s (setv L d v) m c).
  { intros v Hv. unfold h. rewrite <- setv_du.
    rewrite (evaluate_derivative_ok dz s (setv L d v) [c] m); auto.
    - eapply setv_wfL; eauto. apply span_good; auto.
    - now rewrite setv_length. }
  assert (Ef : forall m', length m' = length L -> facs (setv Ll d (du x)) m' = upd (facs L m') d (dfun xl (nth d m' 0) (du x))).
  { intros m' Hl'. rewrite (facs_setv Ll d xl) by (auto; congruence). unfold Ll, facs, withm.
    rewrite (upd_map2_l setm L m' d xl 0) by auto. rewrite map_upd. apply upd_upd. }
  assert (Eg : forall m', length m' = length L -> facs L m' = upd (facs L m') d (dfun x (nth d m' 0) (du x))).
  { intros m' Hl'. rewrite <- (facs_setv L d x (du x) m') by auto. now rewrite (setv_self L d x Hx). }
  set (Q := fun m' => nth d m' 0 + Z.of_nat (occurrences (dk x) (du x)) <= dp x).
  assert (Hdr : map drange L = map drange (setv Ll d (du x))) by (rewrite (setv_map drange) by reflexivity; symmetry; now apply Emap).
  assert (HT : forall m' f, nonneg_orders m' -> length m' = length L -> Q m' ->
     tsum (facs L m') (map drange L) f = tsum (facs (setv Ll d (du x)) m') (map drange L) f).
  { intros m' f Hm' Hl' HQ. rewrite (Eg m' Hl'), (Ef m' Hl').
    apply tsum_upd_ext; rewrite ?facs_length, ?map_length; auto.
    intros i. unfold dfun, xl. cbn [dk dsp dp]. symmetry. apply KD. unfold Q in HQ. pose proof (nth_orders m' d Hm'). lia. }
  assert (HQ0 : Q (zeros (length L))).
  { unfold Q in *. rewrite nth_zeros. pose proof (nth_orders m d Hm). lia. }
  assert (HU : forall m', nonneg_orders m' -> length m' = length L -> Q m' ->
     dvalue dz s L m' c = dvalue dz s (setv Ll d (du x)) m' c).
  { apply dvalue_unique; auto.
    - rewrite setv_length. congruence.
    - now apply (good_fits dz).
    - unfold setv. rewrite HLlx. unfold Ll. rewrite upd_upd.
      assert (Hf : fits (setu xl (du x))) by (pose proof (good_fits dz [xl] (Forall_cons _ Hxl (Forall_nil _))) as Hf; exact (Forall_inv Hf)).
      pose proof (good_fits dz L HL) as HF. clear - HF Hf. revert d; induction HF as [|a l Ha H IH]; intros [|d]; cbn; constructor; auto.
    - intros m' j HQ Hb. unfold Q in *. pose proof (nth_bounded m' j d Hb). lia. }
  set (e := Rmin (du x - tk (dk x) k) (tk (dk x) (dsp x + 1) - du x)).
  assert (He : (0 < e)%R) by (apply Rmin_pos; lra).
  assert (He1 : (e <= du x - tk (dk x) k)%R) by apply Rmin_l. assert (He2 : (e <= tk (dk x) (dsp x + 1) - du x)%R) by apply Rmin_r.
  exists (fun v => dvalue dz s (setv Ll d v) m c), (fun v => dvalue dz s (setv L d v) m c), e,
    (dvalue dz s (setv Ll d (du x)) (addone d m) c), (dvalue dz s L (addone d m) c).
  assert (HWl : Wval dz s L (zeros (length L)) = Wval dz s (setv Ll d (du x)) (zeros (length Ll))).
  { unfold Wval. rewrite <- Hdr, Hll. apply HT; auto; [apply zeros_nonneg | apply zeros_length]. }
  split; auto. split; [cbv beta; rewrite (setv_self L d x Hx); symmetry; apply HU; auto |].
  split; [intros v Hv; apply Hvl; lra|]. split; [intros v Hv; apply Hvr; lra|].
  split; [apply (dvalue_derivable_at dz s Ll d xl); auto; [congruence | now rewrite <- HWl] |].
  split; [now apply dvalue_derivable |]. split; auto.
  intros Ho. symmetry. apply HU.
  - apply valid_addone with (n := length L); auto. split; auto.
  - now rewrite addone_length.
  - unfold Q. rewrite nth_addone by congruence. exact Ho.
Qed.

Lemma derivative_smooth : forall s us ders d kv p u c, well_formed s -> in_domain s us ->
  length ders = length (degs_of s) -> Forall (fun m => 0 <= m) ders ->
  nth_error (knots_of s) d = Some kv -> nth_error (degs_of s) d = Some p -> nth_error us d = Some u ->
  (first_knot kv < u < final_knot kv)%R ->
  0 <= c < ph_dim (sp_ph s) -> is_bspline s \/ weight_function s us <> 0%R ->
  (nth d ders 0 + Z.of_nat (occurrences kv u) <= p ->
     continuity_pt (fun v => only_value (evaluate_derivative s (upd us d v) [c] ders)) u) /\
  (nth d ders 0 + 1 + Z.of_nat (occurrences kv u) <= p ->
   exists l, evaluate_derivative s us [c] (upd ders d (nth d ders 0 + 1)) = Ok [l] /\
     derivable_pt_lim (fun v => only_value (evaluate_derivative s (upd us d v) [c] ders)) u l).
Proof.
  intros s us ders d kv p u c Hwf Hu Hld Hders Hkv Hpd Hud Hin Hc Hw.
  assert (HW : weight_function s us <> 0%R).
  { destruct Hw as [Hw|Hw]; auto. rewrite weight_function_bspline by auto. lra. }
  clear Hw. destruct (wf_dirs dz s us Hwf Hu) as (L & HwfL & -> & H0). destruct (wfL_of dz s L HwfL) as (E1 & E2 & E3).
  assert (Hl : length ders = length L) by (rewrite Hld, E2; apply map_length).
  rewrite E1 in Hkv. rewrite E2 in Hpd. rewrite nth_error_map in Hkv, Hud, Hpd. destruct (nth_error L d) as [x|] eqn:Hx; [|discriminate].
  cbn in Hkv, Hud, Hpd. inversion Hkv; inversion Hud; inversion Hpd; subst kv u p. clear Hkv Hud Hpd.
  assert (Hd : (d < length L)%nat) by (apply nth_error_Some; congruence).
  assert (HWv : Wval dz s L (zeros (length L)) <> 0%R).
  { unfold Wval. rewrite order0_facs by auto. rewrite weight_function_dirs in HW by auto. exact HW. }
  assert (G : nth d ders 0 + Z.of_nat (occurrences (dk x) (du x)) <= dp x -> _) by
    exact (fun H => spline_pieces s L d x ders c HwfL Hx Hders Hl Hin Hc (fun _ => HWv) H).
  cbv zeta in G. split.
  - intros Ho. destruct (G Ho) as (f & g & e & lf & lg & G1 & G2 & G3 & G4 & G5 & G6 & _).
    eapply continuous_glue; eauto.
  - intros Ho. destruct (G ltac:(lia)) as (f & g & e & lf & lg & G1 & G2 & G3 & G4 & G5 & G6 & G7 & G8).
    exists lg. split.
    + rewrite G7. change (upd ders d (nth d ders 0 + 1)) with (addone d ders).
      assert (Hv1 : valid (length L) (addone d ders)) by (apply valid_addone; [exact Hd | split; auto]).
      rewrite (evaluate_derivative_ok dz s L [c] (addone d ders)); auto; try apply Hv1. now constructor.
    + rewrite (G8 Ho) in G5. eapply derivable_glue; eauto.
Qed.

(* the curve, surface or solid itself *)
Lemma evaluate_continuous : forall s us d kv p u c, well_formed s -> in_domain s us ->
  nth_error (knots_of s) d = Some kv -> nth_error (degs_of s) d = Some p -> nth_error us d = Some u ->
  (first_knot kv < u < final_knot kv)%R -> Z.of_nat (occurrences kv u) <= p ->
  0 <= c < ph_dim (sp_ph s) -> is_bspline s \/ positive_weights s ->
  continuity_pt (fun v => only_value (evaluate s (upd us d v) [c])) u.
Proof.
  intros s us d kv p u c Hwf Hu Hkv Hpd Hud Hin Hocc Hc Hw.
  assert (HW : forall vs, in_domain s vs -> is_bspline s \/ weight_function s vs <> 0%R).
  { intros vs Hvs. destruct Hw as [Hw|Hw]; [now left|right]. pose proof (proj2 (weight_function_facts dz s vs Hwf Hvs) Hw). lra. }
  assert (HD : forall v, (first_knot kv <= v <= final_knot kv)%R -> in_domain s (upd us d v)).
  { intros v Hv. unfold in_domain in *. clear - Hu Hv Hkv. revert d Hkv; induction Hu as [|a b la lb Hab H IH]; intros [|d] E; cbn in *; try discriminate.
    - inversion E; subst. now constructor.
    - constructor; auto. }
  destruct (derivative_smooth s us (map (fun _ => 0) (degs_of s)) d kv p u c Hwf Hu) as [G _]; auto.
  { apply map_length. }
  { apply Forall_forall. intros z Hz. apply in_map_iff in Hz as (? & <- & _). lia. }
  assert (E0 : nth d (map (fun _ => 0) (degs_of s)) 0 = 0).
  { generalize (degs_of s). clear. intros l. revert d; induction l; intros [|d]; cbn; auto. }
  rewrite E0 in G. specialize (G ltac:(lia)).
  eapply (continuity_pt_locally_ext _ _ (Rmin (u - first_knot kv) (final_knot kv - u)) u); [| |exact G].
  - apply Rmin_pos; lra.
  - intros v Hv. pose proof (Rmin_l (u - first_knot kv) (final_knot kv - u)). pose proof (Rmin_r (u - first_knot kv) (final_knot kv - u)).
    unfold R_dist in Hv. apply Rabs_def2 in Hv. cbv beta. rewrite (derivative_order_zero dz); auto; [apply HD; lra | now constructor | apply HW, HD; lra].
Qed.
End Thms.

(* ---- examples ---- *)
Lemma ex_onesided : exists s : spline (Rops (fun x => x)), well_formed s /\ in_domain s [1; 1/4]%R /\
  length [0; 2] = length (degs_of s) /\ nth_error (knots_of s) 0 = Some [0; 0; 0; 1; 2; 2; 2]%R /\
  nth_error (degs_of s) 0 = Some 2 /\ In 1%R [0; 0; 0; 1; 2; 2; 2]%R /\
  occurrences [0; 0; 0; 1; 2; 2; 2]%R 1 = 1%nat /\ 0 <= 1 < ph_dim (sp_ph s) /\
  positive_weights s /\ weight_function s [1; 1/4]%R <> 0%R.
Proof.
  destruct (ex_spline (Some ex_weights)) as (n & N1 & N2 & N3 & N4 & N5 & N6 & N7 & N8 & N9 & N10 & N11); auto.
  assert (Hp : positive_weights n) by (exists ex_weights; split; auto; repeat constructor; lra).
  assert (Hd : in_domain n [1; 1/4]%R).
  { unfold in_domain. rewrite N6. unfold ex_knots. repeat constructor; cbn; lra. }
  exists n. split; [assumption|]. split; [assumption|]. rewrite N6, N7, N8. do 3 (split; [reflexivity|]).
  split; [cbn; lra|]. split; [|split; [lia|]; split; auto].
  - unfold occurrences. cbn [count_occ]. repeat (destruct (Req_EM_T _ _); try lra). reflexivity.
  - apply Rgt_not_eq. apply weight_function_positive; auto.
Qed.

(* one order more is too much: a hat function *)
Lemma smooth_sharp : exists (kv : list R) (p i : nat) (b : bf (Rops (fun x => x))) (u : R) (m : nat),
  nondecreasing kv /\ separated kv /\ (i + p + 1 < length kv)%nat /\
  create_dynamic (F := Rops (fun x => x)) kv (Z.of_nat i) (Z.of_nat p) = Ok b /\
  (first_knot kv < u < final_knot kv)%R /\ (m + occurrences kv u = S p)%nat /\
  ~ continuity_pt (fun v => bf_deriv b v (Z.of_nat m)) u.
Proof.
  set (kv := [0; 0; 1; 2; 2]%R). exists kv, 1%nat, 1%nat. eexists. exists 1%R, 1%nat.
  assert (Hn : nondecreasing kv) by (unfold kv; nondec). assert (Hs : separated kv) by (unfold kv; sepsolve).
  split; auto. split; auto. split; [cbn; lia|]. split; [apply create_ok; cbn; lia|].
  split; [cbn; lra|]. split.
  { unfold occurrences, kv. cbn [count_occ]. repeat (destruct (Req_EM_T _ _); try lra). reflexivity. }
  assert (T : tk kv 1 = 0%R /\ tk kv (1 + 1) = 1%R /\ tk kv 2 = 1%R /\ tk kv (2 + 1) = 2%R) by (repeat split; reflexivity).
  destruct T as (T1 & T2 & T3 & T4).
  assert (S1 : forall v, (0 <= v < 1)%R -> in_span kv 1 v).
  { intros v Hv. unfold in_span. rewrite T1, T2. change (zlen kv) with 5. repeat split; try lia; lra. }
  assert (S2 : in_span kv 2 1%R).
  { unfold in_span. rewrite T3, T4. change (zlen kv) with 5. repeat split; try lia; lra. }
  assert (V1 : forall v, (0 <= v < 1)%R -> bf_deriv (mkbf (fun x => x) kv (Z.of_nat 1) 1) v (Z.of_nat 1) = 1%R).
  { intros v Hv. rewrite (bf_deriv_piece (fun x => x) kv 1 1 1 (Z.of_nat 1) v) by (auto; cbn; lia).
    cbn [DB B INR]. change (Z.of_nat 1) with 1. cbn [Z.eq_dec Z.add Pos.add Pos.succ].
    change (tk kv 1) with 0%R. change (tk kv 2) with 1%R. change (tk kv 3) with 2%R.
    repeat match goal with |- context [Z.eq_dec ?a ?b] => destruct (Z.eq_dec a b); try lia end.
    rewrite !quot0_den by lra. lra. }
  assert (V2 : bf_deriv (mkbf (fun x => x) kv (Z.of_nat 1) 1) 1%R (Z.of_nat 1) = (-1)%R).
  { rewrite (bf_deriv_piece (fun x => x) kv 2 1 1 (Z.of_nat 1) 1%R) by (auto; cbn; lia).
    cbn [DB B INR]. change (Z.of_nat 1) with 1. cbn [Z.eq_dec Z.add Pos.add Pos.succ].
    change (tk kv 1) with 0%R. change (tk kv 2) with 1%R. change (tk kv 3) with 2%R.
    repeat match goal with |- context [Z.eq_dec ?a ?b] => destruct (Z.eq_dec a b); try lia end.
    rewrite !quot0_den by lra. lra. }
  intros C. destruct (C 1%R Rlt_0_1) as (delta & Hd & H).
  pose proof (Rmin_l delta 1). pose proof (Rmin_r delta 1). assert (Hm : (0 < Rmin delta 1)%R) by (apply Rmin_pos; lra).
  set (v := (1 - Rmin delta 1 / 2)%R) in *.
  assert (X : (R_dist (bf_deriv (mkbf (fun x => x) kv (Z.of_nat 1) 1) v (Z.of_nat 1))
                      (bf_deriv (mkbf (fun x => x) kv (Z.of_nat 1) 1) 1%R (Z.of_nat 1)) < 1)%R).
  { apply (H v). split; [split; [exact I | unfold v; lra]|]. cbn. unfold R_dist. rewrite Rabs_left; unfold v; lra. }
  rewrite V1, V2 in X by (unfold v; lra). unfold R_dist in X.
  rewrite Rabs_pos_eq in X; lra.
Qed.
