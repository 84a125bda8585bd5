(* One pass of RemoveKnot over real arithmetic. *)
From Coq Require Import ZArith List Bool Lia Reals Lra.
From Verif Require Import Base BaseFacts RSum MultiIndex MultiIndexSpec MultiIndexFacts TensorSum
  KnotVec KnotVecSpec KnotVecFacts BSplineTheory Boehm BasisSpec Basis BasisFacts VecUtils Spaces SpacesSpec
  SpacesFacts SplineEval SplineEdit SplineSpec EvalFacts EvalThms PhysFacts AdjustFacts InsertKnots InsertFacts
  RemoveFacts RemoveCompact RemoveCheck RemovePoints RemoveKnots.
Import ListNotations.
Open Scope Z_scope.

(* the temporary values exist for every net: computed from both ends towards the middle *)
Section Table.
Variables (d : nat) (off last fi : Z).
Variable base : list Z -> R.
Variables f g : list Z -> R -> R.
Fixpoint loT (idx : list Z) (k : nat) : R :=
  match k with O => base (upd idx d off) | S k' => f (upd idx d (off + Z.of_nat (S k'))) (loT idx k') end.
Fixpoint hiT (idx : list Z) (k : nat) : R :=
  match k with O => base (upd idx d (last + 1)) | S k' => g (upd idx d (last + 1 - Z.of_nat (S k'))) (hiT idx k') end.
Definition table (idx : list Z) : R :=
  if nth d idx 0 <? fi then loT idx (Z.to_nat (nth d idx 0 - off)) else hiT idx (Z.to_nat (last + 1 - nth d idx 0)).

Lemma loT_upd idx a k : loT (upd idx d a) k = loT idx k.
Proof. induction k as [|k IH]; cbn [loT]; rewrite upd_upd; [reflexivity | now rewrite IH]. Qed.
Lemma hiT_upd idx a k : hiT (upd idx d a) k = hiT idx k.
Proof. induction k as [|k IH]; cbn [hiT]; rewrite upd_upd; [reflexivity | now rewrite IH]. Qed.

Lemma upd_same_pos idx x : nth d idx 0 = x -> upd idx d x = idx.
Proof. intros <-. apply upd_nth_self. Qed.

Lemma table_end idx : (d < length idx)%nat -> off < fi -> fi <= last + 1 -> nth d idx 0 = off \/ nth d idx 0 = last + 1 -> table idx = base idx.
Proof.
  intros Hd H1 H2 [E|E]; unfold table; rewrite E.
  - destruct (Z.ltb_spec off fi); [|lia]. rewrite Z.sub_diag. cbn [Z.to_nat loT]. now rewrite upd_same_pos.
  - destruct (Z.ltb_spec (last + 1) fi); [lia|]. rewrite Z.sub_diag. cbn [Z.to_nat hiT]. now rewrite upd_same_pos.
Qed.
Lemma table_lo idx : (d < length idx)%nat -> off < nth d idx 0 < fi -> table idx = f idx (table (below d idx)).
Proof.
  intros Hd Hx. unfold table, below. rewrite nth_upd_same by auto.
  destruct (Z.ltb_spec (nth d idx 0) fi); [|lia]. destruct (Z.ltb_spec (nth d idx 0 - 1) fi); [|lia].
  replace (Z.to_nat (nth d idx 0 - off)) with (S (Z.to_nat (nth d idx 0 - 1 - off))) by lia. cbn [loT].
  rewrite loT_upd. f_equal. apply upd_same_pos. lia.
Qed.
Lemma table_hi idx : (d < length idx)%nat -> fi <= nth d idx 0 <= last -> table idx = g idx (table (above d idx)).
Proof.
  intros Hd Hx. unfold table, above. rewrite nth_upd_same by auto.
  destruct (Z.ltb_spec (nth d idx 0) fi); [lia|]. destruct (Z.ltb_spec (nth d idx 0 + 1) fi); [lia|].
  replace (Z.to_nat (last + 1 - nth d idx 0)) with (S (Z.to_nat (last + 1 - (nth d idx 0 + 1)))) by lia. cbn [hiT].
  rewrite hiT_upd. f_equal. apply upd_same_pos. lia.
Qed.
End Table.

Section Once.
Variable dz : R -> R.
Local Notation F := (Rops dz).
Implicit Types s : spline F.

(* removing control points never goes out of bounds *)
Lemma remove_points_total (ph : phys F) d first last (sc : list R) tol : phys_ok dz ph -> (d < length (ph_npts ph))%nat ->
  1 <= first -> first <= last -> last + 2 <= nth d (ph_npts ph) 0 -> last - (first - 1) <= zlen sc ->
  exists r, remove_points (F := F) ph sc first last d tol = Ok r /\
    forall ph', r = Some ph' -> phys_ok dz ph' /\ ph_dim ph' = ph_dim ph /\ ph_npts ph' = short (ph_npts ph) d /\
      is_weighted dz ph' = is_weighted dz ph.
Proof.
  intros Hok Hd Hf Hfl Hl Hsc. pose proof (half_range first last Hfl) as (F2 & F3 & F4).
  set (al := coef (first - 1) sc).
  set (tw := table d (first - 1) last (fi first last) (pweight dz ph)
     (fun idx y => ndiv (n := F) (pweight dz ph idx - (1 - al (nth d idx 0%Z)) * y)%R (al (nth d idx 0)))
     (fun idx y => ndiv (n := F) (pweight dz ph idx - (1 - (1 - al (nth d idx 0%Z))) * y)%R (1 - al (nth d idx 0%Z))%R)).
  set (tp := fun idx c => table d (first - 1) last (fi first last) (fun idx => fin dz ph tw idx (hq dz ph idx c))
     (fun idx y => fin dz ph tw idx (ndiv (n := F) (hq dz ph idx c - (1 - al (nth d idx 0%Z)) * y * ew dz ph tw (below d idx))%R (al (nth d idx 0))))
     (fun idx y => fin dz ph tw idx (ndiv (n := F) (hq dz ph idx c - (1 - (1 - al (nth d idx 0%Z))) * y * ew dz ph tw (above d idx))%R
                                    (1 - al (nth d idx 0%Z))%R)) idx).
  destruct (remove_points_ok dz ph d first last sc tw tp Hok Hd Hf Hfl Hl Hsc) with (tol := tol) as (r & E & H & _).
  - intros _ idx [Hb _] Hx. apply table_end; auto; [now apply (ins_len dz ph d) | lia | lia].
  - intros _ idx [Hb _] Hx. apply (table_lo d (first - 1) last (fi first last)); auto. now apply (ins_len dz ph d).
  - intros _ idx [Hb _] Hx. apply (table_hi d (first - 1) last (fi first last)); [now apply (ins_len dz ph d) | lia].
  - intros idx c [Hb _] Hc Hx. unfold tp. apply (table_end d (first - 1) last (fi first last)); auto; [now apply (ins_len dz ph d) | lia | lia].
  - intros idx c [Hb _] Hc Hx. unfold tp. apply (table_lo d (first - 1) last (fi first last)); auto. now apply (ins_len dz ph d).
  - intros idx c [Hb _] Hc Hx. unfold tp. apply (table_hi d (first - 1) last (fi first last)); [now apply (ins_len dz ph d) | lia].
  - exists r. split; [exact E|]. intros ph' Er. destruct (H ph' Er) as (H1 & H2 & H3 & H4 & _). auto.
Qed.

Definition rscale (kv : list R) (p : Z) u (first last : Z) : list R :=
  map (fun x => ((u - tk kv x) / (tk kv (x + p) - tk kv x))%R) (zseq first (Z.to_nat (last - first + 1))).

(* the pass in terms of the net *)
Lemma remove_once_eq s d kv p u n tol : well_formed s ->
  nth_error (knots_of s) d = Some (ins1 kv n u) -> nth_error (degs_of s) d = Some p ->
  inner kv p u n -> Z.of_nat (occurrences kv u) < p -> zlen kv + 1 < 2 ^ 31 ->
  let first := Z.of_nat n - p in let last := Z.of_nat n - 1 - Z.of_nat (occurrences kv u) in
  1 <= first /\ first <= last /\ last + 2 <= nth d (npts_of s) 0 /\ nth d (npts_of s) 0 = zlen kv - p /\
  zlen (rscale kv p u first last) = last - first + 1 /\
  (forall x, first <= x <= last -> coef (first - 1) (rscale kv p u first last) x = alpha (tk kv) (Z.of_nat n - 1) u (Z.to_nat p) x /\
     (0 < alpha (tk kv) (Z.of_nat n - 1) u (Z.to_nat p) x < 1)%R) /\
  (forall x, x < first -> alpha (tk kv) (Z.of_nat n - 1) u (Z.to_nat p) x = 1%R) /\
  (forall x, last < x -> alpha (tk kv) (Z.of_nat n - 1) u (Z.to_nat p) x = 0%R) /\
  remove_knot_once s u d tol =
    bind (remove_points (sp_ph s) (rscale kv p u first last) first last d tol)
      (fun r => Ok (match r with None => None | Some ph => Some (mkSpline (F := F) (mkps dz (upd (knots_of s) d kv) (degs_of s)) ph) end)).
Proof.
  intros Hwf Ek Ed Hin Ho Hz first last.
  pose proof (inner_step _ _ _ _ Hin) as Hin'. pose proof (inner_ends _ _ _ _ Hin) as [E1 E2].
  pose proof (inner_below _ _ _ _ Hin) as E3.
  destruct (wf_direction dz s d _ p Hwf Ek Ed) as (Hg & Hd & Hnd).
  pose proof Hin as ((Hp & _ & Hnn & _) & _ & Hat & Hu). pose proof Hat as (Hn1 & Hlo & Hhi).
  destruct (occurrences_below kv u n Hnn Hat) as (_ & Hlt & Heq).
  assert (HL : zlen (ins1 kv n u) = zlen kv + 1) by (unfold zlen; rewrite ins1_length by lia; lia).
  set (o := occurrences kv u) in *.
  assert (Hr : forall x, first <= x <= last -> (tk kv x < u)%R /\ (u < tk kv (x + p))%R).
  { intros x Hx. split.
    - rewrite tk_knot' by (unfold first, last, zlen in *; lia). apply Hlt. unfold first, last in *; lia.
    - apply Rlt_le_trans with (tk kv (Z.of_nat n)).
      + rewrite tk_knot' by (unfold zlen; lia). apply Hhi. lia.
      + apply tk_monotone; auto. unfold first in *. lia. }
  split; [unfold first; lia|]. split; [unfold first, last; lia|]. split; [unfold last; rewrite Hnd, HL; lia|].
  split; [rewrite Hnd, HL; lia|]. split; [unfold rscale, zlen; rewrite map_length, zseq_length; unfold first, last; lia|].
  split.
  { intros x Hx. destruct (Hr x Hx) as [R1 R2]. unfold alpha. rewrite Z2Nat.id by lia.
    destruct (Z_le_dec (x + p) (Z.of_nat n - 1)); [unfold first in *; lia|]. destruct (Z_le_dec x (Z.of_nat n - 1)); [|unfold last in *; lia].
    split.
    - unfold coef, rscale. rewrite (nth_map_in _ _ _ 0) by (rewrite zseq_length; lia). rewrite zseq_nth by lia.
      replace (first + Z.of_nat (Z.to_nat (x - (first - 1) - 1))) with x by lia. reflexivity.
    - assert (0 < tk kv (x + p)%Z - tk kv x)%R by lra. split.
      + apply Rmult_lt_0_compat; [lra|]. now apply Rinv_0_lt_compat.
      + apply Rmult_lt_reg_r with (tk kv (x + p)%Z - tk kv x)%R; auto. unfold Rdiv. rewrite Rmult_assoc, Rinv_l by lra. lra. }
  split.
  { intros x Hx. unfold alpha. rewrite Z2Nat.id by lia. destruct (Z_le_dec (x + p) (Z.of_nat n - 1)); auto. unfold first in *; lia. }
  split.
  { intros x Hx. unfold alpha. rewrite Z2Nat.id by lia.
    destruct (Z_le_dec (x + p) (Z.of_nat n - 1)) as [Q|Q]; [unfold last in *; lia|]. destruct (Z_le_dec x (Z.of_nat n - 1)); auto.
    rewrite (tk_knot' kv x) by (unfold last, zlen in *; lia). rewrite Heq by (unfold last in *; lia).
    unfold Rdiv. rewrite Rminus_diag_eq by reflexivity. apply Rmult_0_l. }
  unfold remove_knot_once, sp_knots, sp_deg, dget. fold (knots_of s) (degs_of s). rnorm. rewrite Ek. cbn [bind].
  rewrite (inner_span dz _ p u _ Hin'). cbn [bind]. rewrite Ed. cbn [bind]. rewrite multiplicity_occ, occurrences_ins1. fold o.
  assert (U1 : u64 (Z.of_nat (S n) - 1 - Z.of_nat (S o)) = last) by (unfold u64, last; rewrite Z.mod_small; lia).
  assert (U2 : u64 (Z.of_nat (S n) - 1 - p) = first) by (unfold u64, first; rewrite Z.mod_small; lia).
  assert (U3 : Z.of_nat (S n) - 1 - p = first) by (unfold first; lia).
  rewrite U1, U2, U3.
  rewrite remove_scaling_ok; try (unfold first, last in *; rnorm; rewrite ?HL; unfold zlen in *; lia).
  cbn [bind]. assert (I2 : i32 last = last) by (unfold i32; rewrite Z.mod_small; unfold last; lia). rewrite I2.
  assert (Esc : map (fun x => ndiv (n := F) (u - tk (ins1 kv n u) x)%R (tk (ins1 kv n u) (x + p + 1) - tk (ins1 kv n u) x)%R)
                  (zseq first (Z.to_nat (last - first + 1))) = rscale kv p u first last).
  { unfold rscale. apply map_ext_in. intros x Hx. apply zseq_In in Hx. rewrite !tk_ins1 by lia. unfold ins.
    destruct (Z_le_dec x (Z.of_nat n - 1)); [|unfold last, first in *; lia]. destruct (Z_le_dec (x + p + 1) (Z.of_nat n - 1)); [unfold first in *; lia|].
    destruct (Z.eq_dec (x + p + 1) (Z.of_nat n - 1 + 1)); [unfold first in *; lia|]. replace (x + p + 1 - 1) with (x + p) by lia.
    destruct (Hr x ltac:(lia)). rewrite ndiv_R by lra. reflexivity. }
  rnorm. rewrite Esc.
  destruct (remove_points (sp_ph s) (rscale kv p u first last) first last d tol) as [[ph|]|e|]; cbn [bind]; auto.
  rewrite (wf_mkps dz s Hwf).
  rewrite (ps_remove_ok dz (knots_of s) (degs_of s) d u (ins1 kv n u) kv p); auto.
  - now apply wf_lens.
  - now apply (inner_remove dz kv p).
  - rnorm. lia.
Qed.

(* one pass: either nothing, or one knot and one control point fewer *)
Lemma remove_once_ok s d kv p u n tol : well_formed s ->
  nth_error (knots_of s) d = Some (ins1 kv n u) -> nth_error (degs_of s) d = Some p ->
  inner kv p u n -> Z.of_nat (occurrences kv u) < p -> zlen kv + 1 < 2 ^ 31 ->
  exists r, remove_knot_once s u d tol = Ok r /\
    forall s', r = Some s' -> well_formed s' /\ knots_of s' = upd (knots_of s) d kv /\ degs_of s' = degs_of s /\
      ph_dim (sp_ph s') = ph_dim (sp_ph s) /\ npts_of s' = upd (npts_of s) d (nth d (npts_of s) 0 - 1) /\
      is_weighted dz (sp_ph s') = is_weighted dz (sp_ph s).
Proof.
  intros Hwf Ek Ed Hin Ho Hz.
  destruct (remove_once_eq s d kv p u n tol Hwf Ek Ed Hin Ho Hz) as (G1 & G2 & G3 & G4 & G5 & _ & _ & _ & E).
  destruct (wf_direction dz s d _ p Hwf Ek Ed) as (Hg & Hd & Hnd).
  set (first := Z.of_nat n - p) in *. set (last := Z.of_nat n - 1 - Z.of_nat (occurrences kv u)) in *.
  destruct (remove_points_total (sp_ph s) d first last (rscale kv p u first last) tol (wf_phys dz s Hwf) Hd G1 G2 G3 ltac:(lia)) as (r & Er & Hr).
  rewrite E, Er. cbn [bind]. eexists. split; [reflexivity|]. intros s' Es. destruct r as [ph|]; [|discriminate]. injection Es as <-.
  destruct (Hr ph eq_refl) as (H1 & H2 & H3 & H4). pose proof Hwf as [W1 W2 W3 W4 W5 W6].
  assert (Hnp : ph_npts ph = upd (npts_of s) d (nth d (npts_of s) 0 - 1)) by (rewrite H3; reflexivity).
  split.
  - apply wf_build; auto.
    + apply Forall2_upd; auto. intros q Eq. assert (q = p) by congruence. subst q. apply Hin.
    + rewrite Hnp, (map2_upd_l _ _ _ d _ p Ed). rewrite <- W3. f_equal. rewrite G4. rnorm. lia.
  - split; [reflexivity|]. split; [reflexivity|]. split; [auto|]. split; [exact Hnp | auto].
Qed.

(* the whole loop *)
Lemma remove_loop_ok u d p tol : forall m s kv n, well_formed s ->
  nth_error (knots_of s) d = Some kv -> nth_error (degs_of s) d = Some p ->
  inner kv p u n -> Z.of_nat (occurrences kv u) <= p -> (m <= occurrences kv u)%nat -> zlen kv < 2 ^ 31 ->
  exists c s' kv', remove_knot_loop m s u d tol = Ok (Z.of_nat c, s') /\ (c <= m)%nat /\ well_formed s' /\
    knots_of s' = upd (knots_of s) d kv' /\ kv = insm kv' (n - c) u c /\ inner kv' p u (n - c) /\
    degs_of s' = degs_of s /\ ph_dim (sp_ph s') = ph_dim (sp_ph s) /\
    npts_of s' = upd (npts_of s) d (nth d (npts_of s) 0 - Z.of_nat c) /\ (c = 0%nat -> s' = s) /\
    is_weighted dz (sp_ph s') = is_weighted dz (sp_ph s).
Proof.
  induction m as [|m IH]; intros s kv n Hwf Ek Ed Hin Ho Hm Hz.
  - exists 0%nat, s, kv. destruct (wf_direction dz s d _ p Hwf Ek Ed) as (Hg & Hd & Hnd).
    rewrite Nat.sub_0_r, insm_0, Z.sub_0_r, upd_nth_self. cbn [remove_knot_loop]. 
    split; [reflexivity|]. split; [lia|]. split; [auto|]. split; [symmetry; now apply upd_id|]. auto 10.
  - cbn [remove_knot_loop].
    destruct (inner_shrink kv p u n Hin ltac:(lia)) as (kv0 & E0 & Hin0).
    assert (Hocc : occurrences kv u = S (occurrences kv0 u)) by (rewrite E0; apply occurrences_ins1).
    assert (Hn0 : (1 <= n - 1 < length kv0)%nat) by (destruct Hin0 as (_ & _ & (H & _) & _); exact H).
    assert (HL : zlen kv = zlen kv0 + 1) by (rewrite E0; unfold zlen; rewrite ins1_length by lia; lia).
    rewrite E0 in Ek.
    destruct (remove_once_ok s d kv0 p u (n - 1) tol Hwf Ek Ed Hin0 ltac:(lia) ltac:(lia)) as (r & Er & Hr).
    rewrite Er. cbn [bind]. destruct r as [s1|].
    + destruct (Hr s1 eq_refl) as (W & K & G & Dm & Np & Wt).
      destruct (wf_direction dz s d _ p Hwf Ek Ed) as (_ & Hd & _).
      assert (Ek1 : nth_error (knots_of s1) d = Some kv0) by (rewrite K; now apply (nth_error_upd_same _ _ _ (ins1 kv0 (n - 1) u))).
      assert (Ed1 : nth_error (degs_of s1) d = Some p) by now rewrite G.
      destruct (IH s1 kv0 (n - 1)%nat W Ek1 Ed1 Hin0 ltac:(lia) ltac:(lia) ltac:(lia)) as (c & s' & kv' & E & Hc & W' & K' & Ekv & Hin' & G' & Dm' & Np' & _ & Wt').
      rewrite E. cbn [bind fst snd]. exists (S c), s', kv'. split; [do 2 f_equal; lia|]. split; [lia|]. split; [auto|].
      split; [rewrite K', K; apply upd_upd|].
      assert (Hn' : (1 <= n - 1 - c < length kv')%nat) by (destruct Hin' as (_ & _ & (H & _) & _); exact H).
      replace (n - S c)%nat with (n - 1 - c)%nat by lia.
      split; [rewrite insm_S by lia; rewrite <- Ekv; rewrite E0; f_equal; lia|].
      split; [auto|]. split; [congruence|]. split; [congruence|].
      split; [rewrite Np', Np, upd_upd, nth_upd_same by auto; f_equal; lia|]. split; [lia | congruence].
    + exists 0%nat, s, kv. destruct (wf_direction dz s d _ p Hwf Ek Ed) as (Hg & Hd & Hnd). rewrite <- E0 in Ek.
      rewrite Nat.sub_0_r, insm_0, Z.sub_0_r, upd_nth_self.
      split; [reflexivity|]. split; [lia|]. split; [auto|]. split; [symmetry; now apply upd_id|]. auto 10.
Qed.
End Once.
