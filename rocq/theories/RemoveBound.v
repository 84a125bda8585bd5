(* How far knot removal moves a spline (real arithmetic). *)
From Coq Require Import ZArith List Bool Lia Reals Lra Permutation.
From Verif Require Import Base BaseFacts RSum MultiIndex MultiIndexSpec MultiIndexFacts TensorSum
  KnotVec KnotVecSpec KnotVecFacts BSplineTheory Boehm BasisSpec Basis BasisFacts VecUtils Spaces SpacesSpec
  SpacesFacts SplineEval SplineEdit SplineSpec DegreeSpec EvalFacts EvalThms PhysFacts AdjustFacts InsertKnots InsertFacts
  EditSpec InsertThms RemoveFacts RemoveCompact RemoveCheck RemovePoints RemoveKnots RemoveMain RemoveThms RemoveSpec RemoveDecide
  VecSpec VecThms.
Import ListNotations.
Open Scope Z_scope.

(* ---- vectors given by their components ---- *)
Section Norm.
Local Open Scope R_scope.
Definition nrm (cs : list Z) (f : Z -> R) : R := sqrt (lsum (fun c => f c * f c) cs).

Lemma nrm_dot cs f : nrm cs f = sqrt (dot (map f cs) (map f cs)).
Proof. unfold nrm. f_equal. induction cs as [|c cs IH]; cbn [lsum map]; [reflexivity|]. rewrite dot_cons, IH. reflexivity. Qed.
Lemma nrm_euclid cs f g : euclid (map f cs) (map g cs) = nrm cs (fun c => f c - g c).
Proof. unfold euclid, nrm. f_equal. induction cs as [|c cs IH]; cbn [map combine lsum fst snd]; [reflexivity|]. now rewrite IH. Qed.
Lemma nrm_ext cs f g : (forall c, In c cs -> f c = g c) -> nrm cs f = nrm cs g.
Proof. intros H. unfold nrm. f_equal. apply lsum_ext. intros c Hc. now rewrite H. Qed.
Lemma nrm_nonneg cs f : 0 <= nrm cs f.
Proof. apply sqrt_pos. Qed.
Lemma nrm_zero cs : nrm cs (fun _ => 0) = 0.
Proof. unfold nrm. rewrite lsum_zero; [apply sqrt_0|]. intros. ring. Qed.
Lemma nrm_triangle cs f g : nrm cs (fun c => f c + g c) <= nrm cs f + nrm cs g.
Proof.
  rewrite !nrm_dot. replace (map (fun c => f c + g c) cs) with (combination 1 (map f cs) 1 (map g cs)).
  - apply triangle_norm. now rewrite !map_length.
  - unfold combination. induction cs as [|c cs IH]; cbn [map map2]; [reflexivity|]. rewrite IH. f_equal. ring.
Qed.
Lemma nrm_scale cs k f : 0 <= k -> nrm cs (fun c => k * f c) = k * nrm cs f.
Proof.
  intros Hk. unfold nrm. rewrite (lsum_ext _ (fun c => (k * k) * (f c * f c))) by (intros; ring).
  rewrite lsum_scal, sqrt_mult_alt by (apply Rle_0_sqr). now rewrite sqrt_square.
Qed.
Lemma nrm_abs cs k f : nrm cs (fun c => k * f c) = Rabs k * nrm cs f.
Proof.
  unfold nrm. rewrite (lsum_ext _ (fun c => (k * k) * (f c * f c))) by (intros; ring).
  rewrite lsum_scal, sqrt_mult_alt by (apply Rle_0_sqr). change (k * k) with (Rsqr k). now rewrite sqrt_Rsqr_abs.
Qed.
Lemma nrm_sub cs x f : nrm cs f <= nrm (cs ++ [x]) f.
Proof. unfold nrm. apply sqrt_le_1_alt. rewrite lsum_app. cbn [lsum]. pose proof (Rle_0_sqr (f x)) as H. unfold Rsqr in H. lra. Qed.
Lemma nrm_last cs x f : Rabs (f x) <= nrm (cs ++ [x]) f.
Proof.
  rewrite <- sqrt_Rsqr_abs. unfold nrm. apply sqrt_le_1_alt. rewrite lsum_app. cbn [lsum]. unfold Rsqr.
  assert (0 <= lsum (fun c => f c * f c) cs) by (apply lsum_nonneg; intros; apply Rle_0_sqr). lra.
Qed.
Lemma nrm_lsum {A} cs (lam : A -> R) (f : A -> Z -> R) (l : list A) : (forall i, In i l -> 0 <= lam i) ->
  nrm cs (fun c => lsum (fun i => lam i * f i c) l) <= lsum (fun i => lam i * nrm cs (f i)) l.
Proof.
  induction l as [|i l IH]; intros H; cbn [lsum].
  - rewrite nrm_zero. lra.
  - eapply Rle_trans; [apply nrm_triangle|]. rewrite nrm_scale by (apply H; now left).
    apply Rplus_le_compat_l. apply IH. intros j Hj. apply H. now right.
Qed.
Lemma nrm_average {A} cs (lam : A -> R) (f : A -> Z -> R) (l : list A) t : (forall i, In i l -> 0 <= lam i) ->
  lsum lam l = 1 -> (forall i, In i l -> nrm cs (f i) <= t) -> nrm cs (fun c => lsum (fun i => lam i * f i c) l) <= t.
Proof.
  intros H1 H2 H3. eapply Rle_trans; [now apply nrm_lsum|]. rewrite <- (Rmult_1_l t), <- H2, <- lsum_scal_r.
  apply lsum_le. intros i Hi. apply Rmult_le_compat_l; auto.
Qed.
End Norm.

Section Bound.
Context {dz : R -> R}.
Notation F := (Rops dz).
Implicit Types s : spline F.

(* basis products: non-negative, sum to one *)
Lemma basis_unit s us : well_formed s -> in_domain s us ->
  (forall idx, In idx (all_indices (npts_of s)) -> (0 <= basis_product (knots_of s) (degs_of s) us idx)%R) /\
  lsum (basis_product (knots_of s) (degs_of s) us) (all_indices (npts_of s)) = 1%R.
Proof.
  intros Hwf Hu. destruct (wf_dirs dz s us Hwf Hu) as (L & HwfL & -> & H0). pose proof HwfL as (HL & _). split.
  - intros idx Hi. apply all_indices_box in Hi. destruct (wfL_of dz s L HwfL) as (E1 & E2 & E3).
    rewrite E1, E2, (basis_product_dirs dz) by (auto; now rewrite <- E3).
    rewrite E3 in Hi. clear - HL H0 Hi. unfold in_box, lensL, order0 in *. revert idx Hi.
    induction HL as [|x L Hx HL IH]; intros idx Hi; cbn [map prodf] in *; [lra|].
    inversion Hi as [|? i ? idx' Hi1 Hi2]; subst. inversion H0; subst. apply Rmult_le_pos; [|auto].
    now apply (dfactor_nonneg dz).
  - rewrite (lsum_ext _ (fun idx => basis_product (knots_of s) (degs_of s) (map du L) idx * 1)%R) by (intros; ring).
    rewrite (full_sum dz s L (fun _ => 1%R)) by auto. apply tsum_const. now apply (dirs_one dz).
Qed.

(* the sum of a homogeneous component *)
Definition hsum s us c : R := lsum (fun idx => basis_product (knots_of s) (degs_of s) us idx * hpart s idx c)%R (all_indices (npts_of s)).
Lemma hsum_low s us c : 0 <= c < ph_dim (sp_ph s) -> hsum s us c = weighted_sum s us c.
Proof. intros H. apply lsum_ext. intros idx _. unfold hpart. destruct (Z.ltb_spec c (ph_dim (sp_ph s))); [auto | lia]. Qed.
Lemma hsum_top s us : hsum s us (ph_dim (sp_ph s)) = weight_function s us.
Proof. apply lsum_ext. intros idx _. unfold hpart. now rewrite Z.ltb_irrefl. Qed.

Lemma left_base s d a first cur c : left_part s d a first cur c (first - 1) = hpart s (upd cur d (first - 1)) c.
Proof. unfold left_part. now rewrite Z.sub_diag. Qed.
Lemma left_step s d a first cur c i : first - 1 < i -> 
  left_part s d a first cur c i = ((hpart s (upd cur d i) c - (1 - a i) * left_part s d a first cur c (i - 1)) / a i)%R.
Proof.
  intros H. unfold left_part. replace (Z.to_nat (i - (first - 1))) with (S (Z.to_nat (i - 1 - (first - 1)))) by lia.
  cbn [from_left]. cbv zeta. now replace (first - 1 + Z.of_nat (S (Z.to_nat (i - 1 - (first - 1))))) with i by lia.
Qed.
Lemma right_base s d a last cur c : right_part s d a last cur c (last + 1) = hpart s (upd cur d (last + 1)) c.
Proof. unfold right_part. now rewrite Z.sub_diag. Qed.
Lemma right_step s d a last cur c i : i < last + 1 -> 
  right_part s d a last cur c i = ((hpart s (upd cur d i) c - a i * right_part s d a last cur c (i + 1)) / (1 - a i))%R.
Proof.
  intros H. unfold right_part. replace (Z.to_nat (last + 1 - i)) with (S (Z.to_nat (last + 1 - (i + 1)))) by lia.
  cbn [from_right]. cbv zeta. now replace (last + 1 - Z.of_nat (S (Z.to_nat (last + 1 - (i + 1))))) with i by lia.
Qed.

Section Net.
Variables (s : spline F) (d : nat) (a al : Z -> R) (first last : Z).
Notation mi := (middle first last).
Notation N := (new_part s d a first last).
Hypothesis Hfl : first <= last.
Hypothesis Ha : forall x, first <= x <= last -> (0 < a x < 1)%R /\ al x = a x.
Hypothesis Hlo : forall x, x < first -> al x = 1%R.
Hypothesis Hhi : forall x, last < x -> al x = 0%R.

Definition dev (idx : list Z) (c : Z) : R :=
  if nth d idx 0 =? mi
  then (hpart s (upd idx d mi) c - (a mi * right_part s d a last idx c (mi + 1)%Z + (1 - a mi) * left_part s d a first idx c (mi - 1)%Z))%R
  else 0%R.

Lemma mi_range : first <= mi <= last.
Proof. exact (proj1 (half_range first last Hfl)). Qed.

Lemma net_back idx c : (d < length idx)%nat ->
  (hpart s idx c - dev idx c)%R = (al (nth d idx 0%Z) * N idx c + (1 - al (nth d idx 0%Z)) * N (below d idx) c)%R.
Proof.
  intros Hd. pose proof mi_range as HM. unfold new_part, below, dev. cbv zeta. rewrite nth_upd_same by auto. rewrite !upd_upd.
  set (i := nth d idx 0). replace (i - 1 + 1) with i by lia.
  assert (Ei : upd idx d i = idx) by apply upd_nth_self.
  rewrite left_upd, right_upd. destruct (Z.eqb_spec i mi) as [E|E].
  - destruct (Ha i ltac:(lia)) as [A ->]. rewrite <- E, Ei. destruct (Z.ltb_spec i i); [lia|]. destruct (Z.ltb_spec (i - 1) i); [|lia].
    destruct (Z.ltb_spec last i); [lia|]. destruct (Z.ltb_spec (i - 1) first).
    + assert (i = first) by lia. replace (i - 1) with (first - 1) by lia. rewrite left_base. ring.
    + ring.
  - rewrite Rminus_0_r. destruct (Z.ltb_spec i mi) as [C|C].
    + destruct (Z.ltb_spec (i - 1) mi); [|lia]. destruct (Z.ltb_spec i first).
      * rewrite Hlo by lia. ring.
      * destruct (Ha i ltac:(lia)) as [A ->]. rewrite (left_step s d a first idx c i) by lia. rewrite Ei.
        destruct (Z.ltb_spec (i - 1) first).
        -- assert (i = first) by lia. replace (i - 1) with (first - 1) by lia. rewrite left_base. field. lra.
        -- field. lra.
    + destruct (Z.ltb_spec (i - 1) mi); [lia|]. destruct (Z.ltb_spec last i).
      * rewrite Hhi by lia. rewrite Ei. destruct (Z.ltb_spec last (i - 1)); [ring|].
        assert (Ei' : i = last + 1) by lia. rewrite Ei', right_base, <- Ei', Ei. ring.
      * destruct (Ha i ltac:(lia)) as [A ->]. destruct (Z.ltb_spec last (i - 1)); [lia|].
        rewrite (right_step s d a last idx c i) by lia. rewrite Ei. field. lra.
Qed.

Lemma dev_gap idx : (d < length idx)%nat -> nth d idx 0 = mi -> nrm (parts s) (dev idx) = gap_middle s d a first last (upd idx d 0).
Proof.
  intros Hd E. unfold gap_middle. cbv zeta. rewrite nrm_euclid. apply nrm_ext. intros c _. unfold dev. rewrite E, Z.eqb_refl.
  now rewrite left_upd, right_upd, upd_upd.
Qed.

(* an even number of equations: the two solutions meet at the same control point *)
Lemma gap_even cur : Z.Odd (last - first) -> (d < length cur)%nat ->
  gap_middle s d a first last cur = ((1 - a mi) * gap_ends s d a first last cur)%R.
Proof.
  intros [q Eq] Hd. pose proof mi_range as HM. unfold gap_middle, gap_ends. cbv zeta. rewrite !nrm_euclid.
  assert (Eo : opposite first last + 1 = mi).
  { unfold opposite, middle. replace (last - first + 1) with ((q + 1) * 2) by lia. rewrite Z.div_mul by lia. lia. }
  rewrite Eo. destruct (Ha mi HM) as [A _].
  rewrite (nrm_ext _ (fun c => left_part s d a first cur c (mi - 1) - right_part s d a last cur c mi)%R
                     (fun c => (-1) * (right_part s d a last cur c mi - left_part s d a first cur c (mi - 1)%Z))%R) by (intros; ring).
  rewrite nrm_abs. replace (Rabs (-1)) with 1%R by (unfold Rabs; destruct (Rcase_abs (-1)); lra). rewrite Rmult_1_l. rewrite <- nrm_scale by lra. apply nrm_ext. intros c _.
  rewrite (right_step s d a last cur c mi) by lia. field. lra.
Qed.
Lemma gap_even_le cur t : Z.Odd (last - first) -> (d < length cur)%nat ->
  (gap_ends s d a first last cur <= t)%R -> (gap_middle s d a first last cur <= t)%R.
Proof.
  intros Ho Hd H. rewrite gap_even by auto. pose proof mi_range as HM. destruct (Ha mi HM) as [A _].
  assert (0 <= gap_ends s d a first last cur)%R by apply euclid_nonneg. nra.
Qed.
End Net.

(* the homogeneous sums of the two splines *)
Lemma sums_close s s' d kv0 p u k us (t : R) : well_formed s -> well_formed s' ->
  nth_error (knots_of s) d = Some (ins1 kv0 k u) -> nth_error (degs_of s) d = Some p -> inner kv0 p u k ->
  (1 <= k < length kv0)%nat -> Z.of_nat (occurrences kv0 u) < p -> zlen kv0 + 1 < 2 ^ 31 ->
  let first := Z.of_nat k - p in let last := Z.of_nat k - 1 - Z.of_nat (occurrences kv0 u) in
  let a := ratio (ins1 kv0 k u) p u in
  knots_of s' = upd (knots_of s) d kv0 -> degs_of s' = degs_of s -> ph_dim (sp_ph s') = ph_dim (sp_ph s) ->
  (forall idx, in_box (npts_of s') idx -> forall c, 0 <= c <= ph_dim (sp_ph s) -> hpart s' idx c = new_part s d a first last idx c) ->
  (forall cur, In cur (lines_of s d) -> (gap_middle s d a first last cur <= t)%R) -> (0 <= t)%R ->
  in_domain s us -> (nrm (parts s) (fun c => hsum s us c - hsum s' us c) <= t)%R.
Proof.
  intros Hwf Hwf' Ek Ed Hin Hk Ho Hz first last a Ek' Ed' Edim Hnet Hgap Ht Hu.
  destruct (remove_once_eq dz s d kv0 p u k 0%R Hwf Ek Ed Hin Ho Hz) as (G1 & G2 & G3 & G4 & _ & A1 & A2 & A3 & _).
  fold first last in G1, G2, G3, A1, A2, A3.
  set (al := alpha (tk kv0) (Z.of_nat k - 1) u (Z.to_nat p)) in *.
  destruct (wf_direction dz s d _ p Hwf Ek Ed) as (_ & Hd & _).
  assert (Ha : forall x, first <= x <= last -> (0 < a x < 1)%R /\ al x = a x).
  { intros x Hx. destruct (A1 x Hx) as [_ B]. unfold a. rewrite (ratio_alpha kv0 k u p x Hin Hk) by lia. fold al. auto. }
  assert (Hdim : 1 <= ph_dim (sp_ph s)) by apply Hwf.
  assert (Ek0 : nth_error (knots_of s') d = Some kv0) by (rewrite Ek'; now apply (nth_error_upd_same _ _ _ (ins1 kv0 k u))).
  assert (Eks : knots_of s = upd (knots_of s') d (ins1 kv0 k u)) by (rewrite Ek', upd_upd; symmetry; now apply upd_id).
  assert (Hu' : in_domain s' us).
  { apply (in_domain_upd_iff dz s s' d (ins1 kv0 k u) kv0 us); auto; rewrite ?first_ins1, ?final_ins1 by lia; auto. }
  (* sums over the fine net of the values obtained by inserting u again *)
  assert (ES : forall c, In c (parts s) -> hsum s' us c =
    lsum (fun idx => basis_product (knots_of s) (degs_of s) us idx * (hpart s idx c - dev s d a first last idx c))%R (all_indices (npts_of s))).
  { intros c Hc. assert (Hc' : 0 <= c <= ph_dim (sp_ph s)) by (unfold parts in Hc; apply zseq_In in Hc; lia).
    unfold hsum.
    rewrite (lsum_ext _ (fun idx => basis_product (knots_of s') (degs_of s') us idx * new_part s d a first last idx c)%R).
    2:{ intros idx Hi. rewrite Hnet; auto. now apply all_indices_box. }
    symmetry. apply (refine_sums dz s' s d kv0 p u k); auto; [congruence|].
    intros idx Hb. cbv zeta. fold al. apply net_back; auto. rewrite (in_box_length _ _ Hb). exact Hd. }
  rewrite (nrm_ext _ _ (fun c => lsum (fun idx => basis_product (knots_of s) (degs_of s) us idx * dev s d a first last idx c)%R (all_indices (npts_of s)))).
  2:{ intros c Hc. rewrite ES by auto. unfold hsum. rewrite <- lsum_minus. apply lsum_ext. intros. ring. }
  destruct (basis_unit s us Hwf Hu) as [B1 B2]. apply nrm_average; auto.
  intros idx Hi. apply all_indices_box in Hi.
  assert (L : (d < length idx)%nat) by (rewrite (in_box_length _ _ Hi); exact Hd).
  destruct (Z.eq_dec (nth d idx 0) (middle first last)) as [E|E].
  - rewrite dev_gap by auto. apply Hgap. apply all_indices_box. apply in_box_upd_both; auto. lia.
  - rewrite (nrm_ext _ _ (fun _ => 0%R)); [rewrite nrm_zero; auto|]. intros c _. unfold dev.
    destruct (Z.eqb_spec (nth d idx 0) (middle first last)); [contradiction | reflexivity].
Qed.

Definition coords s : list Z := zseq 0 (Z.to_nat (ph_dim (sp_ph s))).
Lemma coords_valid s : valid_dims s (coords s).
Proof. apply Forall_forall. intros c Hc. apply zseq_In in Hc. lia. Qed.

(* one successful removal, in the situation of the theorems *)
Lemma one_removal s s' d kv p u first last tol tol' us : well_formed s -> direction s d kv p ->
  removal_range kv p u first last -> (first_knot kv < u)%R -> Z.of_nat (occurrences kv u) <= p -> zlen kv < 2 ^ 31 ->
  is_bspline s \/ weights_nonzero s d (ratio kv p u) first last -> tolerance_in_use s tol tol' ->
  remove_knot s u d tol 1 = Ok (1, s') ->
  (Z.Odd (p - Z.of_nat (occurrences kv u)) \/ forall cur, In cur (lines_of s d) -> (gap_middle s d (ratio kv p u) first last cur <= tol')%R) ->
  in_domain s us ->
  well_formed s' /\ ph_dim (sp_ph s') = ph_dim (sp_ph s) /\ in_domain s' us /\ is_weighted dz (sp_ph s') = is_weighted dz (sp_ph s) /\
  (nrm (parts s) (fun c => hsum s us c - hsum s' us c) <= tol')%R.
Proof.
  intros Hwf Hdir Hr Hu Ho Hz Hnz Ht Hrm Hor Hdom.
  destruct (range_inner s d kv p u first last Hwf Hdir Hr Hu Ho) as (kv0 & k & Ekv & Hin & Hk & Ho0 & Ef & El & EL).
  assert (Eoc : Z.of_nat (occurrences kv u) = Z.of_nat (occurrences kv0 u) + 1).
  { rewrite Ekv, occurrences_ins1. lia. }
  destruct Hdir as [Ek Ed]. rewrite Ekv in Ek, Hnz.
  destruct (decide_once s d kv0 p u tol k Hwf Ek Ed Hin Hk Ho0 ltac:(lia)) as (r & t & E & HE & HB & HN).
  { rewrite <- Ef, <- El. exact Hnz. }
  rewrite (effective_use s tol t tol' HE Ht) in HB.
  unfold remove_knot in Hrm. change (Z.to_nat 1) with 1%nat in Hrm. cbn [remove_knot_loop] in Hrm. rewrite E in Hrm. cbn [bind] in Hrm.
  destruct r as [s1|]; [|discriminate]. injection Hrm as <-.
  destruct (HN s1 eq_refl) as (W & K & G & D & Np & Wt & HH).
  assert (HA := proj1 HB ltac:(discriminate)).
  destruct (remove_once_eq dz s d kv0 p u k 0%R Hwf Ek Ed Hin Ho0 ltac:(lia)) as (G1 & G2 & _ & _ & _ & A1 & _).
  assert (Ha : forall x, Z.of_nat k - p <= x <= Z.of_nat k - 1 - Z.of_nat (occurrences kv0 u) ->
      (0 < ratio (ins1 kv0 k u) p u x < 1)%R /\ ratio (ins1 kv0 k u) p u x = ratio (ins1 kv0 k u) p u x).
  { intros x Hx. destruct (A1 x Hx) as [_ B]. rewrite (ratio_alpha kv0 k u p x Hin Hk) by lia. auto. }
  assert (Hlen : forall cur, In cur (lines_of s d) -> (d < length cur)%nat).
  { intros cur Hc. apply all_indices_box in Hc. rewrite (in_box_length _ _ Hc), upd_length.
    apply (wf_direction dz s d _ p Hwf Ek Ed). }
  assert (Hgap : forall cur, In cur (lines_of s d) ->
     (gap_middle s d (ratio (ins1 kv0 k u) p u) (Z.of_nat k - p) (Z.of_nat k - 1 - Z.of_nat (occurrences kv0 u)) cur <= tol')%R).
  { intros cur Hc. destruct Hor as [Hodd|Hall].
    - destruct (HA cur Hc) as [H|H]; auto. eapply gap_even_le; eauto.
      replace (Z.of_nat k - 1 - Z.of_nat (occurrences kv0 u) - (Z.of_nat k - p)) with (p - Z.of_nat (occurrences kv u)) by lia. exact Hodd.
    - rewrite <- Ekv, <- Ef, <- El. now apply Hall. }
  split; [auto|]. split; [auto|]. split; [|split; [auto|]].
  - apply (in_domain_upd_iff dz s s1 d (ins1 kv0 k u) kv0 us); auto; rewrite ?first_ins1, ?final_ins1 by lia; auto.
  - apply (sums_close s s1 d kv0 p u k); auto; [lia|].
    assert (Hex : exists cur, In cur (lines_of s d)).
    { exists (map (fun _ => 0) (upd (npts_of s) d 1)). apply all_indices_box. unfold in_box.
      pose proof (wf_phys dz s Hwf) as (Hp & _). assert (Hp1 : pos_lens (upd (npts_of s) d 1)).
      { apply pos_lens_upd; [exact Hp | lia]. }
      clear - Hp1. induction Hp1; cbn [map]; constructor; auto. lia. }
    destruct Hex as (cur & Hc). eapply Rle_trans; [|exact (Hgap cur Hc)]. apply euclid_nonneg.
Qed.

(* C27 for B-splines *)
Lemma removal_deviation : forall s s' d kv p u first last tol us, well_formed s -> is_bspline s -> direction s d kv p ->
  removal_range kv p u first last -> (first_knot kv < u)%R -> Z.of_nat (occurrences kv u) <= p -> zlen kv < 2 ^ 31 ->
  remove_knot s u d tol 1 = Ok (1, s') ->
  (Z.Odd (p - Z.of_nat (occurrences kv u)) \/ forall cur, In cur (lines_of s d) -> (gap_middle s d (ratio kv p u) first last cur <= tol)%R) ->
  in_domain s us ->
  exists pt pt', evaluate s us (zseq 0 (Z.to_nat (ph_dim (sp_ph s)))) = Ok pt /\
    evaluate s' us (zseq 0 (Z.to_nat (ph_dim (sp_ph s)))) = Ok pt' /\ (euclid pt pt' <= tol)%R.
Proof.
  intros s s' d kv p u first last tol us Hwf Hb Hdir Hr Hu Ho Hz Hrm Hor Hdom.
  assert (Ht : tolerance_in_use s tol tol) by (split; [auto | contradiction]).
  destruct (one_removal s s' d kv p u first last tol tol us Hwf Hdir Hr Hu Ho Hz (or_introl Hb) Ht Hrm Hor Hdom) as (W & D & Hdom' & Wt & HN).
  assert (Hb' : is_bspline s') by (apply weighted_bspline; rewrite Wt; now apply weighted_bspline).
  fold (coords s). pose proof (coords_valid s) as Hv.
  assert (Hv' : valid_dims s' (coords s)) by (unfold valid_dims in *; now rewrite D).
  exists (map (hsum s us) (coords s)), (map (hsum s' us) (coords s)). split; [|split].
  - rewrite (eval_quotient dz s us (coords s)); auto; rewrite weight_function_bspline by auto; [|lra].
    apply (f_equal (@Ok (list R))). apply map_ext_in. intros c Hc. apply zseq_In in Hc. rewrite hsum_low by lia. field.
  - rewrite (eval_quotient dz s' us (coords s)); auto; rewrite weight_function_bspline by auto; [|lra].
    apply (f_equal (@Ok (list R))). apply map_ext_in. intros c Hc. apply zseq_In in Hc. rewrite hsum_low by lia. field.
  - rewrite nrm_euclid. eapply Rle_trans; [|exact HN]. rewrite parts_split by apply Hwf. apply nrm_sub.
Qed.

Lemma from_origin_nrm s idx : from_origin s idx = nrm (coords s) (coordinate s idx).
Proof.
  unfold from_origin, nrm, euclid, coords. f_equal. set (n := Z.to_nat (ph_dim (sp_ph s))).
  replace (repeat 0%R n) with (map (fun _ => 0%R) (zseq 0 n)).
  - generalize (zseq 0 n). intros l. induction l as [|c l IH]; cbn [map combine lsum fst snd]; [reflexivity|]. rewrite IH. ring.
  - generalize 0 at 2. induction n as [|n IH]; intros z; cbn [zseq map repeat]; [reflexivity|]. now rewrite IH.
Qed.

(* C27 for NURBS *)
Lemma removal_deviation_nurbs : forall s s' d kv p u first last tol tol' m us, well_formed s -> positive_weights s -> direction s d kv p ->
  removal_range kv p u first last -> (first_knot kv < u)%R -> Z.of_nat (occurrences kv u) <= p -> zlen kv < 2 ^ 31 ->
  weights_nonzero s d (ratio kv p u) first last -> is_largest_distance s m -> (tol < 1 + m)%R -> tolerance_in_use s tol tol' ->
  remove_knot s u d tol 1 = Ok (1, s') ->
  (Z.Odd (p - Z.of_nat (occurrences kv u)) \/ forall cur, In cur (lines_of s d) -> (gap_middle s d (ratio kv p u) first last cur <= tol')%R) ->
  in_domain s us ->
  exists pt pt', evaluate s us (zseq 0 (Z.to_nat (ph_dim (sp_ph s)))) = Ok pt /\
    evaluate s' us (zseq 0 (Z.to_nat (ph_dim (sp_ph s)))) = Ok pt' /\ (euclid pt pt' <= tol * (1 + m) / (1 + m - tol))%R.
Proof.
  intros s s' d kv p u first last tol tol' m us Hwf Hp Hdir Hr Hu Ho Hz Hnz Hm Htm Ht Hrm Hor Hdom.
  destruct (one_removal s s' d kv p u first last tol tol' us Hwf Hdir Hr Hu Ho Hz (or_intror Hnz) Ht Hrm Hor Hdom) as (W & D & Hdom' & Wt & HN).
  fold (coords s). pose proof (coords_valid s) as Hv.
  assert (Hv' : valid_dims s' (coords s)) by (unfold valid_dims in *; now rewrite D).
  assert (Hnb : ~ is_bspline s) by (destruct Hp as (w & E & _); unfold is_bspline; congruence).
  assert (Hm0 : (0 <= m)%R) by (destruct Hm as [(idx & _ & ->) _]; apply euclid_nonneg).
  (* the smallest weight *)
  assert (HS : exists w, is_smallest_weight s w).
  { destruct (min_weight_ok dz (sp_ph s) (wf_phys dz s Hwf)) as (w & _ & [(idx & B & ->) M]).
    { destruct Hp as (w & E & _). unfold is_weighted. now rewrite E. }
    exists (weight s idx). split; [exists idx; split; auto; now apply all_indices_box|].
    intros j Hj. rewrite !weight_p. apply M. now apply all_indices_box. }
  destruct HS as (w & Hw). assert (Et := proj2 Ht Hnb w m Hw Hm).
  assert (Hw0 : (0 < w)%R).
  { destruct Hw as [(idx & B & ->) _]. apply (weight_positive dz); auto. now apply all_indices_box. }
  (* the two weight functions *)
  set (dim := ph_dim (sp_ph s)) in *.
  assert (Hdim : 1 <= dim) by apply Hwf.
  rewrite (parts_split s) in HN by auto. fold (coords s) dim in HN.
  pose proof (nrm_last (coords s) dim (fun c => hsum s us c - hsum s' us c)%R) as HL. cbn beta in HL.
  pose proof (nrm_sub (coords s) dim (fun c => hsum s us c - hsum s' us c)%R) as HA.
  set (Wf := hsum s us dim) in *. set (Wf' := hsum s' us dim) in *.
  assert (EW : weight_function s us = Wf) by (unfold Wf; now rewrite hsum_top).
  assert (EW' : weight_function s' us = Wf') by (unfold Wf'; rewrite <- D; now rewrite hsum_top).
  assert (HWw : (w <= Wf)%R).
  { destruct (basis_unit s us Hwf Hdom) as [B1 B2]. rewrite <- EW. unfold weight_function.
    rewrite <- (Rmult_1_l w), <- B2, <- lsum_scal_r. apply lsum_le. intros idx Hi. apply Rmult_le_compat_l; [now apply B1|]. now apply Hw. }
  assert (HD : (Rabs (Wf - Wf') <= tol')%R) by lra.
  assert (Htp : (0 < 1 + m)%R) by lra.
  assert (Ht0 : (0 <= tol')%R) by (eapply Rle_trans; [apply Rabs_pos | exact HD]).
  assert (Etw : (tol' * (1 + m) = tol * w)%R) by (rewrite Et; field; lra).
  assert (HW' : (w * (1 + m - tol) <= Wf' * (1 + m))%R).
  { assert (Wf - Wf' <= tol')%R by (eapply Rle_trans; [apply Rle_abs | exact HD]). nra. }
  assert (HW0' : (0 < Wf')%R).
  { assert (0 < w * (1 + m - tol))%R by (apply Rmult_lt_0_compat; lra). nra. }
  set (C := fun c => (hsum s us c / Wf)%R). set (C' := fun c => (hsum s' us c / Wf')%R).
  assert (E1 : evaluate s us (coords s) = Ok (map C (coords s))).
  { rewrite (eval_quotient dz s us (coords s)); auto; rewrite EW; [|lra]. apply (f_equal (@Ok (list R))). apply map_ext_in. intros c Hc.
    apply zseq_In in Hc. unfold C. rewrite hsum_low by lia. reflexivity. }
  assert (E2 : evaluate s' us (coords s) = Ok (map C' (coords s))).
  { rewrite (eval_quotient dz s' us (coords s)); auto; rewrite EW'; [|lra]. apply (f_equal (@Ok (list R))). apply map_ext_in. intros c Hc.
    apply zseq_In in Hc. unfold C'. rewrite hsum_low by lia. reflexivity. }
  exists (map C (coords s)), (map C' (coords s)). split; [auto|]. split; [auto|].
  (* the point itself is within m of the origin *)
  assert (HCm : (nrm (coords s) C <= m)%R).
  { destruct (convex_combination dz s us (coords s) Hwf (or_intror Hp) Hdom Hv) as (lam & L1 & L2 & L3).
    rewrite E1 in L3. injection L3 as L3.
    rewrite (nrm_ext _ C (fun c => lsum (fun idx => lam idx * coordinate s idx c)%R (all_indices (npts_of s)))).
    - apply nrm_average; auto. intros idx Hi. rewrite <- from_origin_nrm. now apply Hm.
    - intros c Hc. apply (ext_in_map L3 c Hc). }
  rewrite nrm_euclid.
  rewrite (nrm_ext _ _ (fun c => / Wf' * ((Wf' - Wf) * C c + (hsum s us c - hsum s' us c)))%R).
  2:{ intros c _. unfold C, C'. field. lra. }
  rewrite nrm_scale by (left; now apply Rinv_0_lt_compat).
  assert (HT : (nrm (coords s) (fun c => (Wf' - Wf) * C c + (hsum s us c - hsum s' us c)) <= tol' * m + tol')%R).
  { eapply Rle_trans; [apply nrm_triangle|]. apply Rplus_le_compat; [|lra]. rewrite nrm_abs.
    apply Rmult_le_compat; [apply Rabs_pos | apply nrm_nonneg | rewrite Rabs_minus_sym; exact HD | exact HCm]. }
  apply Rle_trans with (/ Wf' * (tol * w))%R.
  - apply Rmult_le_compat_l; [left; now apply Rinv_0_lt_compat|]. lra.
  - assert (Hd0 : (0 < 1 + m - tol)%R) by lra.
    apply (Rmult_le_reg_l Wf'); [auto|]. rewrite <- Rmult_assoc, Rinv_r, Rmult_1_l by lra.
    apply (Rmult_le_reg_r (1 + m - tol)); [auto|].
    replace (Wf' * (tol * (1 + m) / (1 + m - tol)) * (1 + m - tol))%R with (tol * (Wf' * (1 + m)))%R by (field; lra).
    assert (Htol : (0 <= tol)%R) by nra. nra.
Qed.
End Bound.
